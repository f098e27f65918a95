(** Model of Thread::handleException and threadMain (mechanism/OSWrapper/Thread.cpp:103-145) and of the timers'
    handleException and timerMain (mechanism/OSWrapper/OneShotTimer.cpp:39-82 and PeriodicTimer.cpp:39-82, equal but for
    the class name), compiled with exceptions.  User code (run, the handlers) and the platform's stop() may do anything:
    they may change the handlers set, return or throw. *)
From Coq Require Import String List Bool.
Import ListNotations.
From Verif Require Import Spec.HandlerSpec.

(** a piece of code: from the handlers set, the acts, the handlers set afterwards, and how it ended *)
Definition code := cfg -> list act * cfg * outcome.
Definition done : code := fun c => ([], c, Normal).
(** a; b : b runs only if a did not throw *)
Definition seq (a b : code) : code := fun c =>
  match a c with
  | (t1, c1, Throws x) => (t1, c1, Throws x)
  | (t1, c1, Normal) => match b c1 with (t2, c2, o) => (t1 ++ t2, c2, o) end
  end.
(** try { a } catch: [k x] handles exception [x] *)
Definition try_catch (a : code) (k : exn -> code) : code := fun c =>
  match a c with
  | (t1, c1, Throws x) => match k x c1 with (t2, c2, o) => (t1 ++ t2, c2, o) end
  | r => r
  end.
(** an external call *)
Definition ext (a : act) (f : cfg -> cfg * outcome) : code := fun c => let (c1, o) := f c in ([a], c1, o).

Record env := mkEnv {
  e_run : cfg -> cfg * outcome;
  e_stop : cfg -> cfg * outcome;
  e_handle : nat -> string -> cfg -> cfg * outcome
}.

Section Main.
  Variable E : env.
  Variable timer : bool.     (* a timer: handleException calls stop() first (OneShotTimer.cpp:43) *)

  (** Thread.cpp:107-111, OneShotTimer.cpp:44-48 *)
  Definition dispatch (msg : string) : code := fun c =>
    match own c with
    | Some h => ext (AHandle h msg) (e_handle E h msg) c
    | None => match dflt c with Some h => ext (AHandle h msg) (e_handle E h msg) c | None => done c end
    end.
  (** Thread.cpp:103-119, OneShotTimer.cpp:39-56 *)
  Definition handle_exception (msg : string) : code :=
    try_catch (if timer then seq (ext AStop (e_stop E)) (dispatch msg) else dispatch msg) (fun _ => done).
  (** Thread.cpp:125-145, OneShotTimer.cpp:62-82; [runnable]: m_runnable is not null *)
  Definition main (runnable : bool) : code :=
    try_catch (if runnable then ext ARun (e_run E) else done)
      (fun x => match x with
                | XStd w => handle_exception w
                | XFailure m => handle_exception m
                | XOther => handle_exception "Unknown Exception"%string
                end).
End Main.
