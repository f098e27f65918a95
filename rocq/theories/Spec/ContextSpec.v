(** Calls made outside threads (interrupt handlers, timer callbacks): mechanism/OSWrapper/Mutex.h:54-90.
    [nt] says which callers are not threads.  Such a caller owns nothing and may not wait: its calls to lock give
    CalledByNonThread, its calls to unlock fail, and nothing it does shows in what the threads observe. *)
From Coq Require Import List Bool Arith.
Import ListNotations.
From Verif Require Import Spec.OSError Spec.Linear Spec.MutexSpec.

Section Spec.
  Variable M : nat.
  Variable nt : nat -> bool.
  Definition cspec (s : option (nat * nat)) (t : nat) (c : mcall) (r : err) (s' : option (nat * nat)) : Prop :=
    if nt t then s' = s /\ r = (if is_lock c then CalledByNonThread else OtherError)
    else mspec M s t c r s'.
  (** who made an event *)
  Definition who (e : event mcall err) : nat := match e with Call t _ => t | Eff t _ _ => t | Ret t _ => t end.
  (** what the threads see of a history *)
  Definition of_threads (h : list (event mcall err)) : list (event mcall err) := filter (fun e => negb (nt (who e))) h.
  Definition of_handlers (h : list (event mcall err)) : list (event mcall err) := filter (fun e => nt (who e)) h.
End Spec.
(** Mutex.h:54-90, the results each call is documented to have when it is not made by a thread *)
Definition documented_outside (c : mcall) (r : err) : Prop :=
  match c with
  | MLock | MTimedLock _ => r = CalledByNonThread      (* 58, 78 *)
  | MTryLock => False                                  (* 65-67: OK and TimedOut only, a handler never gets the mutex *)
  | MUnlock => r = NotLocked                           (* 88: the caller has not locked this mutex *)
  end.
(** the calls of caller [t] that have returned, with their results *)
Fixpoint results_from (t : nat) (cur : option mcall) (h : list (event mcall err)) : list (mcall * err) :=
  match h with
  | [] => []
  | Call u c :: h' => results_from t (if Nat.eqb u t then Some c else cur) h'
  | Ret u r :: h' =>
      if Nat.eqb u t then (match cur with Some c => [(c, r)] | None => [] end) ++ results_from t None h'
      else results_from t cur h'
  | Eff _ _ _ :: h' => results_from t cur h'
  end.
Definition results (t : nat) (h : list (event mcall err)) : list (mcall * err) := results_from t None h.
