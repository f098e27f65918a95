(** C42: what happens to exceptions thrown by a Runnable.  [E]: any behaviour of run(), of the platform's stop() and of the
    handlers, which may themselves throw and set other handlers; [c]: the handlers set when the main function begins. *)
From Coq Require Import String List Bool.
Import ListNotations.
From Verif Require Import Spec.HandlerSpec OS.HandlerModel OS.HandlerProofs.

(** nothing escapes, for threads and timers, with or without runnable *)
Theorem c42_nothing_escapes :
  forall (E : env) (timer runnable : bool) (c : cfg), snd (main E timer runnable c) = Normal.
Proof. exact nothing_escapes. Qed.
Print Assumptions c42_nothing_escapes.
(** no exception: no handler, no stop *)
Theorem c42_normal_run :
  forall (E : env) (timer : bool) (c c1 : cfg), e_run E c = (c1, Normal) -> main E timer true c = ([ARun], c1, Normal).
Proof. exact normal_run. Qed.
Print Assumptions c42_normal_run.
(** a thread whose run() throws: exactly one handler call, of the object's handler if there is one, else of the default,
    with the message of the exception - as the handlers are set when run() throws *)
Theorem c42_thread_dispatch :
  forall (E : env) (c c1 : cfg) (x : exn), e_run E c = (c1, Throws x) ->
    fst (fst (main E false true c)) = ARun :: handling c1 x.
Proof. exact thread_dispatch. Qed.
Print Assumptions c42_thread_dispatch.
(** a timer is stopped first; the handlers are looked up after that *)
Theorem c42_timer_dispatch :
  forall (E : env) (c c1 c2 : cfg) (x : exn), e_run E c = (c1, Throws x) -> e_stop E c1 = (c2, Normal) ->
    fst (fst (main E true true c)) = ARun :: AStop :: handling c2 x.
Proof. exact timer_dispatch. Qed.
Print Assumptions c42_timer_dispatch.
(** should stop() itself throw, no handler is called *)
Theorem c42_timer_stop_throws :
  forall (E : env) (c c1 c2 : cfg) (x y : exn), e_run E c = (c1, Throws x) -> e_stop E c1 = (c2, Throws y) ->
    fst (fst (main E true true c)) = [ARun; AStop].
Proof. exact timer_stop_throws. Qed.
Print Assumptions c42_timer_stop_throws.
(** a handler that throws, and removes itself; the object's handler has priority over the default *)
Example c42_case :
  let E := mkEnv (fun c => (c, Throws (XFailure "boom"))) (fun c => (c, Normal)) (fun h m c => (mkCfg None (dflt c), Throws XOther)) in
  main E true true (mkCfg (Some 1) (Some 2)) = ([ARun; AStop; AHandle 1 "boom"], mkCfg None (Some 2), Normal) /\
  main E false true (mkCfg None (Some 2)) = ([ARun; AHandle 2 "boom"], mkCfg None (Some 2), Normal) /\
  main E false true (mkCfg None None) = ([ARun], mkCfg None None, Normal).
Proof. repeat split. Qed.
