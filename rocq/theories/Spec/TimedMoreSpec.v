(** How long the calls of Thread and ThreadPool may take (the notions are those of Spec/TimedSpec). *)
From Coq Require Import ZArith List.
From Verif Require Import Spec.OSError Spec.TimedSpec Spec.ThreadSpec Spec.ThreadPoolSpec.
Open Scope Z_scope.

(** Thread: timedWait has the time limit of its argument; start and isFinished do not wait; the destructor has no limit.  (TBegin and
    TEnd are not calls of clients: the thread enters its runnable's run(), and takes note of its end - at once.) *)
Definition thread_limit (c : tcall) : option Z :=
  match c with TWait ms => of_ms ms | TStart | TIsFinished | TBegin | TEnd => Some 0 | TDestroy => None end.
Definition thread_timed_out (r : tres) : Prop := r = RErr TimedOut.

(** ThreadPool: timedStart and WaitGuard::timedWait have the time limit of their argument; isValid does not wait; release has no limit *)
Definition pool_limit (c : pcall) : option Z :=
  match c with PStart _ ms _ _ | PWait _ ms => of_ms ms | PIsValid _ => Some 0 | PRelease _ | PBegin _ _ | PEnd _ _ => None end.
Definition pool_timed_out (r : pres) : Prop := r = PErr TimedOut.
(** the calls of a WaitGuard with a limit *)
Definition guard_limit (c : pcall) : option Z := match c with PStart _ _ _ _ => None | _ => pool_limit c end.
