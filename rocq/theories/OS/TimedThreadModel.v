(** A clock (OS/TimedModel) beside the model of StdCppThread (OS/ThreadModel).
    StdCppThreadFactory.cpp:83-95: timedWait locks m_mutex and calls wait_for, which computes its deadline once, on entry; here the
    deadline is counted from the call itself, that is, perhaps earlier than in the code (the time to lock m_mutex is neglected). *)
From Coq Require Import List ZArith Bool Arith.
Import ListNotations.
From Verif Require Import Spec.OSError Spec.Linear Spec.ThreadSpec OS.Sched OS.ThreadModel OS.TimedModel.
Open Scope Z_scope.

(** agent 0 is the thread itself *)
Definition th_who (l : ThreadModel.tlab) : nat := match l with TCall t _ | TStep t | TTimeout t | TSpurious t => t | NStep | NSpurious => 0%nat end.
Definition th_starts (s : ThreadModel.tst) (l : ThreadModel.tlab) : bool := match l with TCall _ _ => true | _ => false end.
Definition th_expiry (s : ThreadModel.tst) (l : ThreadModel.tlab) : option Z :=
  match l with TTimeout t => match t_thr s t with TAsleep (TWait ms) => Some ms | _ => None end | _ => None end.                 (* 89 *)
(** the steps that take no time: all but the run() of the thread's runnable *)
Definition th_prompt (s : ThreadModel.tst) (l : ThreadModel.tlab) : option (ThreadModel.tst * list (event tcall tres)) :=
  match l, t_nat s with NStep, NRun => None | _, _ => ThreadModel.t_step s l end.
Definition th_go (t : nat) : ThreadModel.tlab := match t with O => NStep | _ => TStep t end.
Section TH.
  Variable n : nat.               (* the agents are 0 .. n-1 *)
  Definition th_timed (may_tick : tst ThreadModel.tst -> bool) :=
    t_step ThreadModel.tst ThreadModel.tlab tcall tres ThreadModel.t_step th_who n th_starts th_expiry may_tick.
  (** time passes only when every client waits or has no call, no limit has been reached, and the thread itself waits or is in run() *)
  Definition th_urgent : tst ThreadModel.tst -> bool := urgent th_prompt th_who n th_expiry th_go TTimeout.
End TH.
