(** The clock of OS/TimedModel beside the timers of OS/TimerModel (StdCppOneShotTimerFactory.cpp, StdCppPeriodicTimerFactory.cpp).
    [ms] is m_timeInMillis / m_periodInMillis (unsigned long; below 2^63, so that std::chrono::milliseconds holds it and the
    deadline does not overflow).  The deadline of the wait_for (55 / 55) is computed when the timer thread enters it: for the
    one-shot timer in the critical section that saw m_isActive (47-55), for the periodic one right after it (47-55) and right after
    each callback (66, 55).  The model takes the moment of the preceding step, a moment not later than that of the code.
    Agent 0's time slot is that of the timer thread; no client has a time-limited wait. *)
From Coq Require Import List ZArith Bool Arith.
Import ListNotations.
From Verif Require Import Spec.Linear Spec.TimerSpec OS.Sched OS.TimerModel OS.TimedModel.
Open Scope Z_scope.

Definition tm_who (l : mlab) : nat := match l with XCall t _ | XStep t | XSpurious t => t | XNat | XTimeout | XNatSpurious => 0%nat end.
(** wait_for is entered: one-shot 55, periodic 55 after 51 and after 66 *)
Definition tm_starts (s : mst) (l : mlab) : bool :=
  match l with XNat => match m_nat s with LCheck | LRun => true | _ => false end | _ => false end.
Definition tm_expiry (ms : Z) (s : mst) (l : mlab) : option Z := match l with XTimeout => Some ms | _ => None end.

Section TM.
  Variables (periodic : bool) (ms : Z) (n : nat).
  Definition tm_timed (may_tick : tst mst -> bool) :=
    t_step mst mlab mcall mres (m_step periodic) tm_who n tm_starts (tm_expiry ms) may_tick.
  (** time passes only while no client can move and the timer thread sleeps, waits with its limit not yet reached, or is in the
      callback (which may take any time) *)
  Definition tm_urgent (x : tst mst) : bool :=
    forallb (fun t => match m_step periodic (t_st x) (XStep t) with Some _ => false | None => true end) (seq 0 n) &&
    match m_nat (t_st x) with
    | LSleep | LRun | LDone => true
    | LTimed => t_now x <? t_since x 0%nat + ms
    | _ => false
    end.
End TM.
