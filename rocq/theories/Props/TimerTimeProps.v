(** C67: when timers fire, and how long their calls take.  [timer_marks periodic es]: effective starts, stops, begins and ends of the
    callback, each with its time (Spec/TimerTimeSpec, Spec/TimerSpec); [ms]: the time or period the timer was created with.
    "Not early" holds however the clock runs ([may_tick]); the rest when time passes only while every client waits and the timer
    thread sleeps, waits, or runs the callback (OS/TimerTimeModel.tm_urgent).  Agents 0 .. n-1; agent 0 is the timer's own thread. *)
From Coq Require Import List ZArith Bool Lia Arith.
Import ListNotations.
From Verif Require Import Spec.Linear Spec.TimerSpec Spec.TimedSpec Spec.TimerTimeSpec OS.Sched OS.TimerModel OS.TimedModel OS.TimerTimeModel OS.TimerTimeProofs OS.TimerTimeLate.
Open Scope Z_scope.

(** no callback begins before the time has passed since the start, and since the end of the callback before it *)
Theorem c67_never_early :
  forall (periodic : bool) (ms : Z) (n : nat) (may_tick : tst mst -> bool) (ls : list (tlab mlab)) (x : tst mst) (es : list (Z * event mcall mres)),
    exec (tm_timed periodic ms n may_tick) (t_init m_init) ls = Some (x, es) -> never_early ms (timer_marks periodic es).
Proof. exact tm_never_early. Qed.
Print Assumptions c67_never_early.
(** every callback begins exactly when that time has passed *)
Theorem c67_on_time :
  forall (periodic : bool) (ms : Z) (n : nat), 0 <= ms -> forall (ls : list (tlab mlab)) (x : tst mst) (es : list (Z * event mcall mres)),
    exec (tm_timed periodic ms n (tm_urgent periodic ms n)) (t_init m_init) ls = Some (x, es) -> on_time ms (timer_marks periodic es).
Proof. exact tm_on_time. Qed.
Print Assumptions c67_on_time.
(** no callback is missed: as long as the timer is on (and not destroyed) and the callback does not run, its time is not over *)
Theorem c67_not_late :
  forall (periodic : bool) (ms : Z) (n : nat), 0 <= ms ->
    forall (ls : list (tlab mlab)) (x : tst mst) (es : list (Z * event mcall mres)) (s : mstate),
    exec (tm_timed periodic ms n (tm_urgent periodic ms n)) (t_init m_init) ls = Some (x, es) ->
    sp_run (mspec periodic) m_new (effects (map snd es)) s -> m_on s = true -> m_phase s <> Running -> m_dead s = false ->
    exists t0, last_armed (timer_marks periodic es) = Some t0 /\ t0 <= t_now x <= t0 + ms.
Proof. exact tm_not_late. Qed.
Print Assumptions c67_not_late.
(** the callback after [length ps] earlier ones: periods add up, and so do the times the callbacks took *)
Theorem c67_kth_callback :
  forall (periodic : bool) (ms : Z) (n : nat) (ls : list (tlab mlab)) (x : tst mst) (es : list (Z * event mcall mres))
    (a : list (Z * mmark)) (t0 : Z) (ps : list (Z * Z)) (b : Z) (d : list (Z * mmark)), 0 <= ms ->
    exec (tm_timed periodic ms n (tm_urgent periodic ms n)) (t_init m_init) ls = Some (x, es) ->
    timer_marks periodic es = a ++ (t0, KStart) :: pairs ps ++ (b, KBegin) :: d ->
    b = t0 + (Z.of_nat (length ps) + 1) * ms + durations ps.
Proof. exact tm_kth_callback. Qed.
Print Assumptions c67_kth_callback.
(** so a periodic timer does not fire every [ms]: callbacks that take 5 with period 10 begin at 10, 25, 40 *)
Theorem c67_fixed_rate_refuted :
  ~ (forall (ms : Z) (n : nat) (ls : list (tlab mlab)) (x : tst mst) (es : list (Z * event mcall mres)) a t1 e1 t2 d,
       exec (tm_timed true ms n (tm_urgent true ms n)) (t_init m_init) ls = Some (x, es) ->
       timer_marks true es = a ++ (t1, KBegin) :: (e1, KEnd) :: (t2, KBegin) :: d -> t2 = t1 + ms).
Proof. exact fixed_rate_refuted. Qed.
Print Assumptions c67_fixed_rate_refuted.

(** destroying a timer waits for a running callback, but never for the rest of the period *)
Theorem c67_destroy_waits_only_for_the_callback :
  forall (periodic : bool) (ms : Z) (n : nat) (ls : list (tlab mlab)) (x : tst mst) (es : list (Z * event mcall mres)) (x' : tst mst) (t : nat) (t0 : Z) (s : mstate),
    exec (tm_timed periodic ms n (tm_urgent periodic ms n)) (t_init m_init) ls = Some (x, es) ->
    tm_timed periodic ms n (tm_urgent periodic ms n) x TTick = Some (x', []) ->
    pending es t t0 MDestroy -> sp_run (mspec periodic) m_new (effects (map snd es)) s -> m_phase s = Running.
Proof. exact tm_destroy_waits. Qed.
Print Assumptions c67_destroy_waits_only_for_the_callback.
(** one-shot: start, stop and isStarted take no time when no stop comes during the callback and no start or stop is disturbed by
    another one (the conditions of C43) *)
Theorem c67_one_shot_calls_take_no_time_partial :
  forall (ms : Z) (n : nat) (ls : list (tlab mlab)) (x : tst mst) (es : list (Z * event mcall mres)),
    exec (tm_timed false ms n (tm_urgent false ms n)) (t_init m_init) ls = Some (x, es) ->
    undisturbed (map snd es) -> no_late_stop false (map snd es) -> never_calls MDestroy (map snd es) -> instant (fun _ => True) (t_now x) es.
Proof. exact tm_calm_instant. Qed.
Print Assumptions c67_one_shot_calls_take_no_time_partial.
(** periodic, one thread starting and one stopping (the conditions of C45): stop and isStarted take no time, start waits only for
    a running callback *)
Theorem c67_periodic_calls_take_no_time_partial :
  forall (ms : Z) (n c d : nat) (ls : list (tlab mlab)) (x : tst mst) (es : list (Z * event mcall mres)),
    exec (tm_timed true ms n (tm_urgent true ms n)) (t_init m_init) ls = Some (x, es) -> disciplined c d (map snd es) ->
    instant (fun k => k <> MStart) (t_now x) es.
Proof. exact tm_disciplined_instant. Qed.
Print Assumptions c67_periodic_calls_take_no_time_partial.
Theorem c67_periodic_start_waits_only_for_the_callback_partial :
  forall (ms : Z) (n c d : nat) (ls : list (tlab mlab)) (x : tst mst) (es : list (Z * event mcall mres)) (x' : tst mst) (t : nat) (t0 : Z) (s : mstate),
    exec (tm_timed true ms n (tm_urgent true ms n)) (t_init m_init) ls = Some (x, es) -> disciplined c d (map snd es) ->
    tm_timed true ms n (tm_urgent true ms n) x TTick = Some (x', []) -> pending es t t0 MStart ->
    sp_run (mspec true) m_new (effects (map snd es)) s -> m_phase s = Running.
Proof. exact tm_start_waits. Qed.
Print Assumptions c67_periodic_start_waits_only_for_the_callback_partial.

(** time can always go on *)
Theorem c67_clock_goes_on :
  forall (periodic : bool) (ms : Z) (n : nat), (0 < n)%nat -> forall (ls0 : list (tlab mlab)) (x : tst mst) (es0 : list (Z * event mcall mres)),
    exec (tm_timed periodic ms n (tm_urgent periodic ms n)) (t_init m_init) ls0 = Some (x, es0) ->
    exists ls x1 es1, (length ls <= n * (4 * n + 30) + (4 * n + 20))%nat /\
      exec (tm_timed periodic ms n (tm_urgent periodic ms n)) x ls = Some (x1, es1) /\ t_now x1 = t_now x /\
      tm_timed periodic ms n (tm_urgent periodic ms n) x1 TTick = Some (mkT (t_st x1) (t_now x + 1) (t_since x1), []).
Proof. exact tm_clock_goes_on. Qed.
Print Assumptions c67_clock_goes_on.

(** one-shot timer of 10: started at 3, stopped at 7, started at 8; the callback runs from 18 to 21; started again at 22 *)
Definition c67_one_shot_schedule : list (tlab mlab) :=
  [TAct XNat] ++ repeat TTick 3 ++ map TAct [XCall 1%nat MStart; XStep 1; XNat; XStep 1] ++ repeat TTick 4 ++
  map TAct [XCall 1%nat MStop; XStep 1; XStep 1; XNat; XNat] ++ repeat TTick 1 ++ map TAct [XCall 1%nat MStart; XStep 1; XNat; XStep 1; XNatSpurious; XNat] ++
  repeat TTick 10 ++ map TAct [XTimeout; XNat] ++ repeat TTick 3 ++ map TAct [XNat; XNat; XNat] ++ repeat TTick 1 ++ map TAct [XCall 1%nat MStart; XStep 1; XNat; XStep 1] ++ repeat TTick 9.
Example c67_one_shot_case :
  match exec (tm_timed false 10 2 (tm_urgent false 10 2)) (t_init m_init) c67_one_shot_schedule with
  | Some (x, es) =>
      timer_marks false es = [(3, KStart); (7, KCancel); (8, KStart); (18, KBegin); (21, KEnd); (22, KStart)] /\ t_now x = 31 /\
      m_active (t_st x) = true /\ pending (firstn 1 es) 1 3 MStart
  | None => False
  end.
Proof. vm_compute. repeat split. exists [], []. split; [reflexivity|]. intros y []. Qed.
(** periodic timer of 10 whose callbacks take 5; destroyed at 47, during a period *)
Definition c67_periodic_schedule : list (tlab mlab) := fixed_rate_schedule ++ repeat TTick 5 ++ map TAct [XNat; XNat] ++ repeat TTick 2 ++
  map TAct [XCall 1%nat MDestroy; XStep 1; XNat; XStep 1; XStep 1].
Example c67_periodic_case :
  match exec (tm_timed true 10 2 (tm_urgent true 10 2)) (t_init m_init) c67_periodic_schedule with
  | Some (x, es) =>
      timer_marks true es = [(0, KStart); (10, KBegin); (15, KEnd); (25, KBegin); (30, KEnd); (40, KBegin); (45, KEnd)] /\
      filter (fun y => match snd y with Call 1%nat _ | Ret 1%nat _ => true | _ => false end) es =
        [(0, Call 1%nat MStart); (0, Ret 1%nat MVoid); (47, Call 1%nat MDestroy); (47, Ret 1%nat MVoid)]
  | None => False
  end.
Proof. vm_compute. split; reflexivity. Qed.
