(** Properties of OneShotTimer (C43, C44) and PeriodicTimer (C45).  Agent 0 is the timer itself, including calls its callback makes.
    [m_step false] is the one-shot timer, [m_step true] the periodic one; the label lists [ls] range over all schedules. *)
From Coq Require Import List ZArith Bool Lia Arith.
Import ListNotations.
From Verif Require Import Spec.Linear Spec.TimerSpec OS.Sched OS.TimerModel OS.TimerProofs OS.TimerLiveness.

(** * C43: one-shot, start and stop return?  Not always. *)
(** a single controlling thread that stops the timer during the callback and starts it again can hang in start() forever *)
Theorem c43_start_returns_refuted :
  ~ (forall (ls : list mlab) (s : mst) (es : list (event mcall mres)), exec (m_step false) m_init ls = Some (s, es) ->
       (one_controller es /\ callback_calls_nothing es /\ never_calls MDestroy es) -> m_stuck false s -> forall t, m_idle s t).
Proof. exact start_can_hang. Qed.
Print Assumptions c43_start_returns_refuted.
(** a single controlling thread whose stop() meets the expiry can hang in stop() forever, even if no stop ever takes effect late *)
Theorem c43_stop_returns_refuted :
  ~ (forall (ls : list mlab) (s : mst) (es : list (event mcall mres)), exec (m_step false) m_init ls = Some (s, es) ->
       (one_controller es /\ callback_calls_nothing es /\ never_calls MDestroy es /\ no_late_stop false es) -> m_stuck false s -> forall t, m_idle s t).
Proof. exact stop_can_hang. Qed.
Print Assumptions c43_stop_returns_refuted.
(** a callback that calls stop() and start() deadlocks with itself *)
Theorem c43_callback_returns_refuted :
  ~ (forall (ls : list mlab) (s : mst) (es : list (event mcall mres)), exec (m_step false) m_init ls = Some (s, es) ->
       (one_controller es /\ (forall c, In (Call 1 c) es -> c = MStart)) -> m_stuck false s -> forall t, m_idle s t).
Proof. exact callback_can_hang. Qed.
Print Assumptions c43_callback_returns_refuted.
(** two threads that start, or two that stop, at the same time *)
Theorem c43_two_starters_refuted :
  ~ (forall (ls : list mlab) (s : mst) (es : list (event mcall mres)), exec (m_step false) m_init ls = Some (s, es) ->
       (callback_calls_nothing es /\ never_calls MDestroy es /\ no_late_stop false es /\ only_called_by 1 MStop es) -> m_stuck false s -> forall t, m_idle s t).
Proof. exact two_starts_can_hang. Qed.
Print Assumptions c43_two_starters_refuted.
Theorem c43_two_stoppers_refuted :
  forall (periodic : bool),
  ~ (forall (ls : list mlab) (s : mst) (es : list (event mcall mres)), exec (m_step periodic) m_init ls = Some (s, es) ->
       (callback_calls_nothing es /\ never_calls MDestroy es /\ no_late_stop periodic es /\ only_called_by 1 MStart es) -> m_stuck periodic s -> forall t, m_idle s t).
Proof. exact two_stops_can_hang. Qed.
Print Assumptions c43_two_stoppers_refuted.
(** these are the only ways: if no stop takes effect while the callback is due or running, and no start or stop in progress is
    disturbed, then when nothing can move any more every call has returned *)
Theorem c43_undisturbed_calls_return_partial :
  forall (ls : list mlab) (s : mst) (es : list (event mcall mres)),
    exec (m_step false) m_init ls = Some (s, es) -> undisturbed es -> no_late_stop false es -> never_calls MDestroy es ->
    m_stuck false s -> (forall t, m_idle s t) /\ m_active s = false.
Proof. exact one_shot_calm_no_hang. Qed.
Print Assumptions c43_undisturbed_calls_return_partial.
(** any number of threads, and the callback, may start the timer: without stop() nobody hangs (both kinds of timer) *)
Theorem c43_starts_alone_return_partial :
  forall (periodic : bool) (ls : list mlab) (s : mst) (es : list (event mcall mres)),
    exec (m_step periodic) m_init ls = Some (s, es) -> never_calls MStop es -> m_stuck periodic s -> forall t, m_idle s t.
Proof. exact no_stops_no_hang. Qed.
Print Assumptions c43_starts_alone_return_partial.
(** and a one-shot timer always comes to the point where nothing can move, in a bounded number of steps *)
Theorem c43_one_shot_comes_to_rest :
  forall (n : nat) (ls0 : list mlab) (s : mst) (es0 : list (event mcall mres)) (ls : list mlab) (s' : mst) (es : list (event mcall mres)),
    exec (m_step false) m_init ls0 = Some (s, es0) -> (forall t, n <= t -> m_idle s t) -> (forall l, In l ls -> m_own_step l) ->
    exec (m_step false) s ls = Some (s', es) -> length ls <= n * (2 * n + 10) + 2 * n + 6.
Proof. exact one_shot_comes_to_rest. Qed.
Print Assumptions c43_one_shot_comes_to_rest.
(** client 1 starts and stops in time (waiting for the timer thread to notice), starts again, and the timer fires; the callback
    calls start (no effect) *)
Definition c43_schedule : list mlab :=
  [XNat; XCall 1 MStart; XStep 1; XStep 1; XCall 1 MStop; XStep 1; XNat; XStep 1; XStep 1; XCall 1 MStart; XStep 1; XNat; XStep 1; XStep 1] ++
  [XCall 3 MIsStarted; XStep 3; XStep 3; XNat; XTimeout; XNat; XCall 0 MStart; XStep 0; XStep 0; XNat; XNat; XNat; XCall 2 MIsStarted; XStep 2; XStep 2].
Example c43_case :
  match exec (m_step false) m_init c43_schedule with
  | Some (s, es) =>
      history es = [Call 1 MStart; Ret 1 MVoid; Call 1 MStop; Ret 1 MVoid; Call 1 MStart; Ret 1 MVoid; Call 3 MIsStarted; Ret 3 (MBool true);
                    Call 0 MDue; Ret 0 MVoid; Call 0 MBegin; Ret 0 MVoid; Call 0 MStart; Ret 0 MVoid; Call 0 MEnd; Ret 0 MVoid; Call 2 MIsStarted; Ret 2 (MBool false)] /\
      mmarks false m_new (effects es) = [KStart; KCancel; KStart; KBegin; KEnd] /\ m_stuck false s /\ never_calls MDestroy es
  | None => False
  end.
Proof.
  cbn. split; [reflexivity|]. split; [reflexivity|]. split.
  - split; [intros t; do 4 (destruct t as [|t]; [reflexivity|]); reflexivity|split; reflexivity].
  - intros t H. cbn in H. repeat (destruct H as [H|H]; [discriminate H|]). exact H.
Qed.
Example c43_case_calm : match exec (m_step false) m_init c43_schedule with Some (s, es) => undisturbed es /\ no_late_stop false es | None => False end.
Proof.
  cbn. split; [apply undisturbed_b_sound; reflexivity|]. intros H. cbn in H. repeat (destruct H as [H|H]; [discriminate H|]). exact H.
Qed.
(** three threads and the callback start; no stop *)
Definition c43_starts : list mlab :=
  [XCall 1 MStart; XCall 2 MStart; XStep 2; XStep 1; XNat; XTimeout; XNat; XCall 3 MStart; XCall 0 MStart; XStep 0; XStep 3; XStep 0; XStep 3; XStep 2; XStep 1; XNat; XNat; XNat].
Example c43_starts_case :
  match exec (m_step false) m_init c43_starts with
  | Some (s, es) => never_calls MStop es /\ m_stuck false s /\ mmarks false m_new (effects es) = [KStart; KBegin; KEnd]
  | None => False
  end.
Proof.
  cbn. split; [intros t H; cbn in H; repeat (destruct H as [H|H]; [discriminate H|]); exact H|]. split; [|reflexivity].
  split; [intros t; do 4 (destruct t as [|t]; [reflexivity|]); reflexivity|split; reflexivity].
Qed.

(** * C44: one-shot, one callback per start *)
(** every call takes effect at one instant inside it, the calls and the actions of the timer together obey [mspec], and what happens
    is a sequence of rounds: start, then either a stop in time or exactly one callback *)
Theorem c44_one_shot_fires_once_per_start :
  forall (ls : list mlab) (s : mst) (es : list (event mcall mres)),
    exec (m_step false) m_init ls = Some (s, es) ->
    linearizable (mspec false) m_new (history es) /\
    exists st, sp_run (mspec false) m_new (effects es) st /\ m_on st = m_active s /\ one_shot_history st (mmarks false m_new (effects es)).
Proof. exact one_shot_atomic. Qed.
Print Assumptions c44_one_shot_fires_once_per_start.
(** a started timer that is not stopped fires: when nothing can move any more the timer is off and every start has been followed by its
    callback unless it was cancelled in time (c43_one_shot_comes_to_rest: that point is always reached) *)
Theorem c44_started_timer_fires :
  forall (ls : list mlab) (s : mst) (es : list (event mcall mres)),
    exec (m_step false) m_init ls = Some (s, es) -> never_calls MDestroy es -> m_stuck false s -> m_idle s 0 ->
    m_active s = false /\ sp_run (mspec false) m_new (effects es) (mkMS false Rest false) /\
    exists rounds, mmarks false m_new (effects es) = concat rounds /\ Forall one_shot_round rounds.
Proof. exact one_shot_stuck_rests. Qed.
Print Assumptions c44_started_timer_fires.
(** after a stop, or after the end of the callback, and until the next start: isStarted() answers false, and at most one callback begins,
    none if no expiry was pending *)
Theorem c44_after_stop_partial :
  forall (ls : list mlab) (s : mst) (es es1 : list (event mcall mres)) (u : nat) (c : mcall) (r : mres) (es2 : list (event mcall mres)),
    exec (m_step false) m_init ls = Some (s, es) -> es = es1 ++ Eff u c r :: es2 -> c = MStop \/ (c = MEnd /\ false = false) ->
    (forall t r', ~ In (Eff t MStart r') es2) ->
    m_active s = false /\ (forall t r', In (Eff t MIsStarted r') es2 -> r' = MBool false) /\
    begun es2 <= 1 /\ (dues es1 = begun es1 -> begun es2 = 0).
Proof. exact (after_stop false). Qed.
Print Assumptions c44_after_stop_partial.
(** but a stop() that has returned before the callback began does not always prevent it *)
Theorem c44_stop_prevents_the_callback_refuted :
  ~ (forall (ls : list mlab) (s : mst) (es h1 h2 : list (event mcall mres)),
       exec (m_step false) m_init ls = Some (s, es) -> history es = h1 ++ [Call 1 MStop; Ret 1 MVoid] ++ h2 ->
       (forall t, ~ In (Call t MStart) h2) -> ~ In (Call 0 MBegin) h1 -> ~ In (Call 0 MBegin) h2).
Proof. exact stop_can_come_too_late. Qed.
Print Assumptions c44_stop_prevents_the_callback_refuted.
(** destroy (both kinds): when it has returned the timer thread has ended and nothing is called back ever after; it returns, unless the
    callback itself is blocked *)
Theorem c44_destroyed_timer_is_silent :
  forall (periodic : bool) (ls : list mlab) (s : mst) (es : list (event mcall mres)) (d : nat),
    exec (m_step periodic) m_init ls = Some (s, es) -> In (Call d MDestroy) es -> m_idle s d ->
    m_nat s = LDone /\
    forall (ls' : list mlab) (s' : mst) (es' : list (event mcall mres)), exec (m_step periodic) s ls' = Some (s', es') -> forall c, ~ In (Call 0 c) es'.
Proof. exact timer_destroyed. Qed.
Print Assumptions c44_destroyed_timer_is_silent.
Theorem c44_destroy_returns :
  forall (periodic : bool) (ls : list mlab) (s : mst) (es : list (event mcall mres)),
    exec (m_step periodic) m_init ls = Some (s, es) -> m_stuck periodic s -> m_idle s 0 -> forall t, m_thr s t <> MJoin.
Proof. exact stuck_destroy_returned. Qed.
Print Assumptions c44_destroy_returns.
(** a late stop: the callback still runs, once; then destroy *)
Definition c44_schedule : list mlab :=
  [XNat; XCall 1 MStart; XStep 1; XStep 1; XNat; XTimeout; XCall 1 MStop; XStep 1; XStep 1; XCall 2 MIsStarted; XStep 2; XStep 2; XNat; XNat; XNat; XNat] ++
  [XCall 3 MDestroy; XStep 3; XNat; XStep 3; XStep 3].
Example c44_case :
  match exec (m_step false) m_init c44_schedule with
  | Some (s, es) =>
      history es = [Call 1 MStart; Ret 1 MVoid; Call 0 MDue; Ret 0 MVoid; Call 1 MStop; Ret 1 MVoid; Call 2 MIsStarted; Ret 2 (MBool false);
                    Call 0 MBegin; Ret 0 MVoid; Call 0 MEnd; Ret 0 MVoid; Call 3 MDestroy; Ret 3 MVoid] /\
      mmarks false m_new (effects es) = [KStart; KLate; KBegin; KEnd] /\ m_nat s = LDone /\ m_idle s 3 /\ m_idle s 0
  | None => False
  end.
Proof. vm_compute. repeat split. Qed.

(** * C45: periodic *)
(** atomic, and what happens is a sequence of rounds: start, any number of callbacks one after the other, stop; a stop that comes while
    a callback is due or running lets that one finish and no other *)
Theorem c45_periodic_calls_back_only_while_started :
  forall (ls : list mlab) (s : mst) (es : list (event mcall mres)),
    exec (m_step true) m_init ls = Some (s, es) ->
    linearizable (mspec true) m_new (history es) /\
    exists st, sp_run (mspec true) m_new (effects es) st /\ m_on st = m_active s /\ periodic_history st (mmarks true m_new (effects es)).
Proof. exact periodic_atomic. Qed.
Print Assumptions c45_periodic_calls_back_only_while_started.
(** after a stop - a call of stop(), or a callback that throws, which stops as agent 0 - and until the next start the timer is off, and at
    most the callback that was due is called *)
Theorem c45_after_stop :
  forall (ls : list mlab) (s : mst) (es es1 : list (event mcall mres)) (u : nat) (r : mres) (es2 : list (event mcall mres)),
    exec (m_step true) m_init ls = Some (s, es) -> es = es1 ++ Eff u MStop r :: es2 -> (forall t r', ~ In (Eff t MStart r') es2) ->
    m_active s = false /\ (forall t r', In (Eff t MIsStarted r') es2 -> r' = MBool false) /\
    begun es2 <= 1 /\ (dues es1 = begun es1 -> begun es2 = 0).
Proof. exact (fun ls s es es1 u r es2 E EQ => after_stop true ls s es es1 u MStop r es2 E EQ (or_introl eq_refl)). Qed.
Print Assumptions c45_after_stop.
(** no hang, if one thread starts and one thread stops.  (i) while a call is in progress it is able to move, or the timer thread or its
    callback is; (ii) a call that sleeps is awake again, for good, after three steps of the timer thread; (iii) a call needs at most four
    steps of its own (not counting spurious wake-ups).  So under every fair schedule it returns. *)
Theorem c45_somebody_can_move_partial :
  forall (c d : nat) (ls : list mlab) (s : mst) (es : list (event mcall mres)) (t : nat),
    exec (m_step true) m_init ls = Some (s, es) -> disciplined c d es -> ~ m_idle s t ->
    m_step true s (XStep t) <> None \/ m_step true s XNat <> None \/ m_step true s (XStep 0) <> None.
Proof. exact disciplined_progress. Qed.
Print Assumptions c45_somebody_can_move_partial.
Theorem c45_sleepers_are_woken_partial :
  forall (c d t : nat) (ls0 : list mlab) (s : mst) (es0 : list (event mcall mres)) (ls : list mlab) (s' : mst) (es : list (event mcall mres)),
    exec (m_step true) m_init ls0 = Some (s, es0) -> exec (m_step true) s ls = Some (s', es) -> disciplined c d (es0 ++ es) ->
    (forall y, ~ In (XCall t y) ls) -> (exists x, m_thr s t = MAsleep x) -> (exists y, m_thr s' t = MAsleep y) -> timer_steps ls <= 2.
Proof. exact sleeper_is_woken. Qed.
Print Assumptions c45_sleepers_are_woken_partial.
Theorem c45_a_call_needs_few_steps_partial :
  forall (c d t : nat) (ls ls0 : list mlab) (s : mst) (es0 : list (event mcall mres)) (s' : mst) (es : list (event mcall mres)),
    exec (m_step true) m_init ls0 = Some (s, es0) -> exec (m_step true) s ls = Some (s', es) -> disciplined c d (es0 ++ es) ->
    (forall y, ~ In (XCall t y) ls) -> ~ In (XSpurious t) ls -> steps_of t ls <= 4.
Proof. exact own_steps_bounded. Qed.
Print Assumptions c45_a_call_needs_few_steps_partial.
(** the condition is needed.  A single controlling thread in stop() hangs if the callback throws meanwhile *)
Theorem c45_throwing_callback_refuted :
  ~ (forall (ls : list mlab) (s : mst) (es : list (event mcall mres)), exec (m_step true) m_init ls = Some (s, es) ->
       (one_controller es /\ (forall c, In (Call 0 c) es -> c = MStop \/ c = MDue \/ c = MBegin \/ c = MEnd) /\ never_calls MDestroy es) ->
       m_stuck true s -> forall t, m_idle s t).
Proof. exact throw_can_hang. Qed.
Print Assumptions c45_throwing_callback_refuted.
(** and of two threads that call start() at the same time one may wait for as long as the timer is not stopped again *)
Theorem c45_two_starters_refuted :
  ~ (forall (ls : list mlab) (s : mst) (es : list (event mcall mres)), exec (m_step true) m_init ls = Some (s, es) ->
       callback_calls_nothing es -> never_calls MDestroy es -> only_called_by 1 MStop es ->
       forall t, exists ls' s' es', (forall l, In l ls' -> m_own_step l) /\ exec (m_step true) s ls' = Some (s', es') /\ m_idle s' t).
Proof. exact second_starter_can_wait_forever. Qed.
Print Assumptions c45_two_starters_refuted.
(** client 1 starts; two callbacks; stop during the third; start sleeps until the callback is over *)
Definition c45_schedule : list mlab :=
  [XNat; XCall 1 MStart; XStep 1; XStep 1; XNat; XNat; XTimeout; XNat; XNat; XNat; XTimeout; XNat; XNat; XNat; XTimeout; XNat; XCall 1 MStop; XStep 1; XStep 1] ++
  [XCall 1 MStart; XStep 1].
Example c45_case :
  match exec (m_step true) m_init c45_schedule with
  | Some (s, es) =>
      m_thr s 1 = MAsleep MStart /\ mmarks true m_new (effects es) = [KStart; KBegin; KEnd; KBegin; KEnd; KBegin; KLate] /\
      match exec (m_step true) s [XNat; XNat; XStep 1; XStep 1; XNat] with
      | Some (s', es') => m_idle s' 1 /\ disciplined 1 1 (es ++ es') /\
          mmarks true m_new (effects (es ++ es')) = [KStart; KBegin; KEnd; KBegin; KEnd; KBegin; KLate; KEnd; KStart]
      | None => False
      end
  | None => False
  end.
Proof.
  cbn. split; [reflexivity|]. split; [reflexivity|]. split; [reflexivity|]. split; [|reflexivity].
  split; [discriminate|]. split; [|split]; intros t H; cbn in H; repeat (destruct H as [H|H]; [first [discriminate H|injection H as <-; reflexivity]|]); contradiction H.
Qed.
