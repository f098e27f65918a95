(** Properties of the Windows OneShotTimer and PeriodicTimer (C58, C59).  [w_step false] is the one-shot timer, [w_step true] the
    periodic one; agent 0 is the callback, agents 1, 2, ... are clients, and the label lists [ls] range over all schedules, all
    moments of expiry and all answers of the system. *)
From Coq Require Import List Bool Lia Arith.
Import ListNotations.
From Verif Require Import Spec.Linear Spec.WinTimerSpec OS.Sched OS.WinTimerModel OS.WinTimerProofs OS.WinTimerMore.

(** * C58: start, stop, isStarted and the callbacks *)
(** every call takes effect at one instant inside it; calls and callbacks together obey [wspec] *)
Theorem c58_win_timer_atomic :
  forall (periodic : bool) (ls : list wlab) (s : wst) (es : list (event wcall wres)),
    exec (w_step periodic) w_init ls = Some (s, es) ->
    linearizable (wspec periodic) w_new (history es) /\
    exists st, sp_run (wspec periodic) w_new (effects es) st /\ p_on st = w_on s /\ p_gone st = w_freed s.
Proof. exact (fun p ls s es E => conj (proj1 (win_timer_atomic p ls s es E)) (ex_intro _ (abs p s) (conj (proj2 (win_timer_atomic p ls s es E)) (conj eq_refl eq_refl)))). Qed.
Print Assumptions c58_win_timer_atomic.
(** start, stop and isStarted never wait for a callback or for each other: two steps of the caller and at most one step of the worker
    (which is leaving its critical section) complete any call, also one made by the callback itself *)
Theorem c58_win_calls_never_wait :
  forall (periodic : bool) (ls : list wlab) (s : wst) (es : list (event wcall wres)) (t : nat) (c : wcall),
    exec (w_step periodic) w_init ls = Some (s, es) -> w_thr s t = CAt c -> w_freed s = false ->
    exists (ls' : list wlab) (s' : wst) (es' : list (event wcall wres)), length ls' <= 3 /\ (forall l, In l ls' -> l = YStep t true \/ l = YWork) /\
      exec (w_step periodic) s ls' = Some (s', es') /\ w_idle s' t /\ exists r, In (Ret t r) es'.
Proof. exact win_calls_never_wait. Qed.
Print Assumptions c58_win_calls_never_wait.
Theorem c58_win_call_steps :
  forall (periodic : bool) (s : wst) (ls : list wlab) (s' : wst) (es : list (event wcall wres)) (t : nat) (c : wcall),
    w_thr s t = CAt c -> exec (w_step periodic) s ls = Some (s', es) -> (forall r, ~ In (Ret t r) es) -> w_steps_of t ls <= 1.
Proof. exact win_call_steps. Qed.
Print Assumptions c58_win_call_steps.
(** one-shot: no start yields two callbacks and none is lost: the effective starts are those cancelled by a stop, those that expired and
    those whose time is still running; every callback belongs to an expiry; callbacks do not overlap *)
Theorem c58_win_one_callback_per_start :
  forall (ls : list wlab) (s : wst) (es : list (event wcall wres)), exec (w_step false) w_init ls = Some (s, es) ->
    let l := effects es in
    w_starts l = w_cancels l + w_dues l + length (w_armed s) /\ w_begins l <= w_dues l /\ w_ends l <= w_begins l <= S (w_ends l) /\ alternate false (wmarks l).
Proof. exact win_one_shot_counts. Qed.
Print Assumptions c58_win_one_callback_per_start.
(** a started timer fires: its expiry is possible whenever the worker is free *)
Theorem c58_win_started_timer_can_fire :
  forall (periodic : bool) (ls : list wlab) (s : wst) (es : list (event wcall wres)),
    exec (w_step periodic) w_init ls = Some (s, es) -> w_on s = true -> w_wk s = KFree -> w_freed s = false -> w_step periodic s (YDue (w_id s)) <> None.
Proof. exact win_started_fires. Qed.
Print Assumptions c58_win_started_timer_can_fire.
(** and when nothing can move any more, all calls (also destroy) have returned, the timer is off, and (one-shot) every effective start has
    been cancelled or has had its callback *)
Theorem c58_win_at_rest :
  forall (periodic : bool) (ls : list wlab) (s : wst) (es : list (event wcall wres)),
    exec (w_step periodic) w_init ls = Some (s, es) -> w_stuck periodic s -> w_freed s = false -> w_idle s 0 ->
    (forall t, w_idle s t) /\ w_on s = false /\ (periodic = false -> w_starts (effects es) = w_cancels (effects es) + w_begins (effects es)) /\
    w_begins (effects es) = w_ends (effects es).
Proof. exact win_rest. Qed.
Print Assumptions c58_win_at_rest.
(** which a one-shot timer reaches in a bounded number of steps *)
Theorem c58_win_one_shot_comes_to_rest :
  forall (n : nat) (ls0 : list wlab) (s : wst) (es0 : list (event wcall wres)) (ls : list wlab) (s' : wst) (es : list (event wcall wres)),
    exec (w_step false) w_init ls0 = Some (s, es0) -> (forall t, n <= t -> w_idle s t) -> (forall l, In l ls -> w_own_step l) ->
    exec (w_step false) s ls = Some (s', es) -> length ls <= 8 * n + 6 * w_starts (effects es0) + 5.
Proof. exact win_one_shot_comes_to_rest. Qed.
Print Assumptions c58_win_one_shot_comes_to_rest.
(** periodic: isStarted() tells exactly whether the time is running; nothing is left over from earlier starts; callbacks do not overlap *)
Theorem c58_win_periodic_exact :
  forall (ls : list wlab) (s : wst) (es : list (event wcall wres)), exec (w_step true) w_init ls = Some (s, es) ->
    exists st, sp_run (wspec true) w_new (effects es) st /\ p_on st = w_on s /\ p_cur st = w_on s /\ p_old st = 0 /\
      w_armed s = (if w_on s then [w_id s] else []) /\ alternate false (wmarks (effects es)).
Proof. exact win_periodic_exact. Qed.
Print Assumptions c58_win_periodic_exact.
(** after a stop() that did not miss, and until the next effective start: off, no time running, isStarted() answers false, and at most one
    callback begins, none if no expiry was pending (one-shot: provided the timer is never restarted while a callback is due or running) *)
Theorem c58_win_after_stop_partial :
  forall (periodic : bool) (ls : list wlab) (s : wst) (es es1 : list (event wcall wres)) (u : nat) (r : wres) (es2 : list (event wcall wres)),
    exec (w_step periodic) w_init ls = Some (s, es) -> (periodic = false -> never_restarted_early (effects es)) ->
    es = es1 ++ Eff u WStop r :: es2 -> r <> RMissed -> (forall t, ~ In (Eff t WStart RDone) es2) ->
    w_on s = false /\ w_armed s = [] /\ (forall t r', In (Eff t WIsStarted r') es2 -> r' = RBool false) /\
    w_begins (effects es2) <= 1 /\ (w_dues (effects es1) = w_begins (effects es1) -> w_begins (effects es2) = 0).
Proof. exact win_after_stop. Qed.
Print Assumptions c58_win_after_stop_partial.
(** one-shot, never restarted early: rounds of a start and either a stop in time or exactly one callback *)
Theorem c58_win_one_shot_rounds_partial :
  forall (ls : list wlab) (s : wst) (es : list (event wcall wres)), exec (w_step false) w_init ls = Some (s, es) -> never_restarted_early (effects es) ->
    exists st, sp_run (wspec false) w_new (effects es) st /\ p_on st = w_on s /\ p_old st = 0 /\ w_history st (wmarks (effects es)).
Proof. exact win_one_shot_calm. Qed.
Print Assumptions c58_win_one_shot_rounds_partial.
(** without that proviso: after stop() and start() during a callback, the end of that callback makes isStarted() false and stop() powerless
    although the time is running: the callback comes *)
Theorem c58_win_stopped_timer_is_silent_refuted :
  ~ (forall (ls : list wlab) (s : wst) (es h1 : list (event wcall wres)) (r : wres) (h2 : list (event wcall wres)),
       exec (w_step false) w_init ls = Some (s, es) -> w_only_client 1 es -> w_callback_calls_nothing es ->
       history es = h1 ++ [Call 1 WStop; Ret 1 r; Call 1 WIsStarted; Ret 1 (RBool false)] ++ h2 -> (forall t, ~ In (Call t WStart) h2) ->
       (forall t c, In (Call t c) h1 -> c <> WDue) \/ (exists h0, h1 = h0 ++ [Ret 0 RDone] /\ In (Call 0 WEnd) h0) -> ~ In (Call 0 WBegin) h2).
Proof. exact win_stopped_is_silent_fails. Qed.
Print Assumptions c58_win_stopped_timer_is_silent_refuted.
(** one-shot: isStarted() right after stop() may still be true *)
Theorem c58_win_off_after_stop_refuted :
  ~ (forall (ls : list wlab) (s : wst) (es h1 : list (event wcall wres)) (r : wres) (b : bool),
       exec (w_step false) w_init ls = Some (s, es) -> w_only_client 1 es -> w_callback_calls_nothing es -> never_restarted_early (effects es) ->
       history es = h1 ++ [Call 1 WStop; Ret 1 r; Call 1 WIsStarted; Ret 1 (RBool b)] -> b = false).
Proof. exact win_off_after_stop_fails. Qed.
Print Assumptions c58_win_off_after_stop_refuted.
(** both: a stop() that has returned before the callback began does not always prevent it *)
Theorem c58_win_stop_prevents_the_callback_refuted :
  forall (periodic : bool),
  ~ (forall (ls : list wlab) (s : wst) (es h1 : list (event wcall wres)) (r : wres) (h2 : list (event wcall wres)),
       exec (w_step periodic) w_init ls = Some (s, es) -> w_only_client 1 es -> w_callback_calls_nothing es ->
       history es = h1 ++ [Call 1 WStop; Ret 1 r] ++ h2 -> (forall t, ~ In (Call t WStart) h2) -> ~ In (Call 0 WBegin) h1 -> ~ In (Call 0 WBegin) h2).
Proof. exact win_stop_prevents_fails. Qed.
Print Assumptions c58_win_stop_prevents_the_callback_refuted.

(** one-shot: a stop in time, a start refused by the system, a start without effect, a callback that calls isStarted and start *)
Definition c58_schedule : list wlab :=
  [YCall 1 WStart; YStep 1 true; YStep 1 true; YCall 2 WStop; YStep 2 true; YStep 2 true; YCall 1 WStart; YStep 1 false; YStep 1 true] ++
  [YCall 1 WStart; YStep 1 true; YStep 1 true; YCall 3 WStart; YDue 2; YWork; YStep 3 true; YWork; YCall 0 WIsStarted; YStep 0 true; YStep 0 true; YCall 0 WStart; YStep 0 true] ++
  [YStep 0 true; YWork; YWork; YStep 3 true; YWork; YCall 2 WIsStarted; YStep 2 true; YStep 2 true].
Example c58_case :
  match exec (w_step false) w_init c58_schedule with
  | Some (s, es) =>
      effects es = [(1, WStart, RDone); (2, WStop, RDone); (1, WStart, RRefused); (1, WStart, RDone); (0, WDue, RBool true); (3, WStart, RNone);
                    (0, WBegin, RDone); (0, WIsStarted, RBool true); (0, WStart, RNone); (0, WEnd, RDone); (2, WIsStarted, RBool false)] /\
      wmarks (effects es) = [VStart; VCancel; VStart; VBegin; VEnd] /\ never_restarted_early (effects es) /\ w_stuck false s /\ w_idle s 0 /\ w_freed s = false
  | None => False
  end.
Proof.
  destruct (exec (w_step false) w_init c58_schedule) as [[s es]|] eqn:E; [|vm_compute in E; discriminate].
  vm_compute in E. injection E as <- <-.
  split; [reflexivity|]. split; [reflexivity|]. split; [apply early_sound; reflexivity|]. split; [|split; reflexivity].
  split; [intros t ok; do 4 (destruct t as [|t]; [reflexivity|]); reflexivity|split; [reflexivity|intros i; reflexivity]].
Qed.
(** periodic: two ticks, a late stop, restarted during the callback *)
Definition c58_periodic : list wlab :=
  [YCall 1 WStart; YStep 1 true; YStep 1 true; YDue 1; YWork; YWork; YWork; YWork; YDue 1; YWork; YCall 1 WStop; YStep 1 true; YStep 1 true; YWork] ++
  [YCall 0 WStart; YStep 0 true; YStep 0 true; YWork; YWork; YDue 2; YCall 2 WStop; YStep 2 true; YStep 2 true; YWork; YWork; YWork; YWork].
Example c58_periodic_case :
  match exec (w_step true) w_init c58_periodic with
  | Some (s, es) => wmarks (effects es) = [VStart; VBegin; VEnd; VCancel; VBegin; VStart; VEnd; VCancel; VBegin; VEnd] /\ w_on s = false
  | None => False
  end.
Proof. vm_compute. split; reflexivity. Qed.

(** * C59: destroy *)
(** a timer destroyed when it is off and its callbacks are all over (periodic: the callbacks that were due have all begun) is not used any more
    when its memory has been freed, and no callback begins after the destroy was called *)
Theorem c59_win_destroy_safe_partial :
  forall (periodic : bool) (ls0 : list wlab) (s0 : wst) (es0 : list (event wcall wres)) (d : nat) (ls : list wlab) (s : wst) (es : list (event wcall wres)),
    exec (w_step periodic) w_init ls0 = Some (s0, es0) -> (periodic = false -> never_restarted_early (effects es0)) -> (forall t, w_idle s0 t) -> w_on s0 = false ->
    w_dues (effects es0) = (if periodic then w_begins (effects es0) else w_ends (effects es0)) ->
    (forall l, In l ls -> w_own_step l) -> exec (w_step periodic) s0 (YCall d WDestroy :: ls) = Some (s, es) ->
    ~ dangling s /\ forall c, In (Call 0 c) es -> periodic = true /\ c = WEnd.
Proof. exact win_destroy_safe. Qed.
Print Assumptions c59_win_destroy_safe_partial.
(** in general it is not: a callback that is due and has not yet reset the flag uses the freed object, although there is a single client, the
    callback calls nothing, and the timer was never restarted early *)
Theorem c59_win_destroy_safe_refuted :
  forall (periodic : bool),
  ~ (forall (ls : list wlab) (s : wst) (es : list (event wcall wres)), exec (w_step periodic) w_init ls = Some (s, es) ->
       w_only_client 1 es -> w_callback_calls_nothing es -> never_restarted_early (effects es) -> ~ dangling s).
Proof. exact win_destroy_unsafe. Qed.
Print Assumptions c59_win_destroy_safe_refuted.
(** one-shot: not even when the callback was already running as destroy was called: it unlocks the freed mutex *)
Theorem c59_win_destroy_while_running_refuted :
  ~ (forall (ls0 : list wlab) (s0 : wst) (es0 : list (event wcall wres)) (ls : list wlab) (s : wst) (es : list (event wcall wres)),
       exec (w_step false) w_init ls0 = Some (s0, es0) -> w_only_client 1 es0 -> w_callback_calls_nothing es0 -> never_restarted_early (effects es0) ->
       (forall t, w_idle s0 t) -> w_dues (effects es0) = w_begins (effects es0) -> (forall l, In l ls -> w_own_step l) ->
       exec (w_step false) s0 (YCall 1 WDestroy :: ls) = Some (s, es) -> ~ dangling s).
Proof. exact win_destroy_running_unsafe. Qed.
Print Assumptions c59_win_destroy_while_running_refuted.
(** a callback that calls start() while the timer is being destroyed leaves a running timer behind that will call into the freed object *)
Theorem c59_win_self_restart_unsafe :
  forall (periodic : bool),
  exists (ls : list wlab) (s : wst) (es : list (event wcall wres)),
    exec (w_step periodic) w_init ls = Some (s, es) /\ w_only_client 1 es /\ (forall t c, In (Call t c) es -> t = 0 -> c <> WStop) /\ dangling s /\ w_wk s = KFree /\ w_armed s <> [].
Proof. exact win_self_restart_unsafe. Qed.
Print Assumptions c59_win_self_restart_unsafe.
(** a periodic timer is stopped during its callback and destroyed while the callback still runs *)
Definition c59_before : list wlab := [YCall 1 WStart; YStep 1 true; YStep 1 true; YDue 1; YWork; YWork; YCall 1 WStop; YStep 1 true; YStep 1 true].
Definition c59_destroy : list wlab := [YStep 2 true; YWork; YWork; YStep 2 true; YStep 2 true; YStep 2 true].
Example c59_case :
  match exec (w_step true) w_init c59_before with
  | Some (s0, es0) =>
      (forall t, w_idle s0 t) /\ w_on s0 = false /\ w_dues (effects es0) = w_begins (effects es0) /\ w_ends (effects es0) < w_begins (effects es0) /\
      match exec (w_step true) s0 (YCall 2 WDestroy :: c59_destroy) with
      | Some (s, es) => history es = [Call 2 WStop; Ret 2 RNone; Call 2 WDestroy; Call 0 WEnd; Ret 0 RDone; Ret 2 RDone] /\ w_freed s = true
      | None => False
      end
  | None => False
  end.
Proof. cbn. repeat split; auto. intros t. unfold w_idle. cbn. destruct t as [|[|t]]; reflexivity. Qed.
(** a one-shot timer fires, and is destroyed afterwards *)
Example c59_one_shot_case :
  match exec (w_step false) w_init [YCall 1 WStart; YStep 1 true; YStep 1 true; YDue 1; YWork; YWork; YWork; YWork] with
  | Some (s0, es0) =>
      (forall t, w_idle s0 t) /\ w_on s0 = false /\ w_dues (effects es0) = w_ends (effects es0) /\ w_begins (effects es0) = 1 /\ never_restarted_early (effects es0) /\
      match exec (w_step false) s0 [YCall 2 WDestroy; YWork; YStep 2 true; YStep 2 true; YStep 2 true] with
      | Some (s, es) => w_freed s = true /\ w_thr s 2 = CRet RDone
      | None => False
      end
  | None => False
  end.
Proof. cbn. repeat split; auto. - intros t. unfold w_idle. cbn. destruct t as [|[|t]]; reflexivity. - apply early_sound. reflexivity. Qed.
