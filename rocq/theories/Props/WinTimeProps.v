(** C84: the Windows timers fire on time.  [periodic = false]: OneShotTimer, [true]: PeriodicTimer.  The notions are in Spec/WinTimeSpec and
    Spec/WinTimerSpec: [timing periodic es] is the time of the last effective start, if the time is running, and the number of expiries since.
    [may_tick]: any way the clock may run; [v_urgent n]: time passes only while a callback runs or the worker has nothing to do, and no call is
    in progress except a destructor that waits for the callback. *)
From Coq Require Import List ZArith Bool Lia Arith.
Import ListNotations.
From Verif Require Import Spec.Linear Spec.WinTimerSpec Spec.WinTimeSpec OS.Sched OS.WinTimerModel OS.WinTimerMore OS.WinTimeModel OS.WinTimeProofs OS.WinTimeMore.
Open Scope Z_scope.

(** the (k+1)-th expiry since a start does not come before (k+1) periods, a callback not before its expiry; a one-shot callback not before [ms]
    since the last start (one-shot: provided the timer is never restarted while a callback is due or running) *)
Theorem c84_never_early_partial :
  forall (periodic : bool) (ms : Z) (may_tick : vst -> bool) (ls : list vlab) (s : vst) (es : stamped),
    exec (v_step periodic ms may_tick) v_init ls = Some (s, es) -> (periodic = false -> never_restarted_early (effects (untimed es))) ->
    never_early periodic ms es /\ (periodic = false -> after_last_start ms es).
Proof. exact win_never_early. Qed.
Print Assumptions c84_never_early_partial.
(** one-shot, however it is used: when a callback begins, at least as many effective starts as callbacks so far, this one included, lie [ms] or more back *)
Theorem c84_as_many_starts_as_callbacks :
  forall (ms : Z) (may_tick : vst -> bool) (ls : list vlab) (s : vst) (es : stamped),
    exec (v_step false ms may_tick) v_init ls = Some (s, es) ->
    forall (a : stamped) (t1 : Z) (t : nat) (r : wres) (d : stamped), es = a ++ (t1, Eff t WBegin r) :: d ->
      (S (w_begins (effects (untimed a))) <= starts_until (t1 - ms)%Z a)%nat.
Proof. exact win_as_many_starts. Qed.
Print Assumptions c84_as_many_starts_as_callbacks.
(** every expiry comes exactly on time - no drift adds up - or as soon as the callback before it has ended, and none is left out; its callback
    begins at once: one-shot, exactly [ms] after the last start *)
Theorem c84_on_time_partial :
  forall (periodic : bool) (ms : Z), 0 <= ms -> forall (n : nat) (ls : list vlab) (s : vst) (es : stamped),
    exec (v_step periodic ms (v_urgent n)) v_init ls = Some (s, es) -> (periodic = false -> never_restarted_early (effects (untimed es))) ->
    on_time periodic ms es /\ never_overdue periodic ms (v_now s) es /\ (periodic = false -> exactly_after_last_start ms es).
Proof. exact win_on_time. Qed.
Print Assumptions c84_on_time_partial.
(** a periodic timer calls back once per period since its start: with no callback due or in progress, and the last one not too long, the number of
    expiries since the start is the number of periods passed *)
Theorem c84_one_callback_per_period :
  forall (ms : Z) (n : nat) (ls : list vlab) (s : vst) (es : stamped), 0 <= ms -> exec (v_step true ms (v_urgent n)) v_init ls = Some (s, es) ->
    forall t0 k, timing true es = Some (t0, k) -> w_dues (effects (untimed es)) = w_ends (effects (untimed es)) -> last_end es <= t0 + (k + 1) * ms ->
    0 <= k /\ t0 + k * ms <= v_now s <= t0 + (k + 1) * ms.
Proof. exact win_one_per_period. Qed.
Print Assumptions c84_one_callback_per_period.
(** the clock never stops while the object lives: at most 4n+5 steps of calls in progress, of the system and of the worker, and time goes on *)
Theorem c84_clock_goes_on :
  forall (periodic : bool) (ms : Z) (n : nat) (ls0 : list vlab) (s : vst) (es0 : stamped),
    exec (v_step periodic ms (v_urgent n)) v_init ls0 = Some (s, es0) ->
    exists ls s1 es1, (length ls <= 4 * n + 5)%nat /\ (forall l, In l ls -> v_own l) /\ exec (v_step periodic ms (v_urgent n)) s ls = Some (s1, es1) /\ v_now s1 = v_now s /\
      (w_freed (v_w s1) = true \/ exists s2, v_step periodic ms (v_urgent n) s1 VTick = Some (s2, []) /\ v_now s2 = v_now s + 1).
Proof. exact win_clock_goes_on. Qed.
Print Assumptions c84_clock_goes_on.
(** a one-shot timer that is restarted during its callback may call back too early: with a single client, sooner than [ms] after the last start *)
Theorem c84_never_early_refuted :
  ~ (forall (ms : Z) (n : nat) (ls : list vlab) (s : vst) (es : stamped),
       exec (v_step false ms (v_urgent n)) v_init ls = Some (s, es) -> w_only_client 1 (untimed es) -> after_last_start ms es).
Proof. exact win_early_when_restarted. Qed.
Print Assumptions c84_never_early_refuted.

(** one-shot, 10 ms: started at 3; called back at 13, for 4 ms; started at 20, stopped at 25; started at 26, called back at 36 *)
Definition c84_schedule : list vlab :=
  let call c := map VL [YCall 1 c; YStep 1 true; YStep 1 true] in
  repeat VTick 3 ++ call WStart ++ repeat VTick 10 ++ map VL [YDue 1; YWork; YWork] ++ repeat VTick 4 ++ map VL [YWork; YWork; YWork] ++ repeat VTick 3 ++ call WStart ++
  repeat VTick 5 ++ call WStop ++ [VTick] ++ call WStart ++ repeat VTick 10 ++ map VL [YDue 3; YWork; YWork; YWork; YWork; YWork].
Example c84_case :
  match exec (v_step false 10 (v_urgent 3)) v_init c84_schedule with
  | Some (s, es) => filter (fun y => match snd y with Eff _ _ _ => true | _ => false end) es =
      [(3, Eff 1%nat WStart RDone); (13, Eff 0%nat WDue (RBool true)); (13, Eff 0%nat WBegin RDone); (17, Eff 0%nat WEnd RDone); (20, Eff 1%nat WStart RDone); (25, Eff 1%nat WStop RDone);
       (26, Eff 1%nat WStart RDone); (36, Eff 0%nat WDue (RBool true)); (36, Eff 0%nat WBegin RDone); (36, Eff 0%nat WEnd RDone)] /\
      never_restarted_early (effects (untimed es)) /\ timing false es = None /\ starts_until 26 es = 3%nat /\ v_now s = 36
  | None => False
  end.
Proof.
  destruct (exec (v_step false 10 (v_urgent 3)) v_init c84_schedule) as [[s es]|] eqn:E; [|vm_compute in E; discriminate]. vm_compute in E. injection E as <- <-.
  split; [reflexivity|]. split; [apply early_sound; reflexivity|]. repeat split.
Qed.
(** periodic, 10 ms: started at 2; called back at 12 (for 15 ms: too long), 27, 32; stopped during that callback and destroyed *)
Definition c84_periodic : list vlab :=
  repeat VTick 2 ++ map VL [YCall 1 WStart; YStep 1 true; YStep 1 true] ++ repeat VTick 10 ++ map VL [YDue 1; YWork; YWork] ++ repeat VTick 15 ++ map VL [YWork; YWork; YDue 1; YWork; YWork] ++ repeat VTick 2 ++
  map VL [YWork; YWork] ++ repeat VTick 3 ++ map VL [YDue 1; YWork; YWork; YCall 1 WDestroy; YStep 1 true] ++ repeat VTick 6 ++ map VL [YWork; YWork; YStep 1 true; YStep 1 true; YStep 1 true].
Example c84_periodic_case :
  match exec (v_step true 10 (v_urgent 3)) v_init c84_periodic with
  | Some (s, es) => filter (fun y => match snd y with Eff _ _ _ => true | _ => false end) es =
      [(2, Eff 1%nat WStart RDone); (12, Eff 0%nat WDue (RBool true)); (12, Eff 0%nat WBegin RDone); (27, Eff 0%nat WEnd RDone); (27, Eff 0%nat WDue (RBool true)); (27, Eff 0%nat WBegin RDone);
       (29, Eff 0%nat WEnd RDone); (32, Eff 0%nat WDue (RBool true)); (32, Eff 0%nat WBegin RDone); (32, Eff 1%nat WStop RDone); (38, Eff 0%nat WEnd RDone); (38, Eff 1%nat WDestroy RDone)] /\
      v_now s = 38 /\ w_freed (v_w s) = true
  | None => False
  end.
Proof. vm_compute. repeat split. Qed.
(** hypotheses of c84_one_callback_per_period: started at 2; at 31, between its second and third callbacks *)
Example c84_per_period_case :
  match exec (v_step true 10 (v_urgent 3)) v_init (firstn 44 c84_periodic) with
  | Some (s, es) => timing true es = Some (2, 2) /\ w_dues (effects (untimed es)) = w_ends (effects (untimed es)) /\ last_end es = 29 /\ v_now s = 31
  | None => False
  end.
Proof. vm_compute. repeat split. Qed.
