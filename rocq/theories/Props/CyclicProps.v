(** C83: the Itron platform's PeriodicTimer fires on time.  The notions are in Spec/CyclicSpec: [running es] is the time of the last start that
    is still in force and the number of callbacks since.  [may_tick]: any way the clock may run; [y_urgent n]: time passes only while the
    callback runs, or when no call is in progress and no callback is due. *)
From Coq Require Import List ZArith Bool Lia Arith.
Import ListNotations.
From Verif Require Import Spec.Linear Spec.CyclicSpec OS.Sched OS.CyclicModel OS.CyclicProofs.
Open Scope Z_scope.

(** the (k+1)-th callback since a start does not begin before (k+1) periods; one callback at a time, only while the timer is on; isStarted
    tells whether it is on *)
Theorem c83_never_early :
  forall (ms : Z) (may_tick : yst -> bool) (ls : list ylab) (s : yst) (es : yevents),
    exec (y_step ms may_tick) y_init ls = Some (s, es) -> never_early ms es /\ one_at_a_time es /\ told_truly es.
Proof. exact cyc_never_early. Qed.
Print Assumptions c83_never_early.
(** every call returns what it gave when it took effect (isStarted: the answer of c83_never_early) *)
Theorem c83_returned_as_given :
  forall (ms : Z) (may_tick : yst -> bool) (ls : list ylab) (s : yst) (es : yevents),
    exec (y_step ms may_tick) y_init ls = Some (s, es) -> returned_as_given es.
Proof. exact cyc_returned. Qed.
Print Assumptions c83_returned_as_given.
(** it begins exactly then - no drift adds up - or as soon as the one before it has ended; and none is left out *)
Theorem c83_on_time :
  forall (ms : Z), 0 < ms -> forall (n : nat) (ls : list ylab) (s : yst) (es : yevents),
    exec (y_step ms (y_urgent n)) y_init ls = Some (s, es) -> on_time ms es /\ never_overdue ms (y_now s) es.
Proof. exact cyc_on_time. Qed.
Print Assumptions c83_on_time.
(** while the last callback ended before the next is due, there have been as many callbacks as periods since the start *)
Theorem c83_one_callback_per_period :
  forall (ms : Z), 0 < ms -> forall (n : nat) (ls : list ylab) (s : yst) (es : yevents) (t0 k : Z),
    exec (y_step ms (y_urgent n)) y_init ls = Some (s, es) -> running es = Some (t0, k) -> in_callback es = false -> last_end es <= t0 + (k + 1) * ms ->
    t0 + k * ms <= y_now s <= t0 + (k + 1) * ms.
Proof. exact cyc_count. Qed.
Print Assumptions c83_one_callback_per_period.
(** the clock never stops: at most 2n+1 steps of calls in progress and of the kernel, and time goes on *)
Theorem c83_clock_goes_on :
  forall (ms : Z) (n : nat) (ls0 : list ylab) (s : yst) (es0 : yevents),
    exec (y_step ms (y_urgent n)) y_init ls0 = Some (s, es0) ->
    exists ls s1 es1 s2, (length ls <= 2 * n + 1)%nat /\ (forall l, In l ls -> y_own l) /\ exec (y_step ms (y_urgent n)) s ls = Some (s1, es1) /\ y_now s1 = y_now s /\
      y_step ms (y_urgent n) s1 LTick = Some (s2, []) /\ y_now s2 = y_now s + 1.
Proof. exact cyc_clock_goes_on. Qed.
Print Assumptions c83_clock_goes_on.
(** start() on a timer that is started is documented to do nothing (PeriodicTimer.h:84).  It does not: it puts the next callback off.  A timer
    started at 0 and again every [ms - 1] milliseconds, and never stopped, has not called back after any number N of such rounds. *)
Theorem c83_start_when_started_does_nothing_refuted :
  forall (ms : Z), 2 <= ms -> forall (n : nat), (1 < n)%nat -> forall (N : nat),
    exists (ls : list ylab) (s : yst) (es : yevents),
      exec (y_step ms (y_urgent n)) y_init ls = Some (s, es) /\ y_now s = Z.of_nat N * (ms - 1) /\
      (forall z t c r, In (z, Eff t c r) es -> c = YStart) /\
      (forall k, (k < N)%nat -> In (Z.of_nat k * (ms - 1), Eff 1%nat YStart YVoid) es).
Proof. exact cyc_starved. Qed.
Print Assumptions c83_start_when_started_does_nothing_refuted.

(** period 10; task 1 starts the timer at 3; the callbacks begin at 13 (for 2 ms), 23 (for 13 ms: too long), 36 (1 ms, due at 33) and 43; task 2 asks
    isStarted at 40; the last callback throws; isStarted again *)
Definition c83_schedule : list ylab :=
  repeat LTick 3 ++ [LCall 1 YStart; LStep 1; LStep 1] ++ repeat LTick 10 ++ [LFire; LTick; LTick; LEnd false] ++ repeat LTick 8 ++ [LFire] ++ repeat LTick 13 ++ [LEnd false; LFire; LTick; LEnd false] ++
  repeat LTick 3 ++ [LCall 2 YIsStarted; LStep 2; LStep 2] ++ repeat LTick 3 ++ [LFire; LEnd true; LCall 2 YIsStarted; LStep 2; LStep 2].
Example c83_case :
  match exec (y_step 10 (y_urgent 3)) y_init c83_schedule with
  | Some (s, es) => filter (fun y => match snd y with Eff _ _ _ => true | _ => false end) es =
      [(3, Eff 1%nat YStart YVoid); (13, Eff 0%nat YBegin YVoid); (15, Eff 0%nat YEnd YVoid); (23, Eff 0%nat YBegin YVoid); (36, Eff 0%nat YEnd YVoid); (36, Eff 0%nat YBegin YVoid);
       (37, Eff 0%nat YEnd YVoid); (40, Eff 2%nat YIsStarted (YBool true)); (43, Eff 0%nat YBegin YVoid); (43, Eff 0%nat YThrow YVoid); (43, Eff 2%nat YIsStarted (YBool false))] /\
      running es = None /\ y_now s = 43
  | None => False
  end.
Proof. vm_compute. repeat split. Qed.
(** the hypotheses of c83_one_callback_per_period are met after two callbacks *)
Example c83_count_case :
  match exec (y_step 10 (y_urgent 3)) y_init ([LCall 1 YStart; LStep 1; LStep 1] ++ repeat LTick 10 ++ [LFire; LEnd false] ++ repeat LTick 10 ++ [LFire; LEnd false] ++ repeat LTick 4) with
  | Some (s, es) => running es = Some (0, 2) /\ in_callback es = false /\ last_end es = 20 /\ y_now s = 24
  | None => False
  end.
Proof. vm_compute. repeat split. Qed.
