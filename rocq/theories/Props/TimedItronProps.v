(** C82: how long the calls of the Itron platform's Mutex, EventFlag and Thread take.  [took es t t0 c t1 r]: agent [t] made call [c] at time
    [t0] and it returned [r] at time [t1]; [pending es t t0 c]: it has not returned yet (Spec/TimedSpec; the limits of the thread's calls are in
    Spec/TimedItronSpec).  The "not early" theorems hold for every way the clock may run ([may_tick]); the others when time passes only while
    nothing can be done but wait, or run the thread's runnable (im_urgent, if_urgent, it_urgent). *)
From Coq Require Import List ZArith Bool Lia Arith.
Import ListNotations.
From Verif Require Import Spec.OSError Spec.Linear Spec.EventFlagSpec Spec.MutexSpec Spec.ThreadSpec Spec.ItronThreadSpec Spec.TimedSpec Spec.TimedItronSpec OS.Sched OS.ItronEventFlagModel
  OS.ItronMutexModel OS.ItronThreadModel OS.TimedModel OS.TimedItronModel OS.TimedItronThreadModel OS.TimedItronMutexProofs OS.TimedItronEventProofs OS.TimedItronThreadProofs.
Open Scope Z_scope.

(** ** Mutex *)
Theorem c82_mutex_not_early :
  forall (n : nat) (may_tick : tst ist -> bool) (ls : list (tlab ilab)) (x : tst ist) (es : list (Z * event mcall err)),
    exec (im_timed n may_tick) (t_init i_init) ls = Some (x, es) -> not_early mutex_limit mutex_timed_out es.
Proof. exact im_not_early. Qed.
Print Assumptions c82_mutex_not_early.
Theorem c82_mutex_not_late :
  forall (n : nat) (ls : list (tlab ilab)) (x : tst ist) (es : list (Z * event mcall err)),
    exec (im_timed n (im_urgent n)) (t_init i_init) ls = Some (x, es) -> not_late mutex_limit 1 (t_now x) es.
Proof. exact im_not_late. Qed.
Print Assumptions c82_mutex_not_late.
Theorem c82_mutex_clock_goes_on :
  forall (n : nat) (ls0 : list (tlab ilab)) (x : tst ist) (es0 : list (Z * event mcall err)),
    exec (im_timed n (im_urgent n)) (t_init i_init) ls0 = Some (x, es0) ->
    exists ls x1 es1, (length ls <= 4 * n)%nat /\ exec (im_timed n (im_urgent n)) x ls = Some (x1, es1) /\ t_now x1 = t_now x /\
      im_timed n (im_urgent n) x1 TTick = Some (mkT (t_st x1) (t_now x + 1) (t_since x1), []).
Proof. exact im_time_goes_on. Qed.
Print Assumptions c82_mutex_clock_goes_on.

(** ** EventFlag *)
Theorem c82_event_flag_not_early :
  forall (w wf : Z) (dbg autoReset : bool) (n : nat) (may_tick : tst ifst -> bool) (ls : list (tlab iflab)) (x : tst ifst) (es : list (Z * event ecall eres)),
    exec (if_timed w wf dbg autoReset n may_tick) (t_init f_init) ls = Some (x, es) -> not_early event_limit event_timed_out es.
Proof. exact if_not_early. Qed.
Print Assumptions c82_event_flag_not_early.
Theorem c82_event_flag_not_late :
  forall (w wf : Z) (dbg autoReset : bool) (n : nat), 0 < w -> w <= wf ->
    forall (ls : list (tlab iflab)) (x : tst ifst) (es : list (Z * event ecall eres)),
    (forall l, In (TAct l) ls -> f_label_ok w l) ->
    exec (if_timed w wf dbg autoReset n (if_urgent w wf dbg autoReset n)) (t_init f_init) ls = Some (x, es) -> not_late event_limit 1 (t_now x) es.
Proof. exact if_not_late. Qed.
Print Assumptions c82_event_flag_not_late.
Theorem c82_event_flag_clock_goes_on :
  forall (w wf : Z) (dbg autoReset : bool) (n : nat), 0 < w -> w <= wf ->
    forall (ls0 : list (tlab iflab)) (x : tst ifst) (es0 : list (Z * event ecall eres)),
    (forall l, In (TAct l) ls0 -> f_label_ok w l) ->
    exec (if_timed w wf dbg autoReset n (if_urgent w wf dbg autoReset n)) (t_init f_init) ls0 = Some (x, es0) ->
    exists ls x1 es1, (length ls <= 4 * n)%nat /\ exec (if_timed w wf dbg autoReset n (if_urgent w wf dbg autoReset n)) x ls = Some (x1, es1) /\ t_now x1 = t_now x /\
      if_timed w wf dbg autoReset n (if_urgent w wf dbg autoReset n) x1 TTick = Some (mkT (t_st x1) (t_now x + 1) (t_since x1), []).
Proof. exact if_time_goes_on. Qed.
Print Assumptions c82_event_flag_clock_goes_on.

(** ** Thread *)
Theorem c82_thread_not_early :
  forall (prio0 minp maxp : Z) (ext_prio : nat -> Z) (n : nat) (may_tick : tst its -> bool) (ls : list (tlab ilabel)) (x : tst its) (es : list (Z * event icall ires)),
    exec (it_timed prio0 minp maxp ext_prio n may_tick) (t_init (n_init prio0)) ls = Some (x, es) -> not_early itron_thread_limit itron_thread_timed_out es.
Proof. exact it_not_early. Qed.
Print Assumptions c82_thread_not_early.
(** timedWait takes at most its limit, provided no call of start is ever in progress together with one of timedWait; start, isFinished,
    setPriority and getPriority take no time *)
Theorem c82_thread_not_late_partial :
  forall (prio0 minp maxp : Z) (ext_prio : nat -> Z) (n : nat) (ls : list (tlab ilabel)) (x : tst its) (es : list (Z * event icall ires)),
    (0 < n)%nat -> (forall l, In (TAct l) ls -> n_label_ok l) ->
    (forall ls1 ls2 x1 e1, ls = ls1 ++ ls2 ->
       exec (it_timed prio0 minp maxp ext_prio n (it_urgent prio0 minp maxp ext_prio n)) (t_init (n_init prio0)) ls1 = Some (x1, e1) ->
       forall t u t0 t1 ms, pending e1 t t0 (IT (TWait ms)) -> ~ pending e1 u t1 (IT TStart)) ->
    exec (it_timed prio0 minp maxp ext_prio n (it_urgent prio0 minp maxp ext_prio n)) (t_init (n_init prio0)) ls = Some (x, es) ->
    not_late itron_thread_limit 1 (t_now x) es.
Proof. exact it_not_late. Qed.
Print Assumptions c82_thread_not_late_partial.
Theorem c82_thread_clock_goes_on :
  forall (prio0 minp maxp : Z) (ext_prio : nat -> Z) (n : nat) (ls0 : list (tlab ilabel)) (x : tst its) (es0 : list (Z * event icall ires)),
    (0 < n)%nat ->
    exec (it_timed prio0 minp maxp ext_prio n (it_urgent prio0 minp maxp ext_prio n)) (t_init (n_init prio0)) ls0 = Some (x, es0) ->
    exists ls x1 es1, (length ls <= 15 * n + 5)%nat /\
      exec (it_timed prio0 minp maxp ext_prio n (it_urgent prio0 minp maxp ext_prio n)) x ls = Some (x1, es1) /\ t_now x1 = t_now x /\
      it_timed prio0 minp maxp ext_prio n (it_urgent prio0 minp maxp ext_prio n) x1 TTick = Some (mkT (t_st x1) (t_now x + 1) (t_since x1), []).
Proof. exact it_time_goes_on. Qed.
Print Assumptions c82_thread_clock_goes_on.

(** ... but not in general: client 2 calls tryWait on a thread that is not running and sees EV_FINISHED; before it looks whether the task is
    dormant client 1 starts the thread; client 2, whose limit is 0, returns when the run, of 5 ms, is over *)
Definition overlap : list (tlab ilabel) :=
  map TAct ([NCall 2 (IT (TWait 0)); NStep 2; NCall 1 (IT TStart)] ++ repeat (NStep 1) 9 ++ [NTask; NTask]) ++ repeat TTick 5 ++ map TAct [NTask; NTask; NTask; NStep 2; NStep 2].
Theorem c82_thread_not_late_refuted :
  exists (ls : list (tlab ilabel)) x es,
    (forall l, In (TAct l) ls -> n_label_ok l) /\
    exec (it_timed 4 1 16 (fun _ => 4) 3 (it_urgent 4 1 16 (fun _ => 4) 3)) (t_init (n_init 4)) ls = Some (x, es) /\
    itron_thread_limit (IT (TWait 0)) = Some 0 /\ took es 2 0 (IT (TWait 0)) 5 (IR (RErr OK)).
Proof.
  exists overlap.
  destruct (exec (it_timed 4 1 16 (fun _ => 4) 3 (it_urgent 4 1 16 (fun _ => 4) 3)) (t_init (n_init 4)) overlap) as [[x es]|] eqn:E; [|vm_compute in E; discriminate].
  exists x, es. split.
  { clear. intros l H. cbn in H. repeat (destruct H as [H|H]; [try discriminate H; injection H as <-; cbn; try lia; exact Logic.I|]). destruct H. }
  assert (F : match exec (it_timed 4 1 16 (fun _ => 4) 3 (it_urgent 4 1 16 (fun _ => 4) 3)) (t_init (n_init 4)) overlap with Some (_, es) =>
     es = [(0, Call 2%nat (IT (TWait 0))); (0, Call 1%nat (IT TStart)); (0, Eff 1%nat (IT TStart) (IR RVoid)); (0, Ret 1%nat (IR RVoid));
           (0, Call 0%nat (IT TBegin)); (0, Eff 0%nat (IT TBegin) (IR RVoid)); (0, Ret 0%nat (IR RVoid)); (5, Call 0%nat (IT TEnd)); (5, Eff 0%nat (IT TEnd) (IR RVoid));
           (5, Ret 0%nat (IR RVoid)); (5, Eff 2%nat (IT (TWait 0)) (IR (RErr OK))); (5, Ret 2%nat (IR (RErr OK)))] | None => False end) by (vm_compute; reflexivity).
  rewrite E in F. subst es. split; [reflexivity|]. split; [reflexivity|].
  exists [], [(0, Call 1%nat (IT TStart)); (0, Eff 1%nat (IT TStart) (IR RVoid)); (0, Ret 1%nat (IR RVoid));
           (0, Call 0%nat (IT TBegin)); (0, Eff 0%nat (IT TBegin) (IR RVoid)); (0, Ret 0%nat (IR RVoid)); (5, Call 0%nat (IT TEnd)); (5, Eff 0%nat (IT TEnd) (IR RVoid));
           (5, Ret 0%nat (IR RVoid)); (5, Eff 2%nat (IT (TWait 0)) (IR (RErr OK)))], [].
  split; [reflexivity|]. intros y H. repeat (destruct H as [<-|H]; [reflexivity|]). destruct H.
Qed.
Print Assumptions c82_thread_not_late_refuted.

(** task 1 holds the mutex until 8; task 2 waits 5 ms in vain, then calls tryLock, then waits up to 10 ms and has it at 8 *)
Definition c82_mutex_schedule : list (tlab ilab) :=
  map TAct [KCall 1 MLock; KStep 1; KStep 1; KCall 2 (MTimedLock 5)] ++ repeat TTick 5 ++
  map TAct [KTimeout 2; KStep 2; KCall 2 MTryLock; KTimeout 2; KStep 2; KCall 2 (MTimedLock 10)] ++ repeat TTick 3 ++
  map TAct ([KCall 1 MUnlock] ++ repeat (KStep 1) 4 ++ [KStep 2; KStep 2]).
Example c82_mutex_case :
  match exec (im_timed 3 (im_urgent 3)) (t_init i_init) c82_mutex_schedule with
  | Some (x, es) => filter (fun y => visible (snd y)) es =
      [(0, Call 1%nat MLock); (0, Ret 1%nat OK); (0, Call 2%nat (MTimedLock 5)); (5, Ret 2%nat TimedOut); (5, Call 2%nat MTryLock); (5, Ret 2%nat TimedOut);
       (5, Call 2%nat (MTimedLock 10)); (8, Call 1%nat MUnlock); (8, Ret 1%nat OK); (8, Ret 2%nat OK)] /\ t_now x = 8
  | None => False
  end.
Proof. vm_compute. split; reflexivity. Qed.
(** task 1 waits 4 ms for bit 3 in vain, then up to 10 ms for any bit; task 2 sets bit 0 at 6 *)
Definition c82_event_schedule : list (tlab iflab) :=
  map TAct [FCall 1 (EWaitOne 3 (Within 4)); FStep 1 0; FStep 1 0] ++ repeat TTick 4 ++ map TAct [FTimeout 1; FStep 1 0; FCall 1 (EWaitAny (Within 10)); FStep 1 0; FStep 1 0] ++
  repeat TTick 2 ++ map TAct [FCall 2 (ESetOne 0); FStep 2 0; FStep 2 0; FStep 2 0; FStep 1 0].
Example c82_event_case_labels : forall l, In (TAct l) c82_event_schedule -> f_label_ok 8 l.
Proof. intros l H. cbn in H. repeat (destruct H as [H|H]; [try discriminate H; injection H as <-; cbn; try lia; try exact Logic.I; repeat split; lia|]). destruct H. Qed.
Example c82_event_case :
  match exec (if_timed 8 32 true false 3 (if_urgent 8 32 true false 3)) (t_init f_init) c82_event_schedule with
  | Some (x, es) => filter (fun y => visible (snd y)) es =
      [(0, Call 1%nat (EWaitOne 3 (Within 4))); (4, Ret 1%nat (ERes TimedOut None)); (4, Call 1%nat (EWaitAny (Within 10))); (6, Call 2%nat (ESetOne 0)); (6, Ret 2%nat (ERes OK None));
       (6, Ret 1%nat (ERes OK None))] /\ t_now x = 6
  | None => False
  end.
Proof. vm_compute. split; reflexivity. Qed.
(** the thread runs from 0 to 7: client 2 waits 3 ms in vain; from 5 on it waits up to 9 ms, and returns at 7 *)
Definition c82_thread_schedule : list (tlab ilabel) :=
  map TAct ([NCall 1 (IT TStart)] ++ repeat (NStep 1) 9 ++ [NTask; NTask; NCall 2 (IT (TWait 3)); NStep 2]) ++ repeat TTick 3 ++ map TAct [NTimeout 2; NStep 2] ++ repeat TTick 2 ++
  map TAct [NCall 2 (IT (TWait 9)); NStep 2] ++ repeat TTick 2 ++ map TAct [NTask; NTask; NTask; NStep 2; NStep 2].
Example c82_thread_case_labels : forall l, In (TAct l) c82_thread_schedule -> n_label_ok l.
Proof. intros l H. cbn in H. repeat (destruct H as [H|H]; [try discriminate H; injection H as <-; cbn; try lia; exact Logic.I|]). destruct H. Qed.
Example c82_thread_case_apart :
  forall ls1 ls2 x1 e1, c82_thread_schedule = ls1 ++ ls2 -> exec (it_timed 4 1 16 (fun _ => 4) 3 (it_urgent 4 1 16 (fun _ => 4) 3)) (t_init (n_init 4)) ls1 = Some (x1, e1) ->
    forall t u t0 t1 ms, pending e1 t t0 (IT (TWait ms)) -> ~ pending e1 u t1 (IT TStart).
Proof.
  intros ls1 ls2 x1 e1 EQ E. apply apart_ok. refine (calmb_ok _ c82_thread_schedule [] (t_init (n_init 4)) _ ls1 ls2 x1 e1 EQ E). vm_compute. reflexivity.
Qed.
Example c82_thread_case :
  match exec (it_timed 4 1 16 (fun _ => 4) 3 (it_urgent 4 1 16 (fun _ => 4) 3)) (t_init (n_init 4)) c82_thread_schedule with
  | Some (x, es) => filter (fun y => visible (snd y)) es =
      [(0, Call 1%nat (IT TStart)); (0, Ret 1%nat (IR RVoid)); (0, Call 0%nat (IT TBegin)); (0, Ret 0%nat (IR RVoid)); (0, Call 2%nat (IT (TWait 3))); (3, Ret 2%nat (IR (RErr TimedOut)));
       (5, Call 2%nat (IT (TWait 9))); (7, Call 0%nat (IT TEnd)); (7, Ret 0%nat (IR RVoid)); (7, Ret 2%nat (IR (RErr OK)))] /\ t_now x = 7
  | None => False
  end.
Proof. vm_compute. split; reflexivity. Qed.
