(** C66: how long the calls with a time limit take.  [took es t t0 c t1 r]: thread [t] made call [c] at time [t0] and it returned [r] at
    time [t1]; [pending es t t0 c]: it has not returned yet (Spec/TimedSpec).  The "not early" theorems hold for every way the clock may
    run ([may_tick]); the "not late" ones when time passes only while every thread waits (OS/TimedModel.urgent). *)
From Coq Require Import List ZArith Bool Lia Arith.
Import ListNotations.
From Verif Require Import Spec.OSError Spec.Linear Spec.EventFlagSpec Spec.MutexSpec Spec.MessageQueueSpec OS.Sched OS.EventFlagModel OS.MutexModel
  OS.MessageQueueModel OS.TimedModel OS.TimedProofs OS.TimedMutexProofs OS.TimedEventProofs OS.TimedQueueProofs Spec.TimedSpec.
Open Scope Z_scope.

(** a call that reports TimedOut took at least its time limit *)
Theorem c66_event_flag_not_early :
  forall (w : Z) (dbg autoReset : bool) (n : nat) (may_tick : tst est -> bool) (ls : list (tlab elab)) (x : tst est) (es : list (Z * event ecall eres)),
    exec (ef_timed w dbg autoReset n may_tick) (t_init e_init) ls = Some (x, es) -> not_early event_limit event_timed_out es.
Proof. exact ef_not_early. Qed.
Print Assumptions c66_event_flag_not_early.
(** for the mutex: as long as no thread nests to the platform's limit [M], where try_lock_for fails at once *)
Theorem c66_mutex_not_early :
  forall (M n : nat) (may_tick : tst mst -> bool) (ls : list (tlab mlab)) (x : tst mst) (es : list (Z * event mcall err)),
    exec (mx_timed M n may_tick) (t_init m_init) ls = Some (x, es) ->
    (forall ls1 ls2 x1 e1, ls = ls1 ++ ls2 -> exec (mx_timed M n may_tick) (t_init m_init) ls1 = Some (x1, e1) ->
       forall u k, x_owner (t_st x1) = Some (u, k) -> (k < M)%nat) ->
    not_early mutex_limit mutex_timed_out es.
Proof. exact mx_not_early. Qed.
Print Assumptions c66_mutex_not_early.
Theorem c66_queue_not_early :
  forall (V : Type) (maxSize : Z) (n : nat) (may_tick : tst (qst V) -> bool) (ls : list (tlab (qlab V))) (x : tst (qst V)) (es : list (Z * event (qcall V) (qres V))),
    exec (mq_timed V maxSize n may_tick) (t_init (q_init V)) ls = Some (x, es) -> not_early queue_limit queue_timed_out es.
Proof. exact mq_not_early. Qed.
Print Assumptions c66_queue_not_early.

(** a call with a time limit has returned when its limit is over; calls that do not wait take no time *)
Theorem c66_event_flag_not_late :
  forall (w : Z) (dbg autoReset : bool) (n : nat), 0 < w ->
    forall (ls : list (tlab elab)) (x : tst est) (es : list (Z * event ecall eres)),
    (forall l, In (TAct l) ls -> label_ok w l) ->
    exec (ef_timed w dbg autoReset n (ef_urgent w dbg autoReset n)) (t_init e_init) ls = Some (x, es) -> not_late event_limit 1 (t_now x) es.
Proof. exact ef_not_late. Qed.
Print Assumptions c66_event_flag_not_late.
Theorem c66_mutex_not_late :
  forall (M n : nat) (ls : list (tlab mlab)) (x : tst mst) (es : list (Z * event mcall err)),
    exec (mx_timed M n (mx_urgent M n)) (t_init m_init) ls = Some (x, es) -> not_late mutex_limit 1 (t_now x) es.
Proof. exact mx_not_late. Qed.
Print Assumptions c66_mutex_not_late.
(** MessageQueue: within twice the limit ... *)
Theorem c66_queue_within_twice_the_limit_partial :
  forall (V : Type) (maxSize : Z) (n : nat), 0 <= maxSize < 2 ^ 64 - 1 ->
    forall (ls : list (tlab (qlab V))) (x : tst (qst V)) (es : list (Z * event (qcall V) (qres V))),
    exec (mq_timed V maxSize n (mq_urgent V maxSize n)) (t_init (q_init V)) ls = Some (x, es) -> not_late queue_limit 2 (t_now x) es.
Proof. exact mq_not_late. Qed.
Print Assumptions c66_queue_within_twice_the_limit_partial.
(** ... within the limit when only one thread sends (receives) ... *)
Theorem c66_only_sender_in_time :
  forall (V : Type) (maxSize : Z) (n : nat), 0 <= maxSize < 2 ^ 64 - 1 ->
    forall (ls : list (tlab (qlab V))) (x : tst (qst V)) (es : list (Z * event (qcall V) (qres V))) (a : nat),
    exec (mq_timed V maxSize n (mq_urgent V maxSize n)) (t_init (q_init V)) ls = Some (x, es) ->
    (forall u v ms, In (TAct (QCall u (QSend v ms))) ls -> u = a) ->
    forall t0 v ms, ms <> -1 ->
      (forall t1 r, took es a t0 (QSend v ms) t1 r -> t0 <= t1 <= t0 + wait_ms ms) /\ (pending es a t0 (QSend v ms) -> t0 <= t_now x <= t0 + wait_ms ms).
Proof. exact mq_alone_send. Qed.
Print Assumptions c66_only_sender_in_time.
Theorem c66_only_receiver_in_time :
  forall (V : Type) (maxSize : Z) (n : nat), 0 <= maxSize < 2 ^ 64 - 1 ->
    forall (ls : list (tlab (qlab V))) (x : tst (qst V)) (es : list (Z * event (qcall V) (qres V))) (a : nat),
    exec (mq_timed V maxSize n (mq_urgent V maxSize n)) (t_init (q_init V)) ls = Some (x, es) ->
    (forall u st ms, In (TAct (QCall u (QRecv st ms))) ls -> u = a) ->
    forall t0 st ms, ms <> -1 ->
      (forall t1 r, took es a t0 (QRecv st ms) t1 r -> t0 <= t1 <= t0 + wait_ms ms) /\ (pending es a t0 (QRecv st ms) -> t0 <= t_now x <= t0 + wait_ms ms).
Proof. exact mq_alone_recv. Qed.
Print Assumptions c66_only_receiver_in_time.
(** ... but not in general: thread 2 calls timedSend(.., 10) at time 5, and it returns TimedOut at time 20 *)
Theorem c66_queue_within_the_limit_refuted :
  exists (ls : list (tlab (qlab nat))) x es, exec (mq_timed nat 1 3 (mq_urgent nat 1 3)) (t_init (q_init nat)) ls = Some (x, es) /\
    filter (fun y => visible (snd y)) es =
      [(0, Call 0%nat (QSend 7%nat 0)); (0, Ret 0%nat (RSend OK)); (0, Call 1%nat (QSend 8%nat 10)); (5, Call 2%nat (QSend 9%nat 10));
       (10, Ret 1%nat (RSend TimedOut)); (20, Ret 2%nat (RSend TimedOut))] /\ took es 2 5 (QSend 9%nat 10) 20 (RSend TimedOut).
Proof. exact (ex_intro _ late_schedule late_run). Qed.
Print Assumptions c66_queue_within_the_limit_refuted.

(** the clock can always go on: from every state the calls in progress come, in a bounded number of their own steps, to a point where
    time passes *)
Theorem c66_event_flag_clock_goes_on :
  forall (w : Z) (dbg autoReset : bool) (n : nat), 0 < w ->
    forall (ls0 : list (tlab elab)) (x : tst est) (es0 : list (Z * event ecall eres)),
    (forall l, In (TAct l) ls0 -> label_ok w l) ->
    exec (ef_timed w dbg autoReset n (ef_urgent w dbg autoReset n)) (t_init e_init) ls0 = Some (x, es0) ->
    exists ls x1 es1, (length ls <= n * (8 + 2 * n))%nat /\ exec (ef_timed w dbg autoReset n (ef_urgent w dbg autoReset n)) x ls = Some (x1, es1) /\
      t_now x1 = t_now x /\ ef_timed w dbg autoReset n (ef_urgent w dbg autoReset n) x1 TTick = Some (mkT (t_st x1) (t_now x + 1) (t_since x1), []).
Proof. exact ef_time_goes_on. Qed.
Print Assumptions c66_event_flag_clock_goes_on.
Theorem c66_mutex_clock_goes_on :
  forall (M n : nat) (ls0 : list (tlab mlab)) (x : tst mst) (es0 : list (Z * event mcall err)),
    exec (mx_timed M n (mx_urgent M n)) (t_init m_init) ls0 = Some (x, es0) ->
    exists ls x1 es1, (length ls <= 4 * n)%nat /\ exec (mx_timed M n (mx_urgent M n)) x ls = Some (x1, es1) /\
      t_now x1 = t_now x /\ mx_timed M n (mx_urgent M n) x1 TTick = Some (mkT (t_st x1) (t_now x + 1) (t_since x1), []).
Proof. exact mx_time_goes_on. Qed.
Print Assumptions c66_mutex_clock_goes_on.
Theorem c66_queue_clock_goes_on :
  forall (V : Type) (maxSize : Z) (n : nat), 0 <= maxSize < 2 ^ 64 - 1 ->
    forall (ls0 : list (tlab (qlab V))) (x : tst (qst V)) (es0 : list (Z * event (qcall V) (qres V))),
    exec (mq_timed V maxSize n (mq_urgent V maxSize n)) (t_init (q_init V)) ls0 = Some (x, es0) ->
    exists ls x1 es1, (length ls <= 12 * n)%nat /\ exec (mq_timed V maxSize n (mq_urgent V maxSize n)) x ls = Some (x1, es1) /\
      t_now x1 = t_now x /\ mq_timed V maxSize n (mq_urgent V maxSize n) x1 TTick = Some (mkT (t_st x1) (t_now x + 1) (t_since x1), []).
Proof. exact mq_time_goes_on. Qed.
Print Assumptions c66_queue_clock_goes_on.

(** event flag: thread 0 waits for bit 1 with limit 3 and times out at 3; thread 1 waits for bit 0 with limit 10 and is released at 4 *)
Definition c66_event_schedule : list (tlab elab) :=
  map TAct ([LCall 0 (EWait 2 ModeOR false (Within 3))] ++ repeat (LStep 0) 3 ++ [LCall 1 (EWaitOne 0 (Within 10))] ++ repeat (LStep 1) 3) ++
  [TTick; TAct (LSpurious 0); TAct (LStep 0); TAct (LStep 0); TTick; TTick; TAct (LTimeout 0)] ++ map TAct (repeat (LStep 0) 4) ++ [TTick] ++
  map TAct ([LCall 2 (ESetOne 0)] ++ repeat (LStep 2) 6 ++ repeat (LStep 1) 4).
Example c66_event_case :
  match exec (ef_timed 32 false false 3 (ef_urgent 32 false false 3)) (t_init e_init) c66_event_schedule with
  | Some (x, es) => filter (fun y => visible (snd y)) es =
      [(0, Call 0%nat (EWait 2 ModeOR false (Within 3))); (0, Call 1%nat (EWaitOne 0 (Within 10))); (3, Ret 0%nat (ERes TimedOut None));
       (4, Call 2%nat (ESetOne 0)); (4, Ret 2%nat (ERes OK None)); (4, Ret 1%nat (ERes OK None))]
  | None => False
  end.
Proof. vm_compute. reflexivity. Qed.
(** mutex: thread 0 holds the lock; thread 1 gives up after 2 ms; thread 2 gets it when thread 0 unlocks at 5 *)
Definition c66_mutex_schedule : list (tlab mlab) :=
  map TAct ([MCall 0 MLock] ++ repeat (MStep 0) 3 ++ [MCall 1 (MTimedLock 2); MCall 2 (MTimedLock 9)]) ++ [TTick; TTick; TAct (MTimeout 1); TAct (MStep 1); TTick; TTick; TTick] ++
  map TAct ([MCall 0 MUnlock] ++ repeat (MStep 0) 4 ++ repeat (MStep 2) 3).
Example c66_mutex_case :
  match exec (mx_timed 8 3 (mx_urgent 8 3)) (t_init m_init) c66_mutex_schedule with
  | Some (x, es) => filter (fun y => visible (snd y)) es =
      [(0, Call 0%nat MLock); (0, Ret 0%nat OK); (0, Call 1%nat (MTimedLock 2)); (0, Call 2%nat (MTimedLock 9)); (2, Ret 1%nat TimedOut);
       (5, Call 0%nat MUnlock); (5, Ret 0%nat OK); (5, Ret 2%nat OK)]
  | None => False
  end.
Proof. vm_compute. reflexivity. Qed.
(** a lone sender on a full queue: TimedOut exactly at its limit *)
Example c66_lone_sender_case :
  match exec (mq_timed nat 1 2 (mq_urgent nat 1 2)) (t_init (q_init nat))
    (map TAct ([QCall 0 (QSend 7%nat 0)] ++ repeat (QStep 0) 10) ++ [TTick] ++ map TAct ([QCall 0 (QSend 8%nat 4)] ++ repeat (QStep 0) 5) ++
     repeat TTick 4 ++ map TAct ([QTimeout 0] ++ repeat (QStep 0) 2)) with
  | Some (x, es) => filter (fun y => visible (snd y)) es =
      [(0, Call 0%nat (QSend 7%nat 0)); (0, Ret 0%nat (RSend OK)); (1, Call 0%nat (QSend 8%nat 4)); (5, Ret 0%nat (RSend TimedOut))]
  | None => False
  end.
Proof. vm_compute. reflexivity. Qed.
