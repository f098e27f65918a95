(** Properties of MessageQueue<T> (C33 - C39), for any message type, any number of threads and every schedule. *)
From Coq Require Import List ZArith Bool Lia Arith.
Import ListNotations.
From Verif Require Import Spec.OSError Spec.Linear Spec.MessageQueueSpec Spec.Resource OS.Sched OS.MessageQueueModel OS.MessageQueueProofs
  OS.Resources OS.MessageQueueCreate OS.MessageQueueCreateProofs.
Open Scope Z_scope.

(** C33 *)
Theorem c33_queue_is_linearizable :
  forall (V : Type) (maxSize : Z), 0 <= maxSize < 2 ^ 64 - 1 ->
    forall (ls : list (qlab V)) (s : qst V) (es : list (event (qcall V) (qres V))),
    exec (q_step V maxSize) (q_init V) ls = Some (s, es) ->
    linearizable (qspec V (Z.to_nat maxSize)) [] (history es) /\ q_ub s = false.
Proof. exact queue_linearizable. Qed.
Print Assumptions c33_queue_is_linearizable.
(** hence first-in first-out, without loss or duplication: the messages sent are those delivered, in that order, then those still queued *)
Theorem c33_fifo_no_loss_no_duplication :
  forall (V : Type) (maxSize : Z) (h : list (event (qcall V) (qres V))),
    linearizable (qspec V (Z.to_nat maxSize)) [] h ->
    exists es f q taken, history es = h /\ lin_run (qspec V (Z.to_nat maxSize)) (fun _ => Out) [] es f q /\
      all_sent (effects es) = taken ++ q /\ Forall2 delivers taken (all_received (effects es)) /\ (length q <= Z.to_nat maxSize)%nat.
Proof. exact queue_fifo. Qed.
Print Assumptions c33_fifo_no_loss_no_duplication.
(** a call reports an error other than TimedOut only when locking the mutex failed or the copy of a message threw *)
Theorem c33_no_spurious_error :
  forall (V : Type) (maxSize : Z), 0 <= maxSize < 2 ^ 64 - 1 ->
    forall (ls : list (qlab V)) (s : qst V) (es : list (event (qcall V) (qres V))) (t : nat) (r : qres V),
    exec (q_step V maxSize) (q_init V) ls = Some (s, es) -> In (Ret t r) es -> is_failure V r = true ->
    In (QLockFail t) ls \/ exists fl, In (QThrow t fl) ls.
Proof. exact queue_no_failure. Qed.
Print Assumptions c33_no_spurious_error.
(** one slot, two senders, one receiver: the second sender waits until the receiver has made room *)
Definition run_all (t n : nat) : list (qlab nat) := repeat (QStep t) n.
Definition c33_schedule : list (qlab nat) :=
  [QCall 0 (QSend 7%nat (-1))] ++ run_all 0 10 ++ [QCall 1 (QSend 8%nat 5)] ++ run_all 1 5 ++ [QCall 2 (QRecv true 0)] ++ run_all 2 10 ++
  run_all 1 7 ++ [QCall 2 (QRecv false (-1))] ++ run_all 2 10 ++ [QCall 2 QGetSize] ++ run_all 2 4 ++ [QCall 0 (QRecv true 3)] ++ run_all 0 5 ++ [QTimeout 0; QStep 0; QStep 0].
Example c33_case :
  match exec (q_step nat 1) (q_init nat) c33_schedule with
  | Some (s, es) =>
      history es = [Call 0 (QSend 7 (-1)); Ret 0 (RSend OK); Call 1 (QSend 8 5); Call 2 (QRecv true 0); Ret 2 (RRecv OK (Some 7)); Ret 1 (RSend OK);
                    Call 2 (QRecv false (-1)); Ret 2 (RRecv OK None); Call 2 QGetSize; Ret 2 (RNum 0%Z); Call 0 (QRecv true 3); Ret 0 (RRecv TimedOut None)]%nat /\
      all_sent (effects es) = [7; 8]%nat /\ all_received (effects es) = [(true, Some 7%nat); (false, None)]
  | None => False
  end.
Proof. vm_compute. repeat split. Qed.

(** C34: [queued es]: messages whose send took effect minus messages whose receive took effect; [q_ub]: a message was constructed over
    a live one, or read from an empty slot, or outside the buffer *)
Theorem c34_never_overfull_never_underflows :
  forall (V : Type) (maxSize : Z), 0 <= maxSize < 2 ^ 64 - 1 ->
    forall (ls : list (qlab V)) (s : qst V) (es : list (event (qcall V) (qres V))),
    exec (q_step V maxSize) (q_init V) ls = Some (s, es) ->
    q_ub s = false /\ 0 <= queued V es <= maxSize /\ ring_size V (rbBufSize maxSize) (q_ring s) = queued V es /\ ring_max (rbBufSize maxSize) = maxSize.
Proof. exact queue_bounds. Qed.
Print Assumptions c34_never_overfull_never_underflows.
Example c34_case :
  match exec (q_step nat 2) (q_init nat) ([QCall 0 (QSend 7%nat (-1))] ++ run_all 0 10 ++ [QCall 1 (QSend 8%nat 5)] ++ run_all 1 6) with
  | Some (s, es) => queued nat es = 2 /\ ring_size nat (rbBufSize 2) (q_ring s) = 2
  | None => False
  end.
Proof. vm_compute. repeat split. Qed.

(** C35: when no thread can move, every thread is idle, or sending to a full queue, or receiving from an empty one *)
Theorem c35_no_deadlock_no_lost_wakeup :
  forall (V : Type) (maxSize : Z), 0 <= maxSize < 2 ^ 64 - 1 ->
    forall (ls : list (qlab V)) (s : qst V) (es : list (event (qcall V) (qres V))),
    exec (q_step V maxSize) (q_init V) ls = Some (s, es) -> (forall t, q_step V maxSize s (QStep t) = None) ->
    forall t, q_idle s t \/ exists c, q_running s t = Some c /\ waits_for V maxSize es c.
Proof. exact queue_blocked. Qed.
Print Assumptions c35_no_deadlock_no_lost_wakeup.
(** calls in progress by [n] threads come to that point within 12 n steps *)
Theorem c35_calls_in_progress_end :
  forall (V : Type) (maxSize : Z), 0 <= maxSize < 2 ^ 64 - 1 ->
    forall (n : nat) (ls0 : list (qlab V)) (s0 : qst V) (es0 : list (event (qcall V) (qres V))) (ls : list (qlab V)) (s : qst V) (es : list (event (qcall V) (qres V))),
    exec (q_step V maxSize) (q_init V) ls0 = Some (s0, es0) -> (forall t, (n <= t)%nat -> q_idle s0 t) ->
    (forall l, In l ls -> q_own_step l) -> exec (q_step V maxSize) s0 ls = Some (s, es) -> (length ls <= 12 * n)%nat.
Proof. exact queue_calls_end. Qed.
Print Assumptions c35_calls_in_progress_end.
(** in any state, a thread that waits for the event is waiting rightly, or a thread of the other kind is about to signal *)
Theorem c35_waiter_is_right_or_about_to_be_signalled :
  forall (V : Type) (maxSize : Z), 0 <= maxSize < 2 ^ 64 - 1 ->
    forall (ls : list (qlab V)) (s : qst V) (es : list (event (qcall V) (qres V))) (t : nat) (c : qcall V),
    exec (q_step V maxSize) (q_init V) ls = Some (s, es) -> q_thr s t = QAt c PWait -> q_step V maxSize s (QStep t) = None ->
    waits_for V maxSize es c \/ exists u d r, q_thr s u = QAt d (PSetEv r) /\ sr V d /\ is_send d = negb (is_send c).
Proof. exact queue_wait. Qed.
Print Assumptions c35_waiter_is_right_or_about_to_be_signalled.
(** a state in which nobody can move: two receivers on an empty queue *)
Example c35_case :
  match exec (q_step nat 1) (q_init nat) ([QCall 0 (QRecv true (-1))] ++ run_all 0 5 ++ [QCall 1 (QRecv true (-1))]) with
  | Some (s, es) => q_step nat 1 s (QStep 0) = None /\ q_step nat 1 s (QStep 1) = None /\ q_running s 0 = Some (QRecv true (-1)) /\ queued nat es = 0
  | None => False
  end.
Proof. vm_compute. repeat split. Qed.

(** C36: a call that times out has seen the queue full (empty) during the call - or another call of its kind was in progress ... *)
Theorem c36_timed_out_only_when_full_or_contended_partial :
  forall (V : Type) (maxSize : Z), 0 <= maxSize < 2 ^ 64 - 1 ->
    forall (ls : list (qlab V)) (s : qst V) (es : list (event (qcall V) (qres V))) (t : nat) (s' : qst V) (es' : list (event (qcall V) (qres V))),
    exec (q_step V maxSize) (q_init V) ls = Some (s, es) -> q_step V maxSize s (QTimeout t) = Some (s', es') ->
    exists c, q_running s t = Some c /\ sr V c /\ limited (tmout c) /\ es' = [Eff t c (fail_res c TimedOut)] /\
      (was_blocked V maxSize ls s t c \/ exists u d, u <> t /\ q_running s u = Some d /\ sr V d /\ is_send d = is_send c).
Proof. exact queue_timeout. Qed.
Print Assumptions c36_timed_out_only_when_full_or_contended_partial.
(** ... and the exception is real: trySend returns TimedOut on a queue that is empty all the time *)
Theorem c36_try_send_times_out_on_empty_queue_refuted :
  forall (V : Type) (v w : V) (maxSize : Z), exists s es,
    exec (q_step V maxSize) (q_init V) (try_schedule v w) = Some (s, es) /\
    history es = [Call 0%nat (QSend v (-1)); Call 1%nat (QSend w 0); Ret 1%nat (RSend TimedOut)] /\
    forall ls1 ls2 s1 e1, try_schedule v w = ls1 ++ ls2 -> exec (q_step V maxSize) (q_init V) ls1 = Some (s1, e1) -> queued V e1 = 0.
Proof. exact queue_try_bad. Qed.
Print Assumptions c36_try_send_times_out_on_empty_queue_refuted.
(** one thread: tryReceive on the empty queue does time out because it is empty *)
Example c36_case :
  match exec (q_step nat 1) (q_init nat) ([QCall 0 (QRecv true 0)] ++ run_all 0 5) with
  | Some (s, es) => match q_step nat 1 s (QTimeout 0) with Some (_, es') => es' = [Eff 0%nat (QRecv true 0) (RRecv TimedOut None)] | None => False end
  | None => False
  end.
Proof. vm_compute. reflexivity. Qed.

(** C37: after the copy threw, the thread's next three steps end the call with the error; contents, events and the other threads are
    as before, and both mutexes are free *)
Theorem c37_throwing_copy_loses_nothing :
  forall (V : Type) (maxSize : Z)
    (ls : list (qlab V)) (s : qst V) (es : list (event (qcall V) (qres V))) (t : nat) (fl : bool) (s1 : qst V) (e1 : list (event (qcall V) (qres V))),
    exec (q_step V maxSize) (q_init V) ls = Some (s, es) -> q_step V maxSize s (QThrow t fl) = Some (s1, e1) ->
    exists c r s', q_running s t = Some c /\ sr V c /\ r = (if fl then RFailure else fail_res c OtherError) /\
      exec (q_step V maxSize) s [QThrow t fl; QStep t; QStep t; QStep t] = Some (s', [Eff t c r; Ret t r]) /\
      q_ring s' = q_ring s /\ q_ne s' = q_ne s /\ q_nf s' = q_nf s /\ q_mrb s' = None /\ outer s' c = None /\
      (forall d, is_send d <> is_send c -> outer s' d = outer s d) /\ q_idle s' t /\ forall u, u <> t -> q_thr s' u = q_thr s u.
Proof. exact queue_throw. Qed.
Print Assumptions c37_throwing_copy_loses_nothing.
(** a receive whose copy throws; the next receive gets the message *)
Example c37_case :
  match exec (q_step nat 3) (q_init nat)
    ([QCall 0 (QSend 7%nat (-1))] ++ run_all 0 10 ++ [QCall 1 (QRecv true (-1))] ++ run_all 1 5 ++ [QThrow 1 false] ++ run_all 1 3 ++ [QCall 2 (QRecv true 0)] ++ run_all 2 10) with
  | Some (s, es) => history es = [Call 0 (QSend 7 (-1)); Ret 0 (RSend OK); Call 1 (QRecv true (-1)); Ret 1 (RRecv OtherError None);
                                  Call 2 (QRecv true 0); Ret 2 (RRecv OK (Some 7))]%nat
  | None => False
  end.
Proof. vm_compute. reflexivity. Qed.

(** C38: after destroy, the slots that still hold a constructed message are exactly those of the messages sent and not yet received:
    none when every message was received, *)
Theorem c38_destroy_leaves_exactly_the_pending_messages_partial :
  forall (V : Type) (maxSize : Z), 0 <= maxSize < 2 ^ 64 - 1 ->
    forall (ls : list (qlab V)) (s : qst V) (es : list (event (qcall V) (qres V))),
    exec (q_step V maxSize) (q_init V) ls = Some (s, es) ->
    exists q, pending V (effects es) q /\
      let r := ring_destroy V (q_ring s) in
      (forall i, (i < length q)%nat -> exists j, 0 <= j < rbBufSize maxSize /\ j = (r_begin r + Z.of_nat i) mod rbBufSize maxSize /\ r_buf r j = nth_error q i) /\
      (forall j v, 0 <= j < rbBufSize maxSize -> r_buf r j = Some v ->
         exists i, (i < length q)%nat /\ j = (r_begin r + Z.of_nat i) mod rbBufSize maxSize /\ nth_error q i = Some v).
Proof. exact queue_live_slots. Qed.
Print Assumptions c38_destroy_leaves_exactly_the_pending_messages_partial.
(** but otherwise some: after one send and destroy, the message object was never destroyed *)
Theorem c38_destroy_leaks_pending_messages_refuted :
  exists (s : qst nat) (es : list (event (qcall nat) (qres nat))),
    exec (q_step nat 3) (q_init nat) leak_schedule = Some (s, es) /\ (forall t, q_idle s t) /\
    history es = [Call 0%nat (QSend 7%nat (-1)); Ret 0%nat (RSend OK)] /\ r_buf (ring_destroy nat (q_ring s)) 0 = Some 7%nat.
Proof. exact queue_leak. Qed.
Print Assumptions c38_destroy_leaks_pending_messages_refuted.

(** C39: [sMQ], [sT] are sizeof(MessageQueue<T>) and sizeof(T) *)
Theorem c39_block_holds_object_and_slots_partial :
  forall (sMQ sT maxSize : Z), 0 < sMQ -> sMQ + 7 < 2 ^ 64 -> 0 < sT -> 0 <= maxSize < 2 ^ 64 - 1 ->
    aligned_mq sMQ + sT * (maxSize + 1) < 2 ^ 64 ->
    sMQ <= aligned_mq sMQ < sMQ + 8 /\ aligned_mq sMQ mod 8 = 0 /\ pool_buf_size sMQ sT maxSize = aligned_mq sMQ + sT * (maxSize + 1) /\
    forall i, 0 <= i < rbBufSize maxSize ->
      aligned_mq sMQ <= aligned_mq sMQ + i * sT /\ aligned_mq sMQ + i * sT + sT <= pool_buf_size sMQ sT maxSize.
Proof. exact mq_layout. Qed.
Print Assumptions c39_block_holds_object_and_slots_partial.
(** whatever requests fail: null with everything given back, or a queue holding pool, block, three mutexes and event flag;
    destroy gives everything back *)
Theorem c39_create_and_destroy_release_everything :
  forall (orc : nat -> bool) (sMQ sT maxSize : Z),
    match mq_create orc sMQ sT maxSize rs_init with
    | (None, s) => live (rs_tr s) []
    | (Some h, s) => live (rs_tr s) (mq_resources h) /\ length (mq_resources h) = 6%nat /\ h_size h = pool_buf_size sMQ sT maxSize /\
                     live (rs_tr (mq_destroy (Some h) s)) []
    end.
Proof. exact mq_create_clean. Qed.
Print Assumptions c39_create_and_destroy_release_everything.
Theorem c39_create_succeeds_when_the_platform_does :
  forall (orc : nat -> bool) (sMQ sT maxSize : Z), (forall n, (n < 6)%nat -> orc n = true) -> fst (mq_create orc sMQ sT maxSize rs_init) <> None.
Proof. exact mq_create_success. Qed.
Print Assumptions c39_create_succeeds_when_the_platform_does.
(** create(SIZE_MAX) asks for a block without room for any message, yet getMaxSize() is SIZE_MAX *)
Theorem c39_create_size_max_refuted :
  forall (sMQ sT : Z), 0 < sMQ -> sMQ + 7 < 2 ^ 64 -> 0 < sT ->
    rbBufSize (2 ^ 64 - 1) = 0 /\ pool_buf_size sMQ sT (2 ^ 64 - 1) = aligned_mq sMQ /\ ring_max (rbBufSize (2 ^ 64 - 1)) = 2 ^ 64 - 1.
Proof. exact mq_layout_wrap. Qed.
Print Assumptions c39_create_size_max_refuted.
Example c39_case_sizes : pool_buf_size 83 12 10 = 88 + 132.
Proof. reflexivity. Qed.
(** the third mutex cannot be created *)
Example c39_case_failure :
  let (h, s) := mq_create (fun n => negb (Nat.eqb n 4)) 83 12 10 rs_init in
  h = None /\ rs_tr s = [Acq (KPool 220) 0; Acq (KBlock 0) 1; Acq KMutex 2; Acq KMutex 3; Rel KMutex 3; Rel KMutex 2; Rel (KBlock 0) 1; Rel (KPool 220) 0].
Proof. vm_compute. split; reflexivity. Qed.
