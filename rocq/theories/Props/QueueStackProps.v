(** MessageQueue<T> over the library's own Mutex and EventFlag (C65): the properties of C33 - C38 for the whole stack, the
    steps of the objects interleaved with those of the queue. *)
From Coq Require Import List ZArith Bool Lia Arith.
Import ListNotations.
From Verif Require Import Spec.OSError Spec.Linear Spec.MutexSpec Spec.EventFlagSpec Spec.MessageQueueSpec OS.Sched OS.MessageQueueModel OS.MessageQueueProofs
  OS.MutexModel OS.EventFlagModel OS.ItronMutexModel OS.ItronEventFlagModel OS.QueueStackModel OS.QueueStackProofs OS.QueueStackInst OS.QueueStackRuns.
Open Scope Z_scope.

(** C65, over StdCppMutex and StdCppEventFlag.  [es] holds the calls and returns of the queue only. *)
Theorem c65_stdcpp_queue_is_linearizable :
  forall (V : Type) (maxSize : Z), 0 <= maxSize < 2 ^ 64 - 1 -> forall M : nat, (1 <= M)%nat -> forall w : Z, 2 <= w ->
    forall (dbg : bool) (ls : list (std_lab V)) (s : std_st V) (es : list (event (qcall V) (qres V))),
    (forall l, In l ls -> std_ok V l) -> exec (std_step V maxSize M w dbg) (std_init V) ls = Some (s, es) ->
    linearizable (qspec V (Z.to_nat maxSize)) [] es /\ c_ub s = false.
Proof. exact std_linearizable. Qed.
Print Assumptions c65_stdcpp_queue_is_linearizable.
(** without a lock() or a copy that throws every call returns OK, TimedOut or a number *)
Theorem c65_stdcpp_no_spurious_error :
  forall (V : Type) (maxSize : Z), 0 <= maxSize < 2 ^ 64 - 1 -> forall M : nat, (1 <= M)%nat -> forall w : Z, 2 <= w ->
    forall (dbg : bool) (ls : list (std_lab V)) (s : std_st V) (es : list (event (qcall V) (qres V))) (t : nat) (r : qres V),
    (forall l, In l ls -> std_calm V l) -> exec (std_step V maxSize M w dbg) (std_init V) ls = Some (s, es) -> In (Ret t r) es ->
    is_failure V r = false.
Proof. exact std_no_failure. Qed.
Print Assumptions c65_stdcpp_no_spurious_error.
(** no deadlock: when nothing can move, a thread in a call is a sender of a full queue or a receiver of an empty one *)
Theorem c65_stdcpp_no_deadlock :
  forall (V : Type) (maxSize : Z), 0 <= maxSize < 2 ^ 64 - 1 -> forall M : nat, (1 <= M)%nat -> forall w : Z, 2 <= w ->
    forall (dbg : bool) (ls : list (std_lab V)) (s : std_st V) (es : list (event (qcall V) (qres V))),
    (forall l, In l ls -> std_ok V l) -> exec (std_step V maxSize M w dbg) (std_init V) ls = Some (s, es) ->
    (forall l, std_moves V l -> std_step V maxSize M w dbg s l = None) ->
    exists evs f (m : list V), history evs = es /\ lin_run (qspec V (Z.to_nat maxSize)) (fun _ => Out) [] evs f m /\
      forall t, c_idle s t \/ exists c, c_running s t = Some c /\
        match c with QSend _ _ => length m = Z.to_nat maxSize | QRecv _ _ => m = [] | _ => False end.
Proof. exact std_blocked. Qed.
Print Assumptions c65_stdcpp_no_deadlock.
(** and without new calls and spurious wake-ups nothing moves forever: n threads make at most 128 n + 26 n^2 steps *)
Theorem c65_stdcpp_calls_come_to_an_end :
  forall (V : Type) (maxSize : Z), 0 <= maxSize < 2 ^ 64 - 1 -> forall M : nat, (1 <= M)%nat -> forall w : Z, 2 <= w ->
    forall (dbg : bool) (n : nat) (ls0 : list (std_lab V)) (s0 : std_st V) (es0 : list (event (qcall V) (qres V)))
      (ls : list (std_lab V)) (s : std_st V) (es : list (event (qcall V) (qres V))),
    (forall l, In l ls0 -> std_ok V l) -> exec (std_step V maxSize M w dbg) (std_init V) ls0 = Some (s0, es0) ->
    (forall t, (n <= t)%nat -> c_idle s0 t) ->
    (forall l, In l ls -> std_ok V l /\ std_own V l) -> exec (std_step V maxSize M w dbg) s0 ls = Some (s, es) ->
    (length ls <= 128 * n + 26 * n * n)%nat.
Proof. exact std_calls_end. Qed.
Print Assumptions c65_stdcpp_calls_come_to_an_end.

(** the same over ItronMutex and ItronEventFlag *)
Theorem c65_itron_queue_is_linearizable :
  forall (V : Type) (maxSize : Z), 0 <= maxSize < 2 ^ 64 - 1 -> forall w wf : Z, 2 <= w -> w <= wf ->
    forall (dbg : bool) (ls : list (itr_lab V)) (s : itr_st V) (es : list (event (qcall V) (qres V))),
    (forall l, In l ls -> itr_ok V l) -> exec (itr_step V maxSize w wf dbg) (itr_init V) ls = Some (s, es) ->
    linearizable (qspec V (Z.to_nat maxSize)) [] es /\ c_ub s = false.
Proof. exact itr_linearizable. Qed.
Print Assumptions c65_itron_queue_is_linearizable.
Theorem c65_itron_no_spurious_error :
  forall (V : Type) (maxSize : Z), 0 <= maxSize < 2 ^ 64 - 1 -> forall w wf : Z, 2 <= w -> w <= wf ->
    forall (dbg : bool) (ls : list (itr_lab V)) (s : itr_st V) (es : list (event (qcall V) (qres V))) (t : nat) (r : qres V),
    (forall l, In l ls -> itr_calm V l) -> exec (itr_step V maxSize w wf dbg) (itr_init V) ls = Some (s, es) -> In (Ret t r) es ->
    is_failure V r = false.
Proof. exact itr_no_failure. Qed.
Print Assumptions c65_itron_no_spurious_error.
Theorem c65_itron_no_deadlock :
  forall (V : Type) (maxSize : Z), 0 <= maxSize < 2 ^ 64 - 1 -> forall w wf : Z, 2 <= w -> w <= wf ->
    forall (dbg : bool) (ls : list (itr_lab V)) (s : itr_st V) (es : list (event (qcall V) (qres V))),
    (forall l, In l ls -> itr_ok V l) -> exec (itr_step V maxSize w wf dbg) (itr_init V) ls = Some (s, es) ->
    (forall l, itr_moves V l -> itr_step V maxSize w wf dbg s l = None) ->
    exists evs f (m : list V), history evs = es /\ lin_run (qspec V (Z.to_nat maxSize)) (fun _ => Out) [] evs f m /\
      forall t, c_idle s t \/ exists c, c_running s t = Some c /\
        match c with QSend _ _ => length m = Z.to_nat maxSize | QRecv _ _ => m = [] | _ => False end.
Proof. exact itr_blocked. Qed.
Print Assumptions c65_itron_no_deadlock.
Theorem c65_itron_calls_come_to_an_end :
  forall (V : Type) (maxSize : Z), 0 <= maxSize < 2 ^ 64 - 1 -> forall w wf : Z, 2 <= w -> w <= wf ->
    forall (dbg : bool) (n : nat) (ls0 : list (itr_lab V)) (s0 : itr_st V) (es0 : list (event (qcall V) (qres V)))
      (ls : list (itr_lab V)) (s : itr_st V) (es : list (event (qcall V) (qres V))),
    (forall l, In l ls0 -> itr_ok V l) -> exec (itr_step V maxSize w wf dbg) (itr_init V) ls0 = Some (s0, es0) ->
    (forall t, (n <= t)%nat -> c_idle s0 t) ->
    (forall l, In l ls -> itr_ok V l /\ itr_own V l) -> exec (itr_step V maxSize w wf dbg) s0 ls = Some (s, es) ->
    (length ls <= 76 * n)%nat.
Proof. exact itr_calls_end. Qed.
Print Assumptions c65_itron_calls_come_to_an_end.

(** The full claim, without [std_ok]/[itr_ok], is false: LockGuard ignores a failed lock(), and one failure of the lock on
    the ring buffer's mutex is enough for a receiver to pop an empty queue. *)
Theorem c65_stdcpp_ignored_lock_failure_refuted :
  exists l1 t l2 s es, exec (std_step nat 2 1 32 true) (std_init nat) (l1 ++ CMtx ORB (MThrow t) :: l2) = Some (s, es) /\
    (forall l, In l (l1 ++ l2) -> std_ok nat l) /\ c_ub s = true.
Proof. exact std_bad_run. Qed.
Print Assumptions c65_stdcpp_ignored_lock_failure_refuted.
Theorem c65_itron_ignored_lock_failure_refuted :
  exists l1 t l2 s es, exec (itr_step nat 2 32 32 true) (itr_init nat) (l1 ++ CMtx ORB (KRefuse t) :: l2) = Some (s, es) /\
    (forall l, In l (l1 ++ l2) -> itr_ok nat l) /\ c_ub s = true.
Proof. exact itr_bad_run. Qed.
Print Assumptions c65_itron_ignored_lock_failure_refuted.

(** three threads: a receiver that waits for the first message, overlapping senders, a time-out on the full queue *)
Example c65_stdcpp_case :
  (forall l, In l std_good_run -> std_ok nat l) /\
  match exec (std_step nat 2 1 32 true) (std_init nat) std_good_run with
  | Some (s, es) => es = [Call 0 (QRecv true (-1)); Call 1 (QSend 5%nat 10); Call 2 (QSend 6%nat 10); Ret 1 (RSend OK); Ret 2 (RSend OK);
                          Ret 0 (RRecv OK (Some 5%nat)); Call 1 (QSend 8%nat 10); Ret 1 (RSend OK); Call 2 (QSend 9%nat 10); Ret 2 (RSend TimedOut);
                          Call 0 QGetSize; Ret 0 (RNum 2)]%nat /\ c_idle s 0 /\ c_idle s 1 /\ c_idle s 2 /\ (length std_good_run > 100)%nat
  | None => False
  end.
Proof. split; [apply std_okb_ok; vm_compute; reflexivity|]. vm_compute. repeat split; repeat constructor. Qed.
Example c65_itron_case :
  (forall l, In l itr_good_run -> itr_ok nat l) /\
  match exec (itr_step nat 2 32 32 true) (itr_init nat) itr_good_run with
  | Some (s, es) => es = [Call 0 (QRecv true (-1)); Call 1 (QSend 5%nat 10); Call 2 (QSend 6%nat 10); Ret 1 (RSend OK); Ret 0 (RRecv OK (Some 5%nat));
                          Ret 2 (RSend OK); Call 1 (QSend 8%nat 10); Ret 1 (RSend OK); Call 2 (QSend 9%nat 10); Ret 2 (RSend TimedOut);
                          Call 0 QGetSize; Ret 0 (RNum 2)]%nat /\ c_idle s 0 /\ c_idle s 1 /\ c_idle s 2
  | None => False
  end.
Proof. split; [apply itr_okb_ok; vm_compute; reflexivity|]. vm_compute. repeat split. Qed.
(** nothing can move: one receiver waits on the event flag, the other at m_mtxRecv *)
Example c65_no_deadlock_case :
  match exec (std_step nat 2 1 32 true) (std_init nat) std_stuck_run with
  | Some (s, _) => (forall l, std_moves nat l -> std_step nat 2 1 32 true s l = None) /\ c_running s 1 = Some (QRecv true (-1)) /\
                   c_running s 2 = Some (QRecv true (-1)) /\ c_idle s 0
  | None => False
  end.
Proof. exact std_stuck_example. Qed.
