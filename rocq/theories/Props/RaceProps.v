(** C76: no data races.  [race acc]: two threads are about to access the same plain variable, at least one to write it (Spec/RaceSpec);
    [complete ...]: the accesses listed in OS/RaceModel are all there are - what a step does not write keeps its value, what it neither reads
    nor writes has no influence on it. *)
From Coq Require Import List ZArith Bool Arith.
Import ListNotations.
From Verif Require Import Spec.OSError Spec.RaceSpec Spec.Linear Spec.MutexSpec Spec.MessageQueueSpec Spec.EventFlagSpec OS.Sched OS.RaceModel OS.RaceProofs.
From Verif Require Spec.ThreadPoolSpec OS.MessageQueueModel OS.EventFlagModel OS.MutexModel OS.ItronMutexModel OS.ThreadPoolModel.
Local Open Scope nat_scope.

(** * MessageQueue: m_begin, m_end, the slots *)
Theorem c76_queue_accesses :
  forall (V : Type) (maxSize : Z),
    complete (MessageQueueModel.q_step V maxSize) rq_who rq_acc rq_get rq_alike.
Proof. exact (fun V maxSize => rq_complete maxSize). Qed.
Print Assumptions c76_queue_accesses.
Theorem c76_queue_no_race :
  forall (V : Type) (maxSize : Z) (ls : list (MessageQueueModel.qlab V)) (s : MessageQueueModel.qst V) (es : list (event (qcall V) (qres V))),
    (0 <= maxSize < 2 ^ 64 - 1)%Z ->
    exec (MessageQueueModel.q_step V maxSize) (MessageQueueModel.q_init V) ls = Some (s, es) -> ~ race (rq_acc s).
Proof. exact (fun V maxSize ls s es H => rq_free maxSize H ls s es). Qed.
Print Assumptions c76_queue_no_race.
(** * StdCppEventFlag: m_pattern *)
Theorem c76_event_flag_accesses :
  forall (w : Z) (dbg autoReset : bool), complete (EventFlagModel.e_step w dbg autoReset) rf_who (rf_acc w autoReset) rf_get rf_alike.
Proof. exact rf_complete. Qed.
Print Assumptions c76_event_flag_accesses.
Theorem c76_event_flag_no_race :
  forall (w : Z) (dbg autoReset : bool) (ls : list EventFlagModel.elab) (s : EventFlagModel.est) (es : list (event ecall eres)),
    exec (EventFlagModel.e_step w dbg autoReset) EventFlagModel.e_init ls = Some (s, es) -> ~ race (rf_acc w autoReset s).
Proof. exact rf_free. Qed.
Print Assumptions c76_event_flag_no_race.
(** * ItronMutex: m_recursiveCount, whoever calls unlock *)
Theorem c76_itron_mutex_accesses : complete ItronMutexModel.i_step ri_who ri_acc ri_get ri_alike.
Proof. exact ri_complete. Qed.
Print Assumptions c76_itron_mutex_accesses.
Theorem c76_itron_mutex_no_race :
  forall (ls : list ItronMutexModel.ilab) (s : ItronMutexModel.ist) (es : list (event mcall err)),
    exec ItronMutexModel.i_step ItronMutexModel.i_init ls = Some (s, es) -> ~ race (ri_acc s).
Proof. exact ri_free. Qed.
Print Assumptions c76_itron_mutex_no_race.
(** * ThreadPool: m_task and m_needsWaiting of the runners *)
Theorem c76_pool_accesses :
  forall (N : nat) (dflt : Z) (ext_prio : nat -> Z), complete (ThreadPoolModel.p_step N dflt ext_prio) rp_who rp_acc rp_get rp_alike.
Proof. exact rp_complete. Qed.
Print Assumptions c76_pool_accesses.
Theorem c76_pool_no_race :
  forall (N : nat) (dflt : Z) (ext_prio : nat -> Z) (ls : list ThreadPoolModel.plab) (s : ThreadPoolModel.pst)
         (es : list (event ThreadPoolSpec.pcall ThreadPoolSpec.pres)),
    exec (ThreadPoolModel.p_step N dflt ext_prio) (ThreadPoolModel.p_init N dflt) ls = Some (s, es) -> ~ race (rp_acc s).
Proof. exact rp_free. Qed.
Print Assumptions c76_pool_no_race.
(** * StdCppMutex: m_lockingCount.  Missing: histories in which a thread unlocks what it does not hold, see below *)
Theorem c76_mutex_accesses : forall (M : nat), complete (MutexModel.m_step M) rl_who rl_acc rl_get rl_alike.
Proof. exact rl_complete. Qed.
Print Assumptions c76_mutex_accesses.
Theorem c76_mutex_no_race_partial :
  forall (M : nat) (ls : list MutexModel.mlab) (s : MutexModel.mst) (es : list (event mcall err)),
    (1 <= M)%nat /\ (Z.of_nat M < 2 ^ 64)%Z ->
    exec (MutexModel.m_step M) MutexModel.m_init ls = Some (s, es) -> disciplined (history es) -> ~ race (rl_acc s).
Proof. exact (fun M ls s es H => rl_free M H ls s es). Qed.
Print Assumptions c76_mutex_no_race_partial.
(** unlock() has a result for callers that hold nothing (NotLocked), but reads the counter without the lock: while another thread has just locked
    and is about to increment it, that is a data race *)
Theorem c76_mutex_race_refuted :
  forall (M : nat), exists (ls : list MutexModel.mlab) (s : MutexModel.mst),
    exec (MutexModel.m_step M) MutexModel.m_init ls = Some (s, [Call 1 MLock; Eff 1 MLock OK; Call 2 MUnlock]) /\ race (rl_acc s).
Proof.
  intros M. exists [MutexModel.MCall 1 MLock; MutexModel.MStep 1; MutexModel.MCall 2 MUnlock]. eexists. split; [reflexivity|].
  exists 1, 2, LCount, Writes, Reads. split; [discriminate|]. split; [right; now left|]. split; [now left|now left].
Qed.
Print Assumptions c76_mutex_race_refuted.

(** threads with accesses of their own: a sender about to push while a receiver waits for m_mtxRB, which it cannot lock; a pool with one thread about
    to read its task *)
Example c76_queue_case :
  match exec (MessageQueueModel.q_step nat 2%Z) (MessageQueueModel.q_init nat)
    [MessageQueueModel.QCall 1 (QSend 7 (-1)%Z); MessageQueueModel.QStep 1; MessageQueueModel.QStep 1; MessageQueueModel.QStep 1; MessageQueueModel.QStep 1;
     MessageQueueModel.QCall 2 (QRecv true 5%Z); MessageQueueModel.QStep 2; MessageQueueModel.QStep 1] with
  | Some (s, es) => rq_acc s 1 = [(REnd, Reads); (RSlot 0%Z, Writes); (REnd, Writes)] /\ rq_acc s 2 = [] /\
                    MessageQueueModel.q_step nat 2%Z s (MessageQueueModel.QStep 2) = None
  | None => False
  end.
Proof. vm_compute. repeat split. Qed.
Example c76_pool_case :
  match exec (ThreadPoolModel.p_step 2 10%Z (fun _ => 4%Z)) (ThreadPoolModel.p_init 2 10%Z)
    ([ThreadPoolModel.XCall 5 (ThreadPoolSpec.PStart 77 (-1)%Z None None); ThreadPoolModel.XCall 6 (ThreadPoolSpec.PStart 78 (-1)%Z None None)] ++
     repeat (ThreadPoolModel.XStep 5) 6 ++ [ThreadPoolModel.XRun 0; ThreadPoolModel.XStep 6; ThreadPoolModel.XStep 6]) with
  | Some (s, es) => rp_acc s 0 = [(Task 0, Reads)] /\ rp_acc s 6 = [(Task 1, Writes)]
  | None => False
  end.
Proof. vm_compute. repeat split. Qed.
Example c76_mutex_case :
  match exec (MutexModel.m_step 10) MutexModel.m_init
    [MutexModel.MCall 1 MLock; MutexModel.MStep 1; MutexModel.MStep 1; MutexModel.MStep 1; MutexModel.MCall 1 MUnlock; MutexModel.MCall 2 MLock] with
  | Some (s, es) => rl_acc s 1 = [(LCount, Reads)] /\ rl_acc s 2 = [] /\ holds 1 (firstn 2 (history es)) = 1
  | None => False
  end.
Proof. vm_compute. repeat split. Qed.
