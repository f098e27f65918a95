(** C72: the test doubles, and a MessageQueue in a unit test, running over doubles of Mutex and EventFlag.  [answers]: what the doubles
    answer to each call, as a function of all calls before; the library's own doubles always answer OK ([default_answers]). *)
From Coq Require Import List ZArith Bool Lia.
Import ListNotations.
From Verif Require Import Spec.OSError Spec.MessageQueueSpec Spec.DoubleSpec OS.DoubleModel OS.DoubleProofs.
Open Scope Z_scope.

(** the doubles of Thread and of the timers *)
Theorem c72_thread_double :
  forall (r pri stack address name : Z) (cs : list tcall) (c : tcall),
    snd (tt_call (tt_calls (tt_create r pri stack address name tt_blank) cs) c) = tspec pri stack name cs c.
Proof. exact thread_double. Qed.
Print Assumptions c72_thread_double.
Theorem c72_timer_double :
  forall (r period name : Z) (cs : list icall) (c : icall),
    snd (ti_call (ti_calls (ti_create r period name ti_blank) cs) c) = ispec period name cs c.
Proof. exact timer_double. Qed.
Print Assumptions c72_timer_double.

(** objects of these classes made by a test itself, with the default constructor: all attributes are 0 *)
Theorem c72_blank_doubles :
  (forall (cs : list tcall) (c : tcall), snd (tt_call (tt_calls tt_blank cs) c) = tspec 0 0 0 cs c) /\
  (forall (cs : list icall) (c : icall), snd (ti_call (ti_calls ti_blank cs) c) = ispec 0 0 cs c).
Proof. exact (conj thread_blank timer_blank). Qed.
Print Assumptions c72_blank_doubles.

(** what the doubles are told, whatever they answer: the calls that one call on the queue makes on its mutexes and its event flag are those
    of [talk] - lock, look (and take back the event if the queue is full or empty), wait if it is, unlock; lock, store or take, signal the
    other side, unlock - where [n] is what getSize gives before *)
Theorem c72_conversation :
  forall (V : Type) (maxSize : Z), 0 <= maxSize < 2 ^ 64 - 1 ->
  forall (answers : dlog -> dcall -> err) (cs : list (qcall V)) (s : dq V) (rs : list (qres V)) (c : qcall V) (s' : dq V) (r : qres V) (n : Z) (sn : dq V),
    dq_run V maxSize answers dq_init cs = Some (s, rs) -> dq_call V maxSize answers s QGetSize = Some (sn, RNum n) -> dq_call V maxSize answers s c = Some (s', r) ->
    exists l, dq_log s' = dq_log s ++ l /\ talk maxSize n c r (map fst l).
Proof. exact conversation. Qed.
Print Assumptions c72_conversation.
(** whatever the doubles answer: at the end of each program every lock that was granted has been released, in LIFO order *)
Theorem c72_locks_released :
  forall (V : Type) (maxSize : Z) (answers : dlog -> dcall -> err) (cs : list (qcall V)) (s : dq V) (rs : list (qres V)),
    dq_run V maxSize answers dq_init cs = Some (s, rs) -> nested [] (dq_log s) = Some [].
Proof. exact locks_released. Qed.
Print Assumptions c72_locks_released.

(** if the event flag's waits never answer OK (nobody else can make room), the queue is a bounded FIFO whatever else the doubles answer,
    and nothing is undefined behaviour *)
Theorem c72_fifo_partial :
  forall (V : Type) (maxSize : Z), 0 <= maxSize < 2 ^ 64 - 1 ->
  forall (answers : dlog -> dcall -> err) (cs : list (qcall V)), (forall l p ms, answers l (DWait p ms) <> OK) ->
    exists s rs q, dq_run V maxSize answers dq_init cs = Some (s, rs) /\ dq_runs V (Z.to_nat maxSize) [] cs rs q.
Proof. exact fifo. Qed.
Print Assumptions c72_fifo_partial.
(** a program that never sends to a full queue nor receives from an empty one gets the results of a FIFO, whatever the waits answer *)
Theorem c72_careful_programs_partial :
  forall (V : Type) (maxSize : Z), 0 <= maxSize < 2 ^ 64 - 1 ->
  forall (answers : dlog -> dcall -> err), (forall l o ms, answers l (DTimedLock o ms) = OK) ->
  forall (cs : list (qcall V)) (rs : list (qres V)) (q : list V),
    fits V (Z.to_nat maxSize) [] cs = Some (rs, q) -> exists s, dq_run V maxSize answers dq_init cs = Some (s, rs).
Proof. exact careful. Qed.
Print Assumptions c72_careful_programs_partial.

(** with the library's doubles the others fail: a send to a full queue, even trySend, returns OK and every message is lost *)
Theorem c72_send_on_full_loses_all_refuted :
  forall (V : Type) (maxSize : Z), 0 <= maxSize < 2 ^ 64 - 1 ->
  forall (cs : list (qcall V)) (rs : list (qres V)) (q : list V) (v : V) (ms : Z),
    fits V (Z.to_nat maxSize) [] cs = Some (rs, q) -> length q = Z.to_nat maxSize ->
    exists s, dq_run V maxSize default_answers dq_init (cs ++ [QSend v ms; QGetSize]) = Some (s, rs ++ [RSend OK; RNum 0]).
Proof. exact (fun V m HM => overflow V m HM default_answers (fun _ _ _ => eq_refl) (fun _ _ _ => eq_refl)). Qed.
Print Assumptions c72_send_on_full_loses_all_refuted.
(** and a receive on an empty queue, even tryReceive, is undefined behaviour *)
Theorem c72_receive_on_empty_is_undefined_refuted :
  forall (V : Type) (maxSize : Z), 0 <= maxSize < 2 ^ 64 - 1 ->
  forall (cs : list (qcall V)) (rs : list (qres V)) (store : bool) (ms : Z),
    fits V (Z.to_nat maxSize) [] cs = Some (rs, []) -> dq_run V maxSize default_answers dq_init (cs ++ [QRecv store ms]) = None.
Proof. exact (fun V m HM => underflow V m HM default_answers (fun _ _ _ => eq_refl) (fun _ _ _ => eq_refl)). Qed.
Print Assumptions c72_receive_on_empty_is_undefined_refuted.

(** not vacuous: a double whose waits time out; a queue of 2 messages, filled, sent to again, emptied, received from again *)
Definition c72_answers (l : dlog) (c : dcall) : err := match c with DWait _ _ => TimedOut | _ => OK end.
Example c72_fifo_nonvacuous :
  match dq_run Z 2 c72_answers dq_init [QSend 7 0; QSend 8 (-1); QSend 9 0; QGetSize; QRecv true 0; QRecv false 5; QRecv true 0; QGetMaxSize] with
  | Some (s, rs) => rs = [RSend OK; RSend OK; RSend TimedOut; RNum 2; RRecv OK (Some 7); RRecv OK None; RRecv TimedOut None; RNum 2] /\ nested [] (dq_log s) = Some []
  | None => False
  end.
Proof. vm_compute. now split. Qed.
Example c72_careful_nonvacuous : fits Z 2 [] [QSend 7 0; QSend 8 0] = Some ([RSend OK; RSend OK], [7; 8]).
Proof. reflexivity. Qed.
(** and the library's own doubles on the full queue *)
Example c72_refuted_nonvacuous :
  match dq_run Z 2 default_answers dq_init [QSend 7 0; QSend 8 0; QSend 9 0; QGetSize] with Some (_, rs) => rs = [RSend OK; RSend OK; RSend OK; RNum 0] | None => False end.
Proof. vm_compute. reflexivity. Qed.
Example c72_locks_nonvacuous :   (* a log that is not properly nested is rejected *)
  nested [] [(DTimedLock MSend 0, OK); (DLock MRing, OK); (DUnlock MSend, OK)] = None /\ nested [] [(DTimedLock MSend 0, OK); (DSet 1, OK)] = Some [MSend].
Proof. now split. Qed.
(** a conversation: a send to a queue of one message, full, whose wait times out *)
Example c72_conversation_nonvacuous :
  match dq_run Z 1 c72_answers dq_init [QSend 7 0] with
  | Some (s, _) =>
      match dq_call Z 1 c72_answers s QGetSize, dq_call Z 1 c72_answers s (QSend 8 5) with
      | Some (_, RNum n), Some (s', r) =>
          n = 1 /\ r = RSend TimedOut /\
          map fst (skipn (length (dq_log s)) (dq_log s')) = [DTimedLock MSend 5; DLock MRing; DReset NotFull; DUnlock MRing; DWait NotFull 5; DUnlock MSend]
      | _, _ => False
      end
  | None => False
  end.
Proof. vm_compute. repeat split. Qed.
