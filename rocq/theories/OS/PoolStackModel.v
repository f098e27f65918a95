(** Model of OSWrapper::ThreadPool (mechanism/OSWrapper/ThreadPool.cpp:172-342) running over OSWrapper::MessageQueue
    (mechanism/OSWrapper/MessageQueue.h): the pool of OS/ThreadPoolModel whose free-runner queue is no longer an atomic object but the queue
    of OS/MessageQueueModel, with its three mutexes, its event flag and its ring buffer.  A thread that calls the queue goes through the
    queue's steps, all other threads moving in between; it goes on in the pool when the queue's call returns.
    Simplified: as in the two models; timedLock of the queue's outer mutexes does not fail (no QLockFail), copying a TaskRunner pointer does
    not throw (no QThrow).
    The field [p_q] of the pool part is not used (it stays empty).  Where a call takes effect (Eff) is a matter of proof only: a start
    that gives up in timedReceive: when timedLock or timedWait gives up; a thread that is given back, and the end of a task: when
    MessageQueue::push signals EV_NOT_EMPTY (MessageQueue.h:390). *)
From Coq Require Import List ZArith Bool Arith.
Import ListNotations.
From Verif Require Import Spec.OSError Spec.Linear Spec.MessageQueueSpec OS.Sched OS.MessageQueueModel Spec.ThreadPoolSpec OS.ThreadPoolModel.

Local Open Scope nat_scope.

Record tst := mkT { t_pool : pst; t_queue : qst nat }.
Inductive tlab :=
| TPool (l : plab)             (* a step of the pool that does not touch the queue *)
| TEnter (t : nat)             (* agent or pool thread t calls the queue *)
| TQueue (t : nat)             (* t makes a step inside the queue *)
| TGiveUp (t : nat).           (* a timedLock or timedWait of t inside the queue times out *)

Section Model.
  Variable N : nat.
  Variable dflt : Z.
  Variable ext_prio : nat -> Z.
  Notation size := (Z.of_nat N).

  (** the call of the queue that thread t is to make: ThreadPool.cpp:188 (in timedStart), 209 (releaseRunner, from 293) *)
  Definition wants (P : pst) (t : nat) : option (qcall nat) :=
    match p_thr P t with
    | PAt (PStart x ms _ _) => if x =? 0 then None else Some (QRecv true ms)
    | PRel true r _ => Some (QSend r (-1)%Z)
    | PIdle => if t <? N then match p_run P t with WAfter ASend _ => Some (QSend t (-1)%Z) | _ => None end else None
    | _ => None
    end.
  (** it has returned [res]: 189-191, 317, 283 *)
  Definition resume (P : pst) (t : nat) (res : qres nat) : pst :=
    match p_thr P t with
    | PAt (PStart x ms g p) => match res with
                               | RRecv OK (Some r) => p_go P t (PHold SJoin r x ms g p)
                               | RRecv e _ => p_go P t (PRet (PErr e))
                               | _ => P
                               end
    | PRel true r g => mkP (p_q P) (p_task P) (p_needs P) (p_prio P) (p_ev P) (p_run P) (set_guard (p_guard P) t g None) (fupd (p_thr P) t (PRet PVoid))
    | _ => p_wto P t WEnd
    end.
  (** the effects noted when t signals in MessageQueue::push *)
  Definition note_push (P : pst) (t : nat) : pout :=
    match p_thr P t with
    | PRel true r g => [Eff t (PRelease g) PVoid]
    | PIdle => match p_run P t with WAfter ASend th => [Eff t (PEnd (p_task P t) th) PVoid; Ret t PVoid] | _ => [] end
    | _ => []
    end.
  (** ... and when it gives up in timedReceive *)
  Definition note_give_up (P : pst) (t : nat) : pout :=
    match p_thr P t with PAt c => [Eff t c (PErr TimedOut)] | _ => [] end.
  (** the steps of the pool that are made by the queue *)
  Definition on_queue (P : pst) (l : plab) : bool :=
    match l with
    | XStep t => match p_thr P t with PAt (PStart x _ _ _) => negb (x =? 0) | PRel true _ _ => true | _ => false end
    | XTimeout t _ => match p_thr P t with PAt (PStart _ _ _ _) => true | _ => false end
    | XRun r => match p_run P r with WAfter ASend _ => true | _ => false end
    | _ => false
    end.

  Definition t_step (s : tst) (l : tlab) : option (tst * pout) :=
    let P := t_pool s in
    let Q := t_queue s in
    match l with
    | TPool l => if on_queue P l then None else
        match p_step N dflt ext_prio P l with Some (P', es) => Some (mkT P' Q, es) | None => None end
    | TEnter t =>
        match wants P t with
        | Some c => match q_step nat size Q (QCall t c) with Some (Q', _) => Some (mkT P Q', []) | None => None end
        | None => None
        end
    | TQueue t =>
        match q_step nat size Q (QStep t) with
        | Some (Q', _) =>
            Some (mkT (match q_thr Q t with QAt _ (MessageQueueModel.PRet res) => resume P t res | _ => P end) Q',
                  match q_thr Q t with QAt (QSend _ _) (PSetEv _) => note_push P t | _ => [] end)
        | None => None
        end
    | TGiveUp t =>
        match q_step nat size Q (QTimeout t) with Some (Q', _) => Some (mkT P Q', note_give_up P t) | None => None end
    end.

  (** constructMembers (76-102): the creating thread has sent every runner to the new queue; [q0] is any state this can lead to *)
  Definition filled (q0 : qst nat) : Prop :=
    exists c ls es, exec (q_step nat size) (q_init nat) ls = Some (q0, es) /\
      effects es = map (fun r => (c, QSend r (-1)%Z, RSend OK)) (seq 0 N) /\ forall t, q_thr q0 t = QIdle.
  Definition t_pool_init : pst :=
    mkP [] (fun _ => 0) (fun _ => false) (fun _ => dflt) (fun _ => false) (fun _ => WOff) (fun _ _ => None) (fun _ => PIdle).
  Definition t_init (q0 : qst nat) : tst := mkT t_pool_init q0.

  Definition t_idle (s : tst) (t : nat) : Prop := p_thr (t_pool s) t = PIdle.
  (** the steps of the calls in progress and of the pool threads; the end of a task is up to the task *)
  Definition t_own_step (l : tlab) : Prop := match l with TPool l => p_own_step l | _ => True end.
  Definition t_stuck (s : tst) : Prop := forall l, t_own_step l -> t_step s l = None.
End Model.

(** the steps other than new calls, ends of tasks and time-outs *)
Definition t_moves (l : tlab) : Prop := match l with TPool (XStep _) | TPool (XRun _) | TEnter _ | TQueue _ => True | _ => False end.
