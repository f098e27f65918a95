(** Model of OSWrapper::ThreadPool (mechanism/OSWrapper/ThreadPool.cpp:172-342) running over the library's own MessageQueue, Mutex, EventFlag
    and Thread on the Itron platform, down to the kernel calls of ItronThread (OS/ItronThreadModel: platform/ItronOSWrapper/ItronThreadFactory.cpp:13-245),
    ItronEventFlag (OS/ItronEventFlagModel: ItronEventFlagFactory.cpp:15-171) and ItronMutex (OS/ItronMutexModel, below MessageQueue: OS/QueueStackModel).
    As in OS/PoolWholeModel (StdCpp) the pool keeps what is ThreadPool's own, and every object moves by its own steps, in any order; which call an
    agent is about to make on which object, and how it goes on with the result, is [wants_thread], [wants_flag], [wants], [resume_thread],
    [resume_flag], [resume] of the models there: ThreadPool is the same code.
    Agent 0 of ItronThread object r is its own task, agent [S t] is agent [t] of the pool (a client, or the pool thread t).
    Simplified: as in the models it is put together from; the kernel does not refuse loc_mtx or unl_mtx, copying a pointer does not throw, time
    limits are at least -1 ([z_calm], in the theorems; below -1 the kernel answers E_PAR); ItronThread::setPriority and getPriority are
    one step of the pool part, the object's own m_priority stays as created (chg_pri has no effect that the pool reports).
    Only calls and returns are reported (no instants of effect). The end of a task (PEnd) returns when setAll or send has returned. *)
From Coq Require Import List ZArith Bool Arith.
Import ListNotations.
From Verif Require Import Spec.OSError Spec.Linear Spec.EventFlagSpec Spec.MessageQueueSpec Spec.ThreadSpec Spec.ItronThreadSpec OS.Sched OS.MessageQueueModel OS.EventFlagModel
  OS.ItronEventFlagModel OS.ItronMutexModel OS.QueueStackModel Spec.ThreadPoolSpec OS.ThreadPoolModel OS.PoolStackModel OS.PoolWholeModel OS.ItronThreadModel.
Local Open Scope nat_scope.

Record zst := mkZ { z_pool : pst; z_queue : itr_st nat; z_thread : nat -> its; z_flag : nat -> ifst }.
Inductive zlab :=
| ZPool (l : plab)                     (* a step of the pool's own code *)
| ZQueue (l : itr_lab nat)             (* a step inside m_freeRunnerQueue *)
| ZThread (r : nat) (l : ilabel)       (* a step of Thread object r: of its task, or of a caller inside it *)
| ZFlag (r : nat) (l : iflab).         (* a step inside the event flag of runner r *)

Section Model.
  Variable N : nat.                 (* maxThreads *)
  Variable dflt : Z.                (* m_defaultPriority *)
  Variable ext_prio : nat -> Z.     (* the priority of the callers that are not pool threads *)
  Variables minp maxp : Z.          (* Thread::getMinPriority, getMaxPriority *)
  Variables w wf : Z.               (* bits of unsigned int and of FLGPTN *)
  Variable dbg : bool.

  (** what the pool hears of a Thread object; it makes no calls about priorities (simplified, see above) *)
  Definition hear_task (r : nat) (P : pst) (e : event icall ires) : option (pst * pout) :=
    match e with
    | Call t (IT c) => hear_thread r P (Call t c)                (* ThreadPool.cpp:194, 249; threadMain calls and leaves TaskRunner::run *)
    | Ret t (IR v) => hear_thread r P (Ret t v)
    | Eff _ _ _ => Some (P, [])
    | _ => None
    end.

  Definition z_step (s : zst) (l : zlab) : option (zst * pout) :=
    match l with
    | ZPool l => if local (z_pool s) l then
        match p_step N dflt ext_prio (z_pool s) l with Some (P, es) => Some (mkZ P (z_queue s) (z_thread s) (z_flag s), history es) | None => None end
        else None
    | ZQueue l =>
        match itr_step nat (Z.of_nat N) w wf dbg (z_queue s) l with
        | Some (c, es) => match hears (hear_queue N) (z_pool s) es with Some (P, o) => Some (mkZ P c (z_thread s) (z_flag s), o) | None => None end
        | None => None
        end
    | ZThread r l => if r <? N then
        match n_step dflt minp maxp ext_prio (z_thread s r) l with
        | Some (T, es) => match hears (hear_task r) (z_pool s) es with Some (P, o) => Some (mkZ P (z_queue s) (fupd (z_thread s) r T) (z_flag s), o) | None => None end
        | None => None
        end else None
    | ZFlag r l =>
        match f_step w wf dbg false (z_flag s r) l with
        | Some (e, es) => match hears (hear_flag N r) (z_pool s) es with Some (P, o) => Some (mkZ P (z_queue s) (z_thread s) (fupd (z_flag s) r e), o) | None => None end
        | None => None
        end
    end.

  (** constructMembers (76-102): the creating thread has sent every runner to the new queue; [c0] is any state this can lead to *)
  Definition z_filled (c0 : itr_st nat) : Prop :=
    exists c ls es, exec (itr_step nat (Z.of_nat N) w wf dbg) (itr_init nat) ls = Some (c0, es) /\ (forall l, In l ls -> itr_calm nat l) /\
      es = concat (map (fun r => [Call c (QSend r (-1)%Z); Ret c (RSend OK)]) (seq 0 N)) /\ forall t, c_idle c0 t.
  (** the tasks are created dormant (91), the event flags are reset: EventFlag::create(false), 83 *)
  Definition z_init (c0 : itr_st nat) : zst := mkZ (t_pool_init dflt) c0 (fun _ => n_init dflt) (fun _ => f_init).

  Definition z_idle (s : zst) (t : nat) : Prop := p_thr (z_pool s) t = PIdle.
End Model.

(** the kernel refuses no mutex call and no copy of a pointer throws; callers give time limits of at least -1 (Timeout::FOREVER) *)
Definition z_calm (l : zlab) : Prop :=
  match l with
  | ZQueue (CMtx _ (KRefuse _)) | ZQueue (CThrow _ _) => False
  | ZPool (XCall _ (PStart _ ms _ _)) | ZPool (XCall _ (PWait _ ms)) => (-1 <= ms)%Z
  | _ => True
  end.
(** the steps other than new calls of the pool, ends of tasks, time-outs and refusals *)
Definition z_moves (l : zlab) : Prop :=
  match l with
  | ZPool (XStep _) | ZPool (XRun _) => True
  | ZQueue (CCall _ _) => True
  | ZQueue l => itr_moves nat l
  | ZThread _ (NCall _ _) | ZThread _ (NStep _) | ZThread _ NTask => True
  | ZFlag _ (FCall _ _) | ZFlag _ (FStep _ _) => True
  | _ => False
  end.
(** the steps of the calls in progress and of the threads: all except new calls of the pool, the ends of tasks (which are the users' code) and
    one more round of the loop in which ItronThread::waitUntilDormant finds the task not dormant (ItronThreadFactory.cpp 60-68) *)
Definition z_own (l : zlab) : Prop :=
  match l with
  | ZPool l => p_own_step l
  | ZThread _ (NSpin _) => False
  | _ => True
  end.
