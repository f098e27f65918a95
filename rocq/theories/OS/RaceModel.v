(** The plain shared variables of the modelled classes, and which of them a thread accesses in its next step. *)
From Coq Require Import List ZArith Bool Arith.
Import ListNotations.
From Verif Require Import Spec.OSError Spec.RaceSpec Spec.Linear Spec.MutexSpec Spec.MessageQueueSpec Spec.EventFlagSpec OS.Sched.
From Verif Require OS.MessageQueueModel OS.EventFlagModel OS.MutexModel OS.ItronMutexModel OS.ThreadPoolModel.

(** * MessageQueue (mechanism/OSWrapper/MessageQueue.h): m_begin, m_end and the slots of m_buf (259-262); m_bufSize is constant *)
Section AtQueue.
  Import MessageQueueModel.
  Inductive rq_loc := RBegin | REnd | RSlot (i : Z).
  Section Q.
    Context {V : Type}.
    Variable maxSize : Z.
    Definition rq_who (l : qlab V) : nat := match l with QCall t _ | QStep t | QTimeout t | QLockFail t | QThrow t _ => t end.
    Definition rq_acc (s : qst V) (t : nat) : list (rq_loc * kind) :=
      match q_thr s t with
      | QAt _ PChk => [(RBegin, Reads); (REnd, Reads)]                                                 (* isFull: 300-303, 282-288; isEmpty: 295-298 *)
      | QAt (QSend _ _) POp => [(REnd, Reads); (RSlot (r_end (q_ring s)), Writes); (REnd, Writes)]      (* push: 305-309 *)
      | QAt (QRecv _ _) POp => [(RBegin, Reads); (RSlot (r_begin (q_ring s)), Reads); (RSlot (r_begin (q_ring s)), Writes); (RBegin, Writes)]   (* pop: 311-318 *)
      | QAt QGetSize POp => [(RBegin, Reads); (REnd, Reads)]                                           (* getSize: 282-288 *)
      | _ => []
      end.
    Definition rq_get (s : qst V) (x : rq_loc) : Z + option V :=
      match x with RBegin => inl (r_begin (q_ring s)) | REnd => inl (r_end (q_ring s)) | RSlot i => inr (r_buf (q_ring s) i) end.
    Definition rq_alike (x : rq_loc) (s s' : qst V) : Prop :=
      (forall y, y <> x -> rq_get s y = rq_get s' y) /\ q_ne s = q_ne s' /\ q_nf s = q_nf s' /\ q_mrb s = q_mrb s' /\ q_msend s = q_msend s' /\
      q_mrecv s = q_mrecv s' /\ q_ub s = q_ub s' /\ forall t, q_thr s t = q_thr s' t.
  End Q.
End AtQueue.

(** * StdCppEventFlag (platform/StdCppOSWrapper/StdCppEventFlagFactory.cpp): m_pattern; m_autoReset is constant *)
Section AtFlag.
  Import EventFlagModel.
  Inductive rf_loc := Pattern.
  Section F.
    Variables (w : Z) (autoReset : bool).
    Definition rf_who (l : elab) : nat := match l with LCall t _ | LStep t | LTimeout t | LSpurious t => t end.
    Definition rf_waiting (s : est) (P : Z) (m : mode) : list (rf_loc * kind) :=                           (* 83-109 *)
      (Pattern, Reads) :: (if wait_pred w P m (e_pat s) && autoReset then [(Pattern, Writes)] else []).
    Definition rf_acc (s : est) (t : nat) : list (rf_loc * kind) :=
      match e_thr s t with
      | EBody _ (OWait P m _ _) | EEval _ (OWait P m _ _) _ => rf_waiting s P m
      | EBody _ (OSet _) | EBody _ (OReset _) => [(Pattern, Reads); (Pattern, Writes)]               (* 128, 149 *)
      | EBody _ OGet => [(Pattern, Reads)]                                                           (* 156 *)
      | _ => []
      end.
    Definition rf_get (s : est) (x : rf_loc) : Z := e_pat s.
    Definition rf_alike (x : rf_loc) (s s' : est) : Prop := e_lock s = e_lock s' /\ forall t, e_thr s t = e_thr s' t.
  End F.
End AtFlag.

(** * StdCppMutex (platform/StdCppOSWrapper/StdCppMutexFactory.cpp): m_lockingCount *)
Section AtLock.
  Import MutexModel.
  Inductive rl_loc := LCount.
  Definition rl_who (l : mlab) : nat := match l with MCall t _ | MStep t | MTimeout t | MThrow t => t end.
  Definition rl_acc (s : mst) (t : nat) : list (rl_loc * kind) :=
    match x_thr s t with
    | MInc | UDec => [(LCount, Reads); (LCount, Writes)]                                               (* 29, 45, 65; 86 *)
    | UCheck => [(LCount, Reads)]                                                                     (* 83 *)
    | _ => []
    end.
  Definition rl_get (s : mst) (x : rl_loc) : Z := x_count s.
  Definition rl_alike (x : rl_loc) (s s' : mst) : Prop := x_owner s = x_owner s' /\ x_ub s = x_ub s' /\ forall t, x_thr s t = x_thr s' t.
End AtLock.

(** * ItronMutex (platform/ItronOSWrapper/ItronMutexFactory.cpp): m_recursiveCount *)
Section AtILock.
  Import ItronMutexModel.
  Inductive ri_loc := ICount.
  Definition ri_who (l : ilab) : nat := match l with KCall t _ | KStep t | KTimeout t | KRefuse t => t end.
  Definition ri_acc (s : ist) (t : nat) : list (ri_loc * kind) :=
    match i_thr s t with
    | IInc _ | UDec => [(ICount, Reads); (ICount, Writes)]                                             (* 91; 104 *)
    | UCnt => [(ICount, Reads)]                                                                       (* 103 *)
    | _ => []
    end.
  Definition ri_get (s : ist) (x : ri_loc) : Z := i_count s.
  Definition ri_alike (x : ri_loc) (s s' : ist) : Prop := i_owner s = i_owner s' /\ forall t, i_thr s t = i_thr s' t.
End AtILock.

(** * ThreadPool (mechanism/OSWrapper/ThreadPool.cpp): m_task and m_needsWaiting of each TaskRunner.
    The events of OS/ThreadPoolModel name the task: where an event is emitted this counts as a read, although the code makes none (WIn,
    ANotify, ASend: so the theorem says more than the code needs) *)
Section AtPool.
  Import ThreadPoolModel.
  Inductive rp_loc := Task (r : nat) | Needs (r : nat).
  Definition rp_who (l : plab) : nat := match l with XCall t _ | XStep t | XTimeout t _ | XRun t | XTaskEnd t _ => t end.
  Definition rp_acc (s : pst) (t : nat) : list (rp_loc * kind) :=
    match p_thr s t with
    | PHold STask r _ _ _ _ => [(Task r, Writes)]                                                    (* 246 *)
    | PHold SNeeds r _ _ _ _ => [(Needs r, Writes)]                                                  (* 247 *)
    | _ => []
    end ++
    match p_run s t with
    | WRead | WIn | WAfter ANotify _ | WAfter ASend _ => [(Task t, Reads)]                           (* 270-271 *)
    | WAfter ANeeds _ => [(Needs t, Reads)]                                                          (* 278 *)
    | _ => []
    end.
  Definition rp_get (s : pst) (x : rp_loc) : nat + bool := match x with Task r => inl (p_task s r) | Needs r => inr (p_needs s r) end.
  Definition rp_alike (x : rp_loc) (s s' : pst) : Prop :=
    (forall y, y <> x -> rp_get s y = rp_get s' y) /\ p_q s = p_q s' /\ (forall r, p_prio s r = p_prio s' r) /\ (forall r, p_ev s r = p_ev s' r) /\
    (forall r, p_run s r = p_run s' r) /\ (forall t g, p_guard s t g = p_guard s' t g) /\ forall t, p_thr s t = p_thr s' t.
End AtPool.

