(** Model of mechanism/OSWrapper/MessageQueue.h running over given implementations of Mutex and EventFlag, instead of over
    the atomic objects that OS/MessageQueueModel takes.  The implementations are transition systems that report when a
    thread calls, takes effect and returns; the queue's threads and its three mutexes and its event flag move together:
    an object makes a step [Call t c] only when thread [t] of the queue is about to make exactly that call on that object,
    and on [Ret t r] thread [t] goes on with the result [r].  The steps between are the objects' own, in any order.
    Below, the instance with StdCppMutex (OS/MutexModel) and StdCppEventFlag (OS/EventFlagModel), and the instance with
    ItronMutex (OS/ItronMutexModel) and ItronEventFlag (OS/ItronEventFlagModel).
    As in OS/MessageQueueModel the ring buffer operations are one step each, and time is not modelled. *)
From Coq Require Import List ZArith Bool Arith.
Import ListNotations.
From Verif Require Import Spec.OSError Spec.Linear Spec.MutexSpec Spec.EventFlagSpec Spec.MessageQueueSpec OS.Sched OS.MessageQueueModel
  OS.MutexModel OS.EventFlagModel OS.ItronMutexModel OS.ItronEventFlagModel.
Open Scope Z_scope.

Inductive which := OSnd | ORcv | ORB.                      (* m_mtxSend, m_mtxRecv, m_mtxRB: 324-326 *)
Definition which_eqb (a b : which) : bool := match a, b with OSnd, OSnd | ORcv, ORcv | ORB, ORB => true | _, _ => false end.
Inductive objcall := OMutex (o : which) (m : mcall) | OEvent (e : ecall).
Definition mcall_dec (a b : mcall) : {a = b} + {a <> b}.
Proof. decide equality; apply Z.eq_dec. Defined.
Definition ecall_dec (a b : ecall) : {a = b} + {a <> b}.
Proof. repeat decide equality. Defined.

Definition EV_NOT_EMPTY : Z := 1.                          (* 404-405 *)
Definition EV_NOT_FULL : Z := 2.                           (* 407-408 *)

Section Stack.
  Variable V : Type.
  Variable maxSize : Z.
  Variables MS ML : Type.                                  (* states and labels of a mutex *)
  Variable mstep : MS -> ML -> option (MS * list (event mcall err)).
  Variables ES EL : Type.                                  (* states and labels of an event flag *)
  Variable estep : ES -> EL -> option (ES * list (event ecall eres)).
  Notation B := (rbBufSize maxSize).

  Definition outer_of (c : qcall V) : which := if is_send c then OSnd else ORcv.
  Definition wait_pat (c : qcall V) : Z := if is_send c then EV_NOT_FULL else EV_NOT_EMPTY.     (* 132, 213, 371, 381 *)
  Definition done_pat (c : qcall V) : Z := if is_send c then EV_NOT_EMPTY else EV_NOT_FULL.     (* 390, 397 *)
  (** the call on an object that the thread makes at a point of the code; [g]: the lock() made by its LockGuard on m_mtxRB
      returned OK, otherwise ~LockGuard does not unlock *)
  Definition uses (g : bool) (c : qcall V) (p : point V) : option objcall :=
    match p with
    | PLockOuter => Some (OMutex (outer_of c) (MTimedLock (tmout c)))                           (* 125, 206 *)
    | PLockChk | PLockOp => Some (OMutex ORB MLock)                                             (* Mutex.cpp:35-41; 368, 378, 388, 395, 242, 252 *)
    | PResetEv => Some (OEvent (EReset (wait_pat c)))                                           (* 371, 381 *)
    | PUnlockChk _ | PUnlockOp _ => if g then Some (OMutex ORB MUnlock) else None                                   (* Mutex.cpp:51-56 *)
    | PWait => Some (OEvent (EWait (wait_pat c) ModeOR false (Within (tmout c))))               (* 132, 213 *)
    | PSetEv _ => Some (OEvent (ESet (done_pat c)))                                             (* 390, 397 *)
    | PUnlockOuter _ => Some (OMutex (outer_of c) MUnlock)                                      (* Mutex.cpp:51-56 *)
    | PChk | POp | PRet _ => None
    end.
  (** where the thread goes on when the call on the mutex returned [r]; LockGuard goes on whatever lock() returned *)
  Definition after_mutex (c : qcall V) (p : point V) (r : err) : point V :=
    match p with
    | PLockOuter => match r with OK => PLockChk | e => PRet (fail_res c e) end                  (* 126-128, 207-209 *)
    | PLockChk => PChk
    | PLockOp => POp
    | PUnlockChk b => if b then PWait else PLockOp
    | PUnlockOp x => match c with QSend _ _ | QRecv _ _ => PUnlockOuter x | _ => PRet x end
    | PUnlockOuter x => PRet x
    | _ => p
    end.
  Definition after_guard (g : bool) (p : point V) (r : err) : bool :=
    match p with PLockChk | PLockOp => match r with OK => true | _ => false end | _ => g end.
  (** ... and when the call on the event flag returned [r]; the results of set and reset are ignored *)
  Definition after_event (c : qcall V) (p : point V) (r : eres) : point V :=
    match p with
    | PResetEv => PUnlockChk true
    | PWait => match r with
               | ERes OK _ => PLockOp
               | ERes e _ => PUnlockOuter (fail_res c e)                                        (* 133-135, 214-216 *)
               | EPat _ => PLockOp                                                              (* never: timedWait returns an Error *)
               end
    | PSetEv x => PUnlockOp x
    | _ => p
    end.

  (** CIn: inside the call [uses g c p] *)
  Inductive cpc := CIdle | CBefore (g : bool) (c : qcall V) (p : point V) | CIn (g : bool) (c : qcall V) (p : point V).
  Record cst := mkC { c_ring : ring V; c_ub : bool; c_mtx : which -> MS; c_ev : ES; c_thr : nat -> cpc }.
  Definition c_init (m0 : MS) (e0 : ES) : cst := mkC ring_init false (fun _ => m0) e0 (fun _ => CIdle).   (* 332-364 *)

  Inductive clab :=
  | CCall (t : nat) (c : qcall V)
  | CDo (t : nat)                          (* the thread's own step: on the ring buffer, or the return *)
  | CMtx (o : which) (l : ML)              (* a step of a mutex *)
  | CEvt (l : EL)                          (* a step of the event flag *)
  | CThrow (t : nat) (failure : bool).     (* copying the message throws, as QThrow of OS/MessageQueueModel *)

  Definition hear_mutex (o : which) (thr : nat -> cpc) (e : event mcall err) : option (nat -> cpc) :=
    match e with
    | Call t m => match thr t with
                  | CBefore g c p => match uses g c p with
                                   | Some (OMutex o' m') => if which_eqb o o' then if mcall_dec m m' then Some (fupd thr t (CIn g c p)) else None else None
                                   | _ => None
                                   end
                  | _ => None
                  end
    | Eff _ _ _ => Some thr
    | Ret t r => match thr t with
                 | CIn g c p => match uses g c p with
                              | Some (OMutex o' _) => if which_eqb o o' then Some (fupd thr t (CBefore (after_guard g p r) c (after_mutex c p r))) else None
                              | _ => None
                              end
                 | _ => None
                 end
    end.
  Definition hear_event (thr : nat -> cpc) (e : event ecall eres) : option (nat -> cpc) :=
    match e with
    | Call t m => match thr t with
                  | CBefore g c p => match uses g c p with
                                   | Some (OEvent m') => if ecall_dec m m' then Some (fupd thr t (CIn g c p)) else None
                                   | _ => None
                                   end
                  | _ => None
                  end
    | Eff _ _ _ => Some thr
    | Ret t r => match thr t with
                 | CIn g c p => match uses g c p with Some (OEvent _) => Some (fupd thr t (CBefore g c (after_event c p r))) | _ => None end
                 | _ => None
                 end
    end.
  Fixpoint hear {E : Type} (f : (nat -> cpc) -> E -> option (nat -> cpc)) (thr : nat -> cpc) (es : list E) : option (nat -> cpc) :=
    match es with [] => Some thr | e :: es' => match f thr e with Some thr' => hear f thr' es' | None => None end end.

  Definition wupd {A : Type} (f : which -> A) (o : which) (x : A) : which -> A := fun o' => if which_eqb o' o then x else f o'.
  Definition c_go (s : cst) (t : nat) (x : cpc) : cst := mkC (c_ring s) (c_ub s) (c_mtx s) (c_ev s) (fupd (c_thr s) t x).
  Definition with_ring (s : cst) (r : ring V) : cst := mkC r (c_ub s) (c_mtx s) (c_ev s) (c_thr s).
  Definition with_ub (s : cst) : cst := mkC (c_ring s) true (c_mtx s) (c_ev s) (c_thr s).

  (** push, pop, getSize, getMaxSize: the ring operation (243, 253, 305-318, 389, 396) *)
  Definition c_op (s : cst) (t : nat) (g : bool) (c : qcall V) : cst :=
    match c with
    | QSend v _ => match ring_push V B (c_ring s) v with
                   | Some r => c_go (with_ring s r) t (CBefore g c (PSetEv (RSend OK)))
                   | None => with_ub s
                   end
    | QRecv store _ => match ring_pop V B (c_ring s) with
                       | Some (v, r) => c_go (with_ring s r) t (CBefore g c (PSetEv (RRecv OK (if store then Some v else None))))
                       | None => with_ub s
                       end
    | QGetSize => c_go s t (CBefore g c (PUnlockOp (RNum (ring_size V B (c_ring s)))))
    | QGetMaxSize => c_go s t (CBefore g c (PUnlockOp (RNum (ring_max B))))
    end.

  (** the events of a step are the calls and returns of the queue itself *)
  Definition c_step (s : cst) (l : clab) : option (cst * list (event (qcall V) (qres V))) :=
    match l with
    | CCall t c =>
        match c_thr s t with
        | CIdle => Some (c_go s t (CBefore true c (match c with QSend _ _ | QRecv _ _ => PLockOuter | _ => PLockOp end)), [Call t c])
        | _ => None
        end
    | CDo t =>
        match c_thr s t with
        | CBefore g c PChk =>                                                                     (* 369-373, 379-383 *)
            let b := if is_send c then ring_full V B (c_ring s) else ring_empty V (c_ring s) in
            Some (c_go s t (CBefore g c (if b then PResetEv else PUnlockChk false)), [])
        | CBefore g c POp => Some (c_op s t g c, [])
        | CBefore false c (PUnlockChk b) => Some (c_go s t (CBefore true c (after_mutex c (PUnlockChk b) OK)), [])   (* Mutex.cpp:53 *)
        | CBefore false c (PUnlockOp r) => Some (c_go s t (CBefore true c (after_mutex c (PUnlockOp r) OK)), [])
        | CBefore _ c (PRet r) => Some (c_go s t CIdle, [Ret t r])
        | _ => None
        end
    | CMtx o l =>
        match mstep (c_mtx s o) l with
        | Some (m', es) => match hear (hear_mutex o) (c_thr s) es with
                           | Some thr' => Some (mkC (c_ring s) (c_ub s) (wupd (c_mtx s) o m') (c_ev s) thr', [])
                           | None => None
                           end
        | None => None
        end
    | CEvt l =>
        match estep (c_ev s) l with
        | Some (e', es) => match hear hear_event (c_thr s) es with
                           | Some thr' => Some (mkC (c_ring s) (c_ub s) (c_mtx s) e' thr', [])
                           | None => None
                           end
        | None => None
        end
    | CThrow t failure =>                                                                       (* 145-150, 226-231 *)
        match c_thr s t with
        | CBefore g (QSend v ms) POp => Some (c_go s t (CBefore g (QSend v ms) (PUnlockOp (if failure then RFailure else RSend OtherError))), [])
        | CBefore g (QRecv true ms) POp => Some (c_go s t (CBefore g (QRecv true ms) (PUnlockOp (if failure then RFailure else RRecv OtherError None))), [])
        | _ => None
        end
    end.

  Definition c_idle (s : cst) (t : nat) : Prop := c_thr s t = CIdle.
  Definition c_running (s : cst) (t : nat) : option (qcall V) := match c_thr s t with CIdle => None | CBefore _ c _ | CIn _ c _ => Some c end.
End Stack.
Arguments CIdle {V}. Arguments CBefore {V}. Arguments CIn {V}.
Arguments mkC {V MS ES}. Arguments c_ring {V MS ES}. Arguments c_ub {V MS ES}. Arguments c_mtx {V MS ES}. Arguments c_ev {V MS ES}. Arguments c_thr {V MS ES}.
Arguments c_init {V MS ES}. Arguments CCall {V ML EL}. Arguments CDo {V ML EL}. Arguments CMtx {V ML EL}. Arguments CEvt {V ML EL}. Arguments CThrow {V ML EL}.
Arguments c_go {V MS ES}. Arguments with_ring {V MS ES}. Arguments with_ub {V MS ES}. Arguments c_idle {V MS ES}. Arguments c_running {V MS ES}.
Arguments outer_of {V}. Arguments uses {V}. Arguments after_mutex {V}. Arguments after_event {V}. Arguments after_guard {V}. Arguments wait_pat {V}. Arguments done_pat {V}.

(** over StdCppMutex and StdCppEventFlag: [M] the deepest nesting of std::recursive_timed_mutex, [w] the bits of unsigned int *)
Section Std.
  Variables (V : Type) (maxSize : Z) (M : nat) (w : Z) (dbg : bool).
  Definition std_lab : Type := clab V mlab elab.
  Definition std_st : Type := cst V mst est.
  Definition std_step : std_st -> std_lab -> option (std_st * list (event (qcall V) (qres V))) :=
    c_step V maxSize mst mlab (m_step M) est elab (e_step w dbg false).                        (* EventFlag::create(false): 359 *)
  Definition std_init : std_st := c_init m_init e_init.
  (** lock() on m_mtxRB does not throw; elsewhere it may *)
  Definition std_ok (l : std_lab) : Prop := match l with CMtx ORB (MThrow _) => False | _ => True end.
  (** no lock() throws and no copy of a message throws *)
  Definition std_calm (l : std_lab) : Prop := match l with CMtx _ (MThrow _) | CThrow _ _ => False | _ => True end.
  (** the steps of calls in progress that take no exception, time-out or spurious wake-up *)
  Definition std_moves (l : std_lab) : Prop :=
    match l with CDo _ | CMtx _ (MCall _ _) | CMtx _ (MStep _) | CEvt (LCall _ _) | CEvt (LStep _) => True | _ => False end.
  (** not a new call on the queue, and not a spurious wake-up *)
  Definition std_own (l : std_lab) : Prop := match l with CCall _ _ | CEvt (LSpurious _) => False | _ => True end.
End Std.
(** over ItronMutex and ItronEventFlag: [wf] the bits of FLGPTN *)
Section Itron.
  Variables (V : Type) (maxSize : Z) (w wf : Z) (dbg : bool).
  Definition itr_lab : Type := clab V ilab iflab.
  Definition itr_st : Type := cst V ist ifst.
  Definition itr_step : itr_st -> itr_lab -> option (itr_st * list (event (qcall V) (qres V))) :=
    c_step V maxSize ist ilab i_step ifst iflab (f_step w wf dbg false).
  Definition itr_init : itr_st := c_init i_init f_init.
  (** no call gives a time-out below -1 (TMO_FEVR); the kernel does not refuse loc_mtx/unl_mtx on m_mtxRB *)
  Definition itr_ok (l : itr_lab) : Prop := match l with CCall _ c => -1 <= tmout c | CMtx ORB (KRefuse _) => False | _ => True end.
  Definition itr_calm (l : itr_lab) : Prop := match l with CCall _ c => -1 <= tmout c | CMtx _ (KRefuse _) | CThrow _ _ => False | _ => True end.
  Definition itr_moves (l : itr_lab) : Prop :=
    match l with CDo _ | CMtx _ (KCall _ _) | CMtx _ (KStep _) | CEvt (FCall _ _) | CEvt (FStep _ _) => True | _ => False end.
  Definition itr_own (l : itr_lab) : Prop := match l with CCall _ _ => False | _ => True end.
End Itron.
