(** Model of OSWrapper::ThreadPool (mechanism/OSWrapper/ThreadPool.cpp:172-342) running over the library's own MessageQueue, Mutex, EventFlag
    and Thread on the StdCpp platform, down to the critical sections of StdCppThread (OS/ThreadModel), StdCppEventFlag (OS/EventFlagModel)
    and StdCppMutex (OS/MutexModel, below MessageQueue: OS/QueueStackModel).  The pool of OS/ThreadPoolModel keeps what is ThreadPool's own:
    the callers' places in the code, m_task, m_needsWaiting, the priorities, the guards.  Every object moves by its own steps, in any order;
    when it reports that thread [t] calls, [t] must be about to make that call; when it reports a return, [t] goes on with the result.
    In [p_run] of the pool part only the places inside TaskRunner::run are used (WOff: not in it, WEnd: returning); [p_q] and [p_ev] are not
    used: these are the queue and the event flags now.
    Simplified: as in the models it is put together from; no lock() throws (std_calm, in the theorems).  StdCppThread::setPriority
    (StdCppThreadFactory.cpp:115-140) is one step (with INHERIT_PRIORITY it reads the caller's priority and sets this one's in two critical
    sections; the caller's priority is set by nobody else meanwhile, see C69).
    Only calls and returns are reported (no instants of effect). The end of a task (PEnd) returns when setAll or send has returned. *)
From Coq Require Import List ZArith Bool Arith.
Import ListNotations.
From Verif Require Import Spec.OSError Spec.Linear Spec.EventFlagSpec Spec.MessageQueueSpec Spec.ThreadSpec OS.Sched OS.MessageQueueModel OS.EventFlagModel OS.MutexModel
  OS.QueueStackModel Spec.ThreadPoolSpec OS.ThreadPoolModel OS.PoolStackModel OS.ThreadModel.
Local Open Scope nat_scope.

Definition tcall_dec (a b : tcall) : {a = b} + {a <> b}.
Proof. decide equality; apply Z.eq_dec. Defined.
Definition ecall_dec (a b : ecall) : {a = b} + {a <> b}.
Proof. repeat decide equality. Defined.
Definition qcall_dec (a b : qcall nat) : {a = b} + {a <> b}.
Proof. repeat decide equality. Defined.

Record wst := mkW { w_pool : pst; w_queue : std_st nat; w_thread : nat -> ThreadModel.tst; w_flag : nat -> est }.
Inductive wlab :=
| WPool (l : plab)                       (* a step of the pool's own code *)
| WQueue (l : std_lab nat)               (* a step inside m_freeRunnerQueue *)
| WThread (r : nat) (l : ThreadModel.tlab)   (* a step of Thread object r: of its native thread, or of a caller inside it *)
| WFlag (r : nat) (l : elab).            (* a step inside the event flag of runner r *)

Section Model.
  Variable N : nat.                 (* maxThreads *)
  Variable dflt : Z.                (* m_defaultPriority *)
  Variable ext_prio : nat -> Z.     (* the priority of the callers that are not pool threads *)
  Variable M : nat.                 (* the deepest nesting of std::recursive_timed_mutex *)
  Variable w : Z.                   (* bits of unsigned int *)
  Variable dbg : bool.

  (** the call of a Thread object that [t] is to make: ThreadPool.cpp:194, 249 *)
  Definition wants_thread (P : pst) (t : nat) : option (nat * tcall) :=
    match p_thr P t with
    | PHold SJoin r _ ms _ _ => Some (r, TWait ms)
    | PHold SGo r _ _ _ _ => Some (r, TStart)
    | _ => None
    end.
  (** of an event flag: 336 (from 337, 321-332, 314), 292 (from 315 and 281), 287 *)
  Definition wants_flag (P : pst) (t : nat) : option (nat * ecall) :=
    match p_thr P t with
    | PAt (PWait g ms) => match p_guard P t g with Some r => Some (r, EWaitAny (Within ms)) | None => None end
    | PAt (PRelease g) => match p_guard P t g with Some r => Some (r, EWaitAny (Within (-1))) | None => None end
    | PRel false r _ => Some (r, EResetAll)
    | PIdle => if t <? N then match p_run P t with WAfter ANotify _ => Some (t, ESetAll) | WAfter AReset _ => Some (t, EResetAll) | _ => None end else None
    | _ => None
    end.
  (** the call has returned: 194-197; 249, 201-204 *)
  Definition resume_thread (P : pst) (t : nat) (res : tres) : pst :=
    match p_thr P t with
    | PHold SJoin r x ms g p => match res with RErr OK => p_go P t (PHold STask r x ms g p) | RErr e => p_go P t (PRet (PErr e)) | _ => P end
    | PHold SGo r x ms g p =>
        mkP (p_q P) (p_task P) (p_needs P) (p_prio P) (p_ev P) (p_run P)
            (match g with Some i => set_guard (p_guard P) t i (Some r) | None => p_guard P end) (fupd (p_thr P) t (PRet (PErr OK)))
    | _ => P
    end.
  (** 336; 314-315 (the result of wait() is ignored); 292-293; 287 and 292 of a pool thread *)
  Definition resume_flag (P : pst) (t : nat) (res : eres) : pst * pout :=
    match p_thr P t with
    | PAt (PWait g ms) => (match res with ERes e _ => p_go P t (PRet (PErr e)) | EPat _ => P end, [])
    | PAt (PRelease g) => (match p_guard P t g with Some r => p_go P t (PRel false r g) | None => P end, [])
    | PRel false r g => (p_go P t (PRel true r g), [])
    | PIdle => match p_run P t with
               | WAfter ANotify _ => (p_wto P t WEnd, [Ret t PVoid])
               | WAfter AReset th => (p_wto P t (WAfter ASend th), [])
               | _ => (P, [])
               end
    | _ => (P, [])
    end.
  (** what the pool does when an object reports an event; None: it is not what the thread is about to do *)
  Definition hear_thread (r : nat) (P : pst) (e : event tcall tres) : option (pst * pout) :=
    match e with
    | Call (S t) c => match wants_thread P t with
                      | Some (r', c') => if (r =? r') && (if tcall_dec c c' then true else false) then Some (P, []) else None
                      | None => None
                      end
    | Call 0 TBegin => Some (p_wto P r WRead, [])                                          (* threadMain calls TaskRunner::run *)
    | Call 0 TEnd => match p_run P r with WEnd => Some (p_wto P r WOff, []) | _ => None end    (* ... and it has returned *)
    | Call 0 _ => None
    | Ret (S t) res => Some (resume_thread P t res, [])
    | Ret 0 _ | Eff _ _ _ => Some (P, [])
    end.
  Definition hear_flag (r : nat) (P : pst) (e : event ecall eres) : option (pst * pout) :=
    match e with
    | Call t c => match wants_flag P t with
                  | Some (r', c') => if (r =? r') && (if ecall_dec c c' then true else false) then Some (P, []) else None
                  | None => None
                  end
    | Ret t res => Some (resume_flag P t res)
    | Eff _ _ _ => Some (P, [])
    end.
  Definition hear_queue (P : pst) (e : event (qcall nat) (qres nat)) : option (pst * pout) :=
    match e with
    | Call t c => match wants N P t with Some c' => if qcall_dec c c' then Some (P, []) else None | None => None end
    | Ret t res => Some (resume P t res, match p_thr P t with PIdle => [Ret t PVoid] | _ => [] end)
    | Eff _ _ _ => Some (P, [])
    end.
  Fixpoint hears {E : Type} (h : pst -> E -> option (pst * pout)) (P : pst) (es : list E) : option (pst * pout) :=
    match es with
    | [] => Some (P, [])
    | e :: es' => match h P e with
                  | Some (P1, o1) => match hears h P1 es' with Some (P2, o2) => Some (P2, o1 ++ o2) | None => None end
                  | None => None
                  end
    end.

  (** the steps of the pool's code that use no object *)
  Definition local (P : pst) (l : plab) : bool :=
    match l with
    | XCall _ _ | XTaskEnd _ _ => true
    | XStep t => match p_thr P t with
                 | PAt (PStart x _ _ _) => x =? 0
                 | PAt (PWait g _) | PAt (PRelease g) => match p_guard P t g with None => true | Some _ => false end
                 | PAt (PIsValid _) | PRet _ => true
                 | PHold STask _ _ _ _ _ | PHold SNeeds _ _ _ _ _ | PHold SPrio _ _ _ _ _ => true
                 | _ => false
                 end
    | XTimeout _ _ => false
    | XRun r => match p_run P r with WRead | WAfter APrio _ | WAfter ANeeds _ => true | _ => false end
    end.

  Definition w_step (s : wst) (l : wlab) : option (wst * pout) :=
    match l with
    | WPool l => if local (w_pool s) l then
        match p_step N dflt ext_prio (w_pool s) l with Some (P, es) => Some (mkW P (w_queue s) (w_thread s) (w_flag s), history es) | None => None end
        else None
    | WQueue l =>
        match std_step nat (Z.of_nat N) M w dbg (w_queue s) l with
        | Some (c, es) => match hears hear_queue (w_pool s) es with Some (P, o) => Some (mkW P c (w_thread s) (w_flag s), o) | None => None end
        | None => None
        end
    | WThread r l => if r <? N then
        match t_step (w_thread s r) l with
        | Some (T, es) => match hears (hear_thread r) (w_pool s) es with Some (P, o) => Some (mkW P (w_queue s) (fupd (w_thread s) r T) (w_flag s), o) | None => None end
        | None => None
        end else None
    | WFlag r l =>
        match e_step w dbg false (w_flag s r) l with
        | Some (e, es) => match hears (hear_flag r) (w_pool s) es with Some (P, o) => Some (mkW P (w_queue s) (w_thread s) (fupd (w_flag s) r e), o) | None => None end
        | None => None
        end
    end.

  (** constructMembers (76-102): the creating thread has sent every runner to the new queue; [c0] is any state this can lead to *)
  Definition w_filled (c0 : std_st nat) : Prop :=
    exists c ls es, exec (std_step nat (Z.of_nat N) M w dbg) (std_init nat) ls = Some (c0, es) /\ (forall l, In l ls -> std_calm nat l) /\
      es = concat (map (fun r => [Call c (QSend r (-1)%Z); Ret c (RSend OK)]) (seq 0 N)) /\ forall t, c_idle c0 t.
  (** the threads are created (not started: 91), the event flags are reset: EventFlag::create(false), 83 *)
  Definition w_init (c0 : std_st nat) : wst := mkW (t_pool_init dflt) c0 (fun _ => ThreadModel.t_init) (fun _ => e_init).

  Definition w_idle (s : wst) (t : nat) : Prop := p_thr (w_pool s) t = PIdle.
  (** no lock() throws *)
  Definition w_calm (l : wlab) : Prop := match l with WQueue l => std_calm nat l | _ => True end.
End Model.

(** the steps other than new calls of the pool, ends of tasks, time-outs, spurious wake-ups and exceptions *)
Definition w_moves (l : wlab) : Prop :=
  match l with
  | WPool (XStep _) | WPool (XRun _) => True
  | WQueue (CCall _ _) => True
  | WQueue l => std_moves nat l
  | WThread _ (TCall _ _) | WThread _ (TStep _) | WThread _ NStep => True
  | WFlag _ (LCall _ _) | WFlag _ (LStep _) => True
  | _ => False
  end.
(** the steps of the calls in progress and of the native threads: all except new calls of the pool, the ends of tasks (which are the users' code)
    and spurious wake-ups of condition variables *)
Definition w_own (l : wlab) : Prop :=
  match l with
  | WPool l => p_own_step l
  | WQueue (CEvt (LSpurious _)) | WThread _ (TSpurious _) | WThread _ NSpurious | WFlag _ (LSpurious _) => False
  | _ => True
  end.
