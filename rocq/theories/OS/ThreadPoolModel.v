(** Model of OSWrapper::ThreadPool (mechanism/OSWrapper/ThreadPool.cpp:172-342) for any number of threads, callers, tasks and guards.
    The components are used through their specifications, as atomic objects: MessageQueue (Spec/MessageQueueSpec; a receive with a
    limited time-out may give up when the queue is empty or another receive is in progress, c36_* of Props/MessageQueueProps), EventFlag
    (Spec/EventFlagSpec; only setAll, resetAll and timedWaitAny are used, so one boolean is enough) and Thread (Spec/ThreadSpec).
    The fields m_task and m_needsWaiting of a TaskRunner are plain shared variables: each access is a step of its own.
    Runnable::run of a task is not modelled beyond its begin, its end and the calls it makes to the pool.  The error codes of the platform
    that only report misuse (CalledByNonThread) are not modelled.  A WaitGuard is used by one agent only; start is not called with a
    valid WaitGuard (ThreadPool.h: "WaitGuard object that state is invalid").
    The end of a task (PEnd) is called when its run() returns or throws, and takes effect when the thread is handed to the waiter or
    back to the queue; the task named in these events is m_task, which nobody writes meanwhile (proved). *)
From Coq Require Import List ZArith Bool Arith.
Import ListNotations.
From Verif Require Import Spec.OSError Spec.Linear Spec.ThreadPoolSpec OS.Sched.

(** afterInvoke: setPriority (277), test of m_needsWaiting (278), setAll (287), resetAll (292), send (293, 209) *)
Inductive after := APrio | ANeeds | ANotify | AReset | ASend.
(** a pool thread *)
Inductive wpc :=
| WOff            (* the Thread is Finished *)
| WStarted        (* Thread::start has been called *)
| WRead           (* TaskRunner::run entered, about to read m_task: 257, 270 *)
| WIn             (* in m_task->run(): 271 *)
| WAfter (k : after) (threw : bool)   (* in afterInvoke; an exception may be in flight: 260, 264 *)
| WEnd.           (* leaving run *)
(** a call of timedStart that has received a runner *)
Inductive stage := SJoin (* 194 *) | STask (* 246 *) | SNeeds (* 247 *) | SPrio (* 248 *) | SGo (* 249, 201-203 *).
Inductive ppc :=
| PIdle
| PAt (c : pcall)                 (* called; in timedReceive (188) for a start, in the event flag's timedWaitAny (336) for a wait or release *)
| PHold (k : stage) (r : nat) (x : task) (ms : Z) (g : option nat) (p : option Z)
| PRel (sent : bool) (r : nat) (g : nat)   (* WaitGuard::release after wait(): resetAll (292), then send (293) *)
| PRet (r : pres).

Record pst := mkP { p_q : list nat; p_task : nat -> task; p_needs : nat -> bool; p_prio : nat -> Z; p_ev : nat -> bool;
                    p_run : nat -> wpc; p_guard : nat -> nat -> option nat; p_thr : nat -> ppc }.

Inductive plab :=
| XCall (t : nat) (c : pcall)
| XStep (t : nat)                             (* a step of the call of agent t *)
| XTimeout (t : nat) (other : option nat)     (* the blocking call inside it gives up; other: another receive in progress *)
| XRun (r : nat)                              (* a step of pool thread r *)
| XTaskEnd (r : nat) (threw : bool).          (* its task returns or throws *)
Notation pout := (list (event pcall pres)).

Section Model.
  Variable N : nat.                 (* maxThreads *)
  Variable dflt : Z.                (* m_defaultPriority *)
  Variable ext_prio : nat -> Z.     (* the priority of the callers that are not pool threads *)

  (** after constructMembers (76-102): every runner is in the queue *)
  Definition p_init : pst :=
    mkP (seq 0 N) (fun _ => 0) (fun _ => false) (fun _ => dflt) (fun _ => false) (fun _ => WOff) (fun _ _ => None) (fun _ => PIdle).

  Definition p_go (s : pst) (t : nat) (q : ppc) : pst :=
    mkP (p_q s) (p_task s) (p_needs s) (p_prio s) (p_ev s) (p_run s) (p_guard s) (fupd (p_thr s) t q).
  Definition p_wto (s : pst) (r : nat) (w : wpc) : pst :=
    mkP (p_q s) (p_task s) (p_needs s) (p_prio s) (p_ev s) (fupd (p_run s) r w) (p_guard s) (p_thr s).
  Definition set_guard (f : nat -> nat -> option nat) (t g : nat) (x : option nat) : nat -> nat -> option nat :=
    fupd f t (fupd (f t) g x).
  Definition callable (s : pst) (t : nat) (c : pcall) : bool :=
    (if t <? N then match p_run s t with WIn => true | _ => false end else true) &&
    match c with
    | PStart _ _ (Some g) _ => match p_guard s t g with None => true | Some _ => false end
    | PBegin _ _ | PEnd _ _ => false
    | _ => true
    end.
  (** Thread::setPriority(INHERIT_PRIORITY): the priority of the calling thread *)
  Definition resolve (s : pst) (t : nat) (p : option Z) : Z :=
    match p with Some v => v | None => if t <? N then p_prio s t else ext_prio t end.

  Definition p_step (s : pst) (l : plab) : option (pst * pout) :=
    match l with
    | XCall t c =>
        match p_thr s t with
        | PIdle => if callable s t c then Some (p_go s t (PAt c), [Call t c]) else None
        | _ => None
        end
    | XStep t =>
        match p_thr s t with
        | PAt (PStart x ms g p) =>                                                        (* 182-191 *)
            if x =? 0 then Some (p_go s t (PRet (PErr InvalidParameter)), [Eff t (PStart x ms g p) (PErr InvalidParameter)])
            else match p_q s with
                 | [] => None
                 | r :: q => Some (mkP q (p_task s) (p_needs s) (p_prio s) (p_ev s) (p_run s) (p_guard s) (fupd (p_thr s) t (PHold SJoin r x ms g p)), [])
                 end
        | PHold SJoin r x ms g p => match p_run s r with WOff => Some (p_go s t (PHold STask r x ms g p), []) | _ => None end   (* 193-197 *)
        | PHold STask r x ms g p =>                                                       (* 246 *)
            Some (mkP (p_q s) (fupd (p_task s) r x) (p_needs s) (p_prio s) (p_ev s) (p_run s) (p_guard s) (fupd (p_thr s) t (PHold SNeeds r x ms g p)), [])
        | PHold SNeeds r x ms g p =>                                                      (* 247 *)
            Some (mkP (p_q s) (p_task s) (fupd (p_needs s) r (match g with Some _ => true | None => false end)) (p_prio s) (p_ev s)
                      (p_run s) (p_guard s) (fupd (p_thr s) t (PHold SPrio r x ms g p)), [])
        | PHold SPrio r x ms g p =>                                                       (* 248 *)
            Some (mkP (p_q s) (p_task s) (p_needs s) (fupd (p_prio s) r (resolve s t p)) (p_ev s) (p_run s) (p_guard s)
                      (fupd (p_thr s) t (PHold SGo r x ms g p)), [])
        | PHold SGo r x ms g p =>                                                         (* 249, 201-204 *)
            Some (mkP (p_q s) (p_task s) (p_needs s) (p_prio s) (p_ev s)
                      (fupd (p_run s) r (match p_run s r with WOff => WStarted | w => w end))
                      (match g with Some i => set_guard (p_guard s) t i (Some r) | None => p_guard s end)
                      (fupd (p_thr s) t (PRet (PErr OK))), [Eff t (PStart x ms g p) (PErr OK)])
        | PAt (PWait g ms) =>                                                             (* 321-337, 296-299 *)
            match p_guard s t g with
            | None => Some (p_go s t (PRet (PErr OK)), [Eff t (PWait g ms) (PErr OK)])
            | Some r => if p_ev s r then Some (p_go s t (PRet (PErr OK)), [Eff t (PWait g ms) (PErr OK)]) else None
            end
        | PAt (PRelease g) =>                                                             (* 312-315 *)
            match p_guard s t g with
            | None => Some (p_go s t (PRet PVoid), [Eff t (PRelease g) PVoid])
            | Some r => if p_ev s r then Some (p_go s t (PRel false r g), []) else None
            end
        | PRel false r g =>                                                               (* 292 *)
            Some (mkP (p_q s) (p_task s) (p_needs s) (p_prio s) (fupd (p_ev s) r false) (p_run s) (p_guard s) (fupd (p_thr s) t (PRel true r g)), [])
        | PRel true r g =>                                                                (* 293, 209, 317 *)
            if length (p_q s) <? N then
              Some (mkP (p_q s ++ [r]) (p_task s) (p_needs s) (p_prio s) (p_ev s) (p_run s) (set_guard (p_guard s) t g None)
                        (fupd (p_thr s) t (PRet PVoid)), [Eff t (PRelease g) PVoid])
            else None
        | PAt (PIsValid g) =>                                                             (* 339-342 *)
            let b := match p_guard s t g with Some _ => true | None => false end in
            Some (p_go s t (PRet (PBool b)), [Eff t (PIsValid g) (PBool b)])
        | PRet r => Some (p_go s t PIdle, [Ret t r])
        | _ => None
        end
    | XTimeout t other =>
        match p_thr s t with
        | PAt (PStart x ms g p) =>                                                        (* 188-191 *)
            if (ms =? -1)%Z || (x =? 0) then None
            else if match p_q s with [] => true | _ => false end ||
                    match other with
                    | Some u => negb (u =? t) && match p_thr s u with
                                                 | PAt (PStart y _ _ _) => negb (y =? 0)
                                                 | PHold SJoin _ _ _ _ _ | PRet (PErr TimedOut) => true    (* perhaps still inside timedReceive *)
                                                 | _ => false
                                                 end
                    | None => false
                    end
                 then Some (p_go s t (PRet (PErr TimedOut)), [Eff t (PStart x ms g p) (PErr TimedOut)]) else None
        | PHold SJoin r x ms g p =>                                                       (* 194-197 *)
            if (ms =? -1)%Z then None
            else match p_run s r with
                 | WOff => None
                 | _ => Some (p_go s t (PRet (PErr TimedOut)), [Eff t (PStart x ms g p) (PErr TimedOut)])
                 end
        | PAt (PWait g ms) =>                                                             (* 336 *)
            match p_guard s t g with
            | Some r => if (ms =? -1)%Z || p_ev s r then None
                        else Some (p_go s t (PRet (PErr TimedOut)), [Eff t (PWait g ms) (PErr TimedOut)])
            | None => None
            end
        | _ => None
        end
    | XRun r =>
        match p_run s r with
        | WStarted => Some (p_wto s r WRead, [])
        | WRead =>                                                                        (* 268-271 *)
            if p_task s r =? 0 then Some (p_wto s r (WAfter APrio false), [])
            else Some (p_wto s r WIn, [Call r (PBegin (p_task s r) (p_prio s r)); Eff r (PBegin (p_task s r) (p_prio s r)) PVoid; Ret r PVoid])
        | WAfter APrio th =>                                                              (* 277 *)
            Some (mkP (p_q s) (p_task s) (p_needs s) (fupd (p_prio s) r dflt) (p_ev s) (fupd (p_run s) r (WAfter ANeeds th)) (p_guard s) (p_thr s), [])
        | WAfter ANeeds th => Some (p_wto s r (WAfter (if p_needs s r then ANotify else AReset) th), [])        (* 278 *)
        | WAfter ANotify th =>                                                            (* 287 *)
            Some (mkP (p_q s) (p_task s) (p_needs s) (p_prio s) (fupd (p_ev s) r true) (fupd (p_run s) r WEnd) (p_guard s) (p_thr s),
                  [Eff r (PEnd (p_task s r) th) PVoid; Ret r PVoid])
        | WAfter AReset th =>                                                             (* 292 *)
            Some (mkP (p_q s) (p_task s) (p_needs s) (p_prio s) (fupd (p_ev s) r false) (fupd (p_run s) r (WAfter ASend th)) (p_guard s) (p_thr s), [])
        | WAfter ASend th =>                                                              (* 293, 209 *)
            if length (p_q s) <? N then
              Some (mkP (p_q s ++ [r]) (p_task s) (p_needs s) (p_prio s) (p_ev s) (fupd (p_run s) r WEnd) (p_guard s) (p_thr s),
                    [Eff r (PEnd (p_task s r) th) PVoid; Ret r PVoid])
            else None
        | WEnd => Some (p_wto s r WOff, [])                                               (* run has returned: the Thread is Finished *)
        | WOff | WIn => None
        end
    | XTaskEnd r threw =>                                                                 (* 271; 259-262 if it throws *)
        match p_run s r with
        | WIn => match p_thr s r with
                 | PIdle => Some (p_wto s r (WAfter APrio threw), [Call r (PEnd (p_task s r) threw)])
                 | _ => None
                 end
        | _ => None
        end
    end.

  Definition p_idle (s : pst) (t : nat) : Prop := p_thr s t = PIdle.
  (** the steps of the calls in progress and of the pool; the end of a task is up to the task *)
  Definition p_own_step (l : plab) : Prop := match l with XStep _ | XTimeout _ _ | XRun _ => True | _ => False end.
  (** nothing can move until a task ends or somebody calls *)
  Definition p_stuck (s : pst) : Prop := forall l, p_own_step l -> p_step s l = None.
End Model.
