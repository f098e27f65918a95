(** Model of platform/StdCppOSWrapper/StdCppEventFlagFactory.cpp:11-157 (class StdCppEventFlag), for any number of
    threads.  One step per acquisition and release of m_mutex, per evaluation of the wait predicate, per sleep and
    wake-up on m_cond, and per update of m_pattern.
    Platform primitives: std::mutex is a lock owned by at most one thread; condition_variable::wait(lock, pred) is
    "while (!pred()) wait(lock)", wait_for(lock, d, pred) is "while (!pred()) if (wait_until(..) == timeout) return
    pred(); return true" ([thread.condition.condvar]); wait releases the lock and goes to sleep in one step; a sleeping
    thread wakes by notify_all, by time-out (if it has one) or spuriously, and then needs the lock again.
    Simplification: time itself is not modelled, a time-out may strike a sleeping timed wait at any moment.
    (A POLLING wait sleeps with a time-out that strikes at once.) *)
From Coq Require Import List ZArith Bool.
Import ListNotations.
From Verif Require Import Spec.OSError Spec.Linear Spec.BitSpec Spec.EventFlagSpec Container.BitPatternModel OS.Sched.
Open Scope Z_scope.

Section EF.
  Variable w : Z.              (* bits of unsigned int *)
  Variable dbg : bool.         (* DEBUG_ASSERT enabled *)
  Variable autoReset : bool.

  Definition POLLING : Z := 0.         (* mechanism/OSWrapper/Timeout.cpp:5 *)
  Definition FOREVER : Z := -1.        (* mechanism/OSWrapper/Timeout.cpp:6 *)
  Definition ms (k : patience) : Z := match k with Forever => FOREVER | Polling => POLLING | Within n => n end.

  (** what is left to do once the arguments are checked *)
  Inductive eop := OWait (P : Z) (m : mode) (rel : bool) (tmout : Z) | OSet (P : Z) | OReset (P : Z) | OGet.
  Inductive entry := Go (o : eop) | Reject (e : err) | Broken.

  (** EventFlag::Pattern().size() *)
  Definition pat_size : Z := match b_step w dbg b_init BSize with BOk (_, OValB n) => n | _ => 0 end.
  (** EventFlag::Pattern().set() and .set(pos) *)
  Definition with_pat (x : bres (Z * bout)) (k : Z -> entry) : entry := match x with BOk (v, _) => k v | _ => Broken end.

  (** 72-79: the checks of timedWait *)
  Definition timedWait_entry (P : Z) (m : mode) (rel : bool) (tmout : Z) : entry :=
    match m with
    | ModeInvalid => Reject InvalidParameter                                              (* 74-76 *)
    | _ => match b_step w dbg P BNone with
           | BOk (_, OBoolB true) => Reject InvalidParameter                              (* 77-79 *)
           | BOk (_, OBoolB false) => Go (OWait P m rel tmout)
           | _ => Broken
           end
    end.
  (** 29-70, 112-123, 133-144: the calls that forward to timedWait, set and reset *)
  Definition ef_entry (c : ecall) : entry :=
    match c with
    | EWaitAny k =>                                                                       (* 29-32, 44-47, 59-62 *)
        with_pat (b_step w dbg b_init BSetAll) (fun P => timedWait_entry P ModeOR false (ms k))
    | EWaitOne pos k =>                                                                   (* 34-37, 49-52, 64-70 *)
        if pat_size <=? pos then Reject InvalidParameter
        else with_pat (b_step w dbg b_init (BSet pos)) (fun P => timedWait_entry P ModeOR false (ms k))
    | EWait P m rel k => timedWait_entry P m rel (ms k)                                   (* 39-42, 54-57, 72 *)
    | ESetAll => with_pat (b_step w dbg b_init BSetAll) (fun P => Go (OSet P))            (* 112-115 *)
    | ESetOne pos =>                                                                      (* 117-123 *)
        if pat_size <=? pos then Reject InvalidParameter
        else with_pat (b_step w dbg b_init (BSet pos)) (fun P => Go (OSet P))
    | ESet P => Go (OSet P)
    | EResetAll => with_pat (b_step w dbg b_init BSetAll) (fun P => Go (OReset P))        (* 133-136 *)
    | EResetOne pos =>                                                                    (* 138-144 *)
        if pat_size <=? pos then Reject InvalidParameter
        else with_pat (b_step w dbg b_init (BSet pos)) (fun P => Go (OReset P))
    | EReset P => Go (OReset P)
    | EGet => Go OGet
    end.

  (** the lambdas of 85, 87, 92, 97 *)
  Definition wait_pred (P : Z) (m : mode) (p : Z) : bool :=
    match m with
    | ModeOR => negb (castT w (Z.land P p) =? 0)                 (* Pattern(bitPattern & m_pattern).any() *)
    | _ => Z.land P p =? P                                       (* (bitPattern & m_pattern) == bitPattern *)
    end.

  (** where a thread is in its call *)
  Inductive epc :=
  | EIdle
  | EEntry (c : ecall)                        (* called, arguments not yet checked *)
  | EAcq (c : ecall) (o : eop)                (* blocked on, or about to lock, m_mutex: 81, 127, 148, 155 *)
  | EBody (c : ecall) (o : eop)               (* holds m_mutex *)
  | EAsleep (c : ecall) (o : eop)             (* in m_cond, m_mutex released *)
  | EWoken (c : ecall) (o : eop) (tmo : bool) (* left m_cond, waits for m_mutex; tmo: by time-out *)
  | EEval (c : ecall) (o : eop) (tmo : bool)  (* holds m_mutex again, about to re-evaluate the predicate *)
  | ENotify (r : eres)                        (* holds m_mutex, about to notify_all: 129 *)
  | EUnlock (r : eres)                        (* holds m_mutex, about to leave the scope of the lock *)
  | ERet (r : eres).                          (* about to return r *)

  Record est := mkE { e_pat : Z; e_lock : option nat; e_thr : nat -> epc }.
  Definition e_init : est := mkE 0 None (fun _ => EIdle).                                 (* 20-23 *)

  Inductive elab := LCall (t : nat) (c : ecall) | LStep (t : nat) | LTimeout (t : nat) | LSpurious (t : nat).

  Definition is_free (l : option nat) : bool := match l with None => true | Some _ => false end.
  Definition wake (q : epc) : epc := match q with EAsleep c o => EWoken c o false | _ => q end.

  (** 103-109: the predicate holds *)
  Definition wait_success (s : est) (t : nat) (c : ecall) (rel : bool) : est * list (event ecall eres) :=
    let r := ERes OK (if rel then Some (e_pat s) else None) in                            (* 103-105 *)
    let p' := if autoReset then 0 else e_pat s in                                         (* 106-108 *)
    (mkE p' (e_lock s) (fupd (e_thr s) t (EUnlock r)), [Eff t c r]).

  Definition e_step (s : est) (l : elab) : option (est * list (event ecall eres)) :=
    match l with
    | LCall t c =>
        match e_thr s t with
        | EIdle => Some (mkE (e_pat s) (e_lock s) (fupd (e_thr s) t (EEntry c)), [Call t c])
        | _ => None
        end
    | LStep t =>
        match e_thr s t with
        | EIdle => None
        | EEntry c =>
            match ef_entry c with
            | Go o => Some (mkE (e_pat s) (e_lock s) (fupd (e_thr s) t (EAcq c o)), [])
            | Reject e => Some (mkE (e_pat s) (e_lock s) (fupd (e_thr s) t (ERet (ERes e None))), [Eff t c (ERes e None)])
            | Broken => None
            end
        | EAcq c o =>
            if is_free (e_lock s) then Some (mkE (e_pat s) (Some t) (fupd (e_thr s) t (EBody c o)), []) else None
        | EBody c (OWait P m rel tmout) =>                                                (* 83-101: first test *)
            if wait_pred P m (e_pat s) then Some (wait_success s t c rel)
            else Some (mkE (e_pat s) None (fupd (e_thr s) t (EAsleep c (OWait P m rel tmout))), [])
        | EBody c (OSet P) =>                                                             (* 128 *)
            Some (mkE (castT w (Z.lor (e_pat s) P)) (e_lock s) (fupd (e_thr s) t (ENotify (ERes OK None))), [Eff t c (ERes OK None)])
        | EBody c (OReset P) =>                                                           (* 149 *)
            Some (mkE (castT w (Z.land (e_pat s) (bnot w P))) (e_lock s) (fupd (e_thr s) t (EUnlock (ERes OK None))), [Eff t c (ERes OK None)])
        | EBody c OGet =>                                                                 (* 156 *)
            Some (mkE (e_pat s) (e_lock s) (fupd (e_thr s) t (EUnlock (EPat (e_pat s)))), [Eff t c (EPat (e_pat s))])
        | EAsleep _ _ => None
        | EWoken c o tmo =>
            if is_free (e_lock s) then Some (mkE (e_pat s) (Some t) (fupd (e_thr s) t (EEval c o tmo)), []) else None
        | EEval c (OWait P m rel tmout) tmo =>
            if wait_pred P m (e_pat s) then Some (wait_success s t c rel)
            else if tmo then Some (mkE (e_pat s) (e_lock s) (fupd (e_thr s) t (EUnlock (ERes TimedOut None))), [Eff t c (ERes TimedOut None)])
            else Some (mkE (e_pat s) None (fupd (e_thr s) t (EAsleep c (OWait P m rel tmout))), [])
        | EEval _ _ _ => None
        | ENotify r => Some (mkE (e_pat s) (e_lock s) (fupd (fun u => wake (e_thr s u)) t (EUnlock r)), [])
        | EUnlock r => Some (mkE (e_pat s) None (fupd (e_thr s) t (ERet r)), [])
        | ERet r => Some (mkE (e_pat s) (e_lock s) (fupd (e_thr s) t EIdle), [Ret t r])
        end
    | LTimeout t =>                                                                       (* 90-100: wait_for only *)
        match e_thr s t with
        | EAsleep c (OWait P m rel tmout) =>
            if tmout =? FOREVER then None
            else Some (mkE (e_pat s) (e_lock s) (fupd (e_thr s) t (EWoken c (OWait P m rel tmout) true)), [])
        | _ => None
        end
    | LSpurious t =>
        match e_thr s t with
        | EAsleep c o => Some (mkE (e_pat s) (e_lock s) (fupd (e_thr s) t (EWoken c o false)), [])
        | _ => None
        end
    end.

  (** the call thread [t] is executing *)
  Definition e_running (s : est) (t : nat) : option ecall :=
    match e_thr s t with
    | EEntry c | EAcq c _ | EBody c _ | EAsleep c _ | EWoken c _ _ | EEval c _ _ => Some c
    | _ => None
    end.
  Definition e_idle (s : est) (t : nat) : Prop := e_thr s t = EIdle.
  (** labels whose arguments are values of the C++ types *)
  Definition label_ok (l : elab) : Prop := match l with LCall _ c => ecall_ok w c | _ => True end.
  (** steps of calls already in progress, time-outs included; excluded: new calls and spurious wake-ups *)
  Definition own_step (l : elab) : Prop := match l with LStep _ | LTimeout _ => True | _ => False end.
End EF.
