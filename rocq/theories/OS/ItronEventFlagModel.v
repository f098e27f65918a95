(** Model of platform/ItronOSWrapper/ItronEventFlagFactory.cpp:15-171 (class ItronEventFlag) for any number of tasks.
    Kernel primitive: the uITRON event flag created with TA_WMUL (many waiters) and, for auto-reset, TA_CLR.  Each kernel
    call is one step.  set_flg ORs the bits in and then goes through the wait queue in order, releasing every task whose
    condition holds (its result is the pattern before clearing; with TA_CLR the release clears all bits); clr_flg ANDs;
    twai_flg takes the flag if the condition holds, else fails with E_TMOUT if the time-out is TMO_POL (0), else queues
    the task, which leaves the queue by a release or, unless the time-out is TMO_FEVR (-1), by a time-out; a zero wait
    pattern gives E_PAR; ref_flg reads.  FLGPTN has [wf] bits.
    Simplifications: all callers are tasks (no E_CTX), time-outs are at least -1 (else the kernel gives E_PAR); time is
    not modelled, a time-out may strike a waiting task at any moment; the queue is in priority order (TA_TPRI): the place
    where a task is queued is a choice of the label, so every assignment of priorities is covered. *)
From Coq Require Import List ZArith Bool.
Import ListNotations.
From Verif Require Import Spec.OSError Spec.Linear Spec.BitSpec Spec.EventFlagSpec Container.BitPatternModel OS.Sched OS.EventFlagModel.
Open Scope Z_scope.

Section IEF.
  Variable w : Z.              (* bits of unsigned int, i.e. of EventFlag::Pattern *)
  Variable wf : Z.             (* bits of FLGPTN *)
  Variable dbg : bool.         (* DEBUG_ASSERT enabled *)
  Variable autoReset : bool.   (* 24: TA_CLR *)

  Definition flgptn (x : Z) : Z := x mod 2 ^ wf.             (* static_cast<FLGPTN> *)

  (** 85-92: the checks of timedWait before the kernel call *)
  Definition if_timedWait (P : Z) (m : mode) (rel : bool) (tmout : Z) : entry :=
    match m with
    | ModeInvalid => Reject InvalidParameter                                              (* 87-89 *)
    | _ => match b_step w dbg P BNone with
           | BOk (_, OBoolB true) => Reject InvalidParameter                              (* 90-92 *)
           | BOk (_, OBoolB false) => Go (OWait P m rel tmout)
           | _ => Broken
           end
    end.
  (** 42-83, 114-125, 137-148: the calls that forward to timedWait, set and reset *)
  Definition if_entry (c : ecall) : entry :=
    match c with
    | EWaitAny k =>                                                                       (* 42-45, 57-60, 72-75 *)
        with_pat (b_step w dbg b_init BSetAll) (fun P => if_timedWait P ModeOR false (ms k))
    | EWaitOne pos k =>                                                                   (* 47-50, 62-65, 77-83 *)
        if pat_size w dbg <=? pos then Reject InvalidParameter
        else with_pat (b_step w dbg b_init (BSet pos)) (fun P => if_timedWait P ModeOR false (ms k))
    | EWait P m rel k => if_timedWait P m rel (ms k)                                      (* 52-55, 67-70, 85 *)
    | ESetAll => with_pat (b_step w dbg b_init BSetAll) (fun P => Go (OSet P))            (* 114-117 *)
    | ESetOne pos =>                                                                      (* 119-125 *)
        if pat_size w dbg <=? pos then Reject InvalidParameter
        else with_pat (b_step w dbg b_init (BSet pos)) (fun P => Go (OSet P))
    | ESet P => Go (OSet P)
    | EResetAll => with_pat (b_step w dbg b_init BSetAll) (fun P => Go (OReset P))        (* 137-140 *)
    | EResetOne pos =>                                                                    (* 142-148 *)
        if pat_size w dbg <=? pos then Reject InvalidParameter
        else with_pat (b_step w dbg b_init (BSet pos)) (fun P => Go (OReset P))
    | EReset P => Go (OReset P)
    | EGet => Go OGet
    end.

  Inductive ifpc :=
  | FIdle
  | FEntry (c : ecall)                  (* called, arguments not yet checked *)
  | FKern (c : ecall) (o : eop)         (* about to make the kernel call *)
  | FQueued (c : ecall) (o : eop)       (* in the wait queue of the flag *)
  | FRet (r : eres).                    (* the kernel call has returned; about to return r *)
  Record ifst := mkF { f_ptn : Z; f_queue : list nat; f_thr : nat -> ifpc }.
  Definition f_init : ifst := mkF 0 [] (fun _ => FIdle).                                  (* 20-31 *)
  (** [FStep t k]: task t moves; if it is queued, at place k *)
  Inductive iflab := FCall (t : nat) (c : ecall) | FStep (t : nat) (k : nat) | FTimeout (t : nat).

  (** the kernel's test of a wait condition: wfmode TWF_ORW or TWF_ANDW (96) *)
  Definition k_cond (waiptn : Z) (m : mode) (ptn : Z) : bool :=
    match m with
    | ModeOR => negb (Z.land ptn waiptn =? 0)
    | _ => Z.land ptn waiptn =? waiptn
    end.
  (** 98-102: what timedWait returns when the kernel released it with pattern [ptn] *)
  Definition f_ok (rel : bool) (ptn : Z) : eres := ERes OK (if rel then Some (castT w ptn) else None).
  Definition k_clear (ptn : Z) : Z := if autoReset then 0 else ptn.                       (* TA_CLR *)

  (** set_flg's pass over the wait queue *)
  Fixpoint k_release (ptn : Z) (thr : nat -> ifpc) (q : list nat) : Z * (nat -> ifpc) * list nat * list (event ecall eres) :=
    match q with
    | [] => (ptn, thr, [], [])
    | t :: q' =>
        match thr t with
        | FQueued c (OWait P m rel tmout) =>
            if k_cond (flgptn P) m ptn then
              let '(ptn', thr', q2, es) := k_release (k_clear ptn) (fupd thr t (FRet (f_ok rel ptn))) q' in
              (ptn', thr', q2, Eff t c (f_ok rel ptn) :: es)
            else let '(ptn', thr', q2, es) := k_release ptn thr q' in (ptn', thr', t :: q2, es)
        | _ => let '(ptn', thr', q2, es) := k_release ptn thr q' in (ptn', thr', t :: q2, es)
        end
    end.
  Definition k_enqueue (t k : nat) (q : list nat) : list nat := firstn k q ++ t :: skipn k q.
  Definition k_dequeue (t : nat) (q : list nat) : list nat := filter (fun u => negb (Nat.eqb u t)) q.

  Definition f_go (s : ifst) (t : nat) (q : ifpc) : ifst := mkF (f_ptn s) (f_queue s) (fupd (f_thr s) t q).
  Definition f_done (s : ifst) (t : nat) (c : ecall) (r : eres) : option (ifst * list (event ecall eres)) :=
    Some (f_go s t (FRet r), [Eff t c r]).

  Definition f_step (s : ifst) (l : iflab) : option (ifst * list (event ecall eres)) :=
    match l with
    | FCall t c => match f_thr s t with FIdle => Some (f_go s t (FEntry c), [Call t c]) | _ => None end
    | FStep t k =>
        match f_thr s t with
        | FIdle | FQueued _ _ => None
        | FEntry c =>
            match if_entry c with
            | Go o => Some (f_go s t (FKern c o), [])
            | Reject e => f_done s t c (ERes e None)
            | Broken => None
            end
        | FKern c (OWait P m rel tmout) =>                                                (* 94-111: twai_flg *)
            if flgptn P =? 0 then f_done s t c (ERes InvalidParameter None)               (* E_PAR: 107-108 *)
            else if k_cond (flgptn P) m (f_ptn s) then
              Some (mkF (k_clear (f_ptn s)) (f_queue s) (fupd (f_thr s) t (FRet (f_ok rel (f_ptn s)))),
                    [Eff t c (f_ok rel (f_ptn s))])
            else if tmout =? 0 then f_done s t c (ERes TimedOut None)                     (* 103-104 *)
            else Some (mkF (f_ptn s) (k_enqueue t k (f_queue s)) (fupd (f_thr s) t (FQueued c (OWait P m rel tmout))), [])
        | FKern c (OSet P) =>                                                             (* 127-135: set_flg *)
            let '(ptn', thr', q', es) := k_release (Z.lor (f_ptn s) (flgptn P)) (f_thr s) (f_queue s) in
            Some (mkF ptn' q' (fupd thr' t (FRet (ERes OK None))), Eff t c (ERes OK None) :: es)
        | FKern c (OReset P) =>                                                           (* 150-158: clr_flg(flip) *)
            match b_step w dbg P BFlipAll with
            | BOk (P', _) => Some (mkF (Z.land (f_ptn s) (flgptn P')) (f_queue s) (fupd (f_thr s) t (FRet (ERes OK None))), [Eff t c (ERes OK None)])
            | _ => None
            end
        | FKern c OGet => f_done s t c (EPat (castT w (f_ptn s)))                         (* 160-169: ref_flg *)
        | FRet r => Some (f_go s t FIdle, [Ret t r])
        end
    | FTimeout t =>                                                                       (* 103-104 *)
        match f_thr s t with
        | FQueued c (OWait P m rel tmout) =>
            if tmout =? -1 then None
            else Some (mkF (f_ptn s) (k_dequeue t (f_queue s)) (fupd (f_thr s) t (FRet (ERes TimedOut None))),
                       [Eff t c (ERes TimedOut None)])
        | _ => None
        end
    end.

  Definition f_idle (s : ifst) (t : nat) : Prop := f_thr s t = FIdle.
  Definition f_running (s : ifst) (t : nat) : option ecall :=
    match f_thr s t with FEntry c | FKern c _ | FQueued c _ => Some c | _ => None end.
  (** arguments are values of the C++ types and time-outs are ones the kernel accepts *)
  Definition tmout_ok (c : ecall) : Prop :=
    match c with
    | EWaitAny (Within n) | EWaitOne _ (Within n) | EWait _ _ _ (Within n) => -1 <= n
    | _ => True
    end.
  Definition f_label_ok (l : iflab) : Prop := match l with FCall _ c => ecall_ok w c /\ tmout_ok c | _ => True end.
  Definition f_own_step (l : iflab) : Prop := match l with FCall _ _ => False | _ => True end.
End IEF.
