(** Model of platform/ItronOSWrapper/ItronThreadFactory.cpp:13-245 (class ItronThread) for any number of client tasks.
    Agent 0 is the thread object's own task (ItronThreadMain, 78-86); agents 1, 2, ... are clients.  While its runnable runs the
    task may also call start, isFinished, setPriority and getPriority of its own object (it is then agent 0 as a caller).
    Kernel primitives (uITRON 4.0), one step each: the event flag m_evWait (bits EV_STARTED and EV_FINISHED, TA_WMUL, no TA_CLR:
    set_flg releases every task that waits for a bit that is set), the mutex m_mtxId (class Lock), the task states
    (dormant or not; sta_tsk makes a dormant task ready at its initial priority, returning from the task's entry makes it
    dormant), chg_pri (E_OBJ, no effect, on a dormant task).
    Simplifications: kernel calls on existing objects fail only as stated; base priorities of clients are constants; the
    kernel's scheduling is arbitrary (priorities do not constrain the schedule); Runnable::run is not modelled beyond its begin,
    its end and its calls on the own thread object; names and stack sizes are left out. *)
From Coq Require Import List ZArith Bool Arith.
Import ListNotations.
From Verif Require Import Spec.OSError Spec.Linear Spec.ThreadSpec Spec.ItronThreadSpec OS.Sched.
Open Scope Z_scope.

(** the task *)
Inductive kpc :=
| KDorm         (* dormant *)
| KAwait        (* 81: in wai_flg(EV_STARTED) *)
| KClr          (* 82: about to clr_flg(~EV_STARTED) *)
| KRun          (* 84: in threadMain *)
| KFin          (* 85: about to set_flg(EV_FINISHED) *)
| KExit         (* 86: about to return from threadEntry, i.e. to become dormant *)
| KDel.         (* deleted *)
(** a caller *)
Inductive ipc :=
| IIdle
| ILock (c : icall)           (* about to lock m_mtxId: 148, 217, 226 *)
| IFlg (c : icall)            (* isFinished: about to ref_flg (193) *)
| IDorm (c : icall)           (* isFinished: EV_FINISHED seen; about to ref_tst (197, isDormant) *)
| IClr                        (* start: about to clr_flg(~EV_FINISHED) (152) *)
| ISta                        (* start: about to sta_tsk (153) *)
| IRef                        (* start: about to ref_tsk (157) *)
| IChg                        (* start: about to chg_pri (159) *)
| ISetChg                     (* setPriority: about to chg_pri (220) *)
| IUnlock (r : option ires)   (* about to unlock; None: start goes on to 162, Some r: returns r *)
| ISetSt                      (* start: about to set_flg(EV_STARTED) (162) *)
| IWai (c : icall)            (* about to twai_flg(EV_FINISHED) (178): timedWait, or wait in the factory's destroy (320) *)
| IQue (c : icall)            (* waiting in twai_flg *)
| IPoll (c : icall)           (* 181: waitUntilDormant (60-68) *)
| IDel                        (* destroy: about to del_tsk, del_flg, del_mtx (132-139) *)
| IRet (r : ires).

Record its := mkI { n_fin : bool; n_st : bool; n_mtx : option nat; n_task : kpc; n_kpri : Z; n_prio : Z; n_thr : nat -> ipc }.

Section ItronThread.
  Variable prio0 : Z.                 (* m_initialPriority, after 93-94 *)
  Variables minp maxp : Z.            (* Thread::getMinPriority, getMaxPriority *)
  Variable ext_prio : nat -> Z.       (* base priorities of the clients *)

  Definition n_init : its := mkI true false None KDorm 0 prio0 (fun _ => IIdle).           (* 89-130 *)

  Inductive ilabel :=
  | NCall (t : nat) (c : icall)
  | NStep (t : nat)          (* caller t moves *)
  | NTimeout (t : nat)       (* twai_flg times out *)
  | NSpin (t : nat)          (* 60-68: one round of waitUntilDormant that finds the task not dormant *)
  | NTask.                   (* the task moves *)

  (** 37-45: getInheritPriority *)
  Definition n_inherit (s : its) (t : nat) (p : Z) : Z :=
    if (minp <=? p) && (p <=? maxp) then p else if Nat.eqb t 0 then n_kpri s else ext_prio t.

  Definition n_go (s : its) (t : nat) (q : ipc) : its :=
    mkI (n_fin s) (n_st s) (n_mtx s) (n_task s) (n_kpri s) (n_prio s) (fupd (n_thr s) t q).
  Definition n_dormant (s : its) : bool := match n_task s with KDorm => true | _ => false end.   (* 47-58 *)
  Notation iout := (list (event icall ires)).
  Notation void := (IR RVoid).

  (** where a call begins *)
  Definition n_entry (t : nat) (c : icall) : option ipc :=
    match c with
    | IT TStart | ISetPriority _ | IGetPriority => Some (ILock c)
    | IT TIsFinished => Some (IFlg c)
    | IT (TWait _) | IT TDestroy => if Nat.eqb t 0 then None else Some (IWai c)
    | IT TBegin | IT TEnd => None
    end.
  (** isFinished has given [b] (190-201) *)
  Definition n_is_finished (s : its) (t : nat) (c : icall) (b : bool) : option (its * iout) :=
    match c with
    | IT TStart =>                                                                         (* 149-152 *)
        if b then Some (n_go s t IClr, []) else Some (n_go s t (IUnlock (Some void)), [Eff t c void])
    | IT TIsFinished => Some (n_go s t (IRet (IR (RBool b))), [Eff t c (IR (RBool b))])
    | ISetPriority _ => Some (n_go s t (if b then IUnlock (Some void) else ISetChg), [])   (* 219-221 *)
    | _ => None
    end.

  Definition n_step (s : its) (l : ilabel) : option (its * iout) :=
    match l with
    | NCall t c =>
        match n_thr s t, n_entry t c with
        | IIdle, Some q =>
            if Nat.eqb t 0 then match n_task s with KRun => Some (n_go s t q, [Call t c]) | _ => None end
            else Some (n_go s t q, [Call t c])
        | _, _ => None
        end
    | NStep t =>
        match n_thr s t with
        | IIdle | IQue _ => None
        | ILock c =>
            match n_mtx s with
            | Some _ => None
            | None =>
                match c with
                | IT TStart => Some (mkI (n_fin s) (n_st s) (Some t) (n_task s) (n_kpri s) (n_prio s) (fupd (n_thr s) t (IFlg c)), [])
                | ISetPriority p =>                                                        (* 218 *)
                    Some (mkI (n_fin s) (n_st s) (Some t) (n_task s) (n_kpri s) (n_inherit s t p) (fupd (n_thr s) t (IFlg c)), [Eff t c void])
                | IGetPriority =>                                                          (* 227 *)
                    Some (mkI (n_fin s) (n_st s) (Some t) (n_task s) (n_kpri s) (n_prio s) (fupd (n_thr s) t (IUnlock (Some (IPrio (n_prio s))))),
                          [Eff t c (IPrio (n_prio s))])
                | _ => None
                end
            end
        | IFlg c =>                                                                        (* 192-197 *)
            match n_task s with
            | KDel => n_is_finished s t c false                                            (* E_NOEXS: 194-196 *)
            | _ => if n_fin s then Some (n_go s t (IDorm c), []) else n_is_finished s t c false
            end
        | IDorm c => n_is_finished s t c (n_dormant s)                                     (* 197-200 *)
        | IClr => Some (mkI false (n_st s) (n_mtx s) (n_task s) (n_kpri s) (n_prio s) (fupd (n_thr s) t ISta), [Eff t (IT TStart) void])
        | ISta =>                                                                          (* 153-156 *)
            match n_task s with
            | KDorm => Some (mkI (n_fin s) (n_st s) (n_mtx s) KAwait prio0 (n_prio s) (fupd (n_thr s) t IRef), [])
            | _ => Some (n_go s t (IUnlock (Some void)), [])                               (* E_OBJ *)
            end
        | IRef =>                                                                          (* 157-158, 27-35 *)
            let base := match n_task s with KDorm | KDel => 0 | _ => n_kpri s end in
            Some (n_go s t (if base =? n_prio s then IUnlock None else IChg), [])
        | IChg =>                                                                          (* 159 *)
            Some (mkI (n_fin s) (n_st s) (n_mtx s) (n_task s) (match n_task s with KDorm | KDel => n_kpri s | _ => n_prio s end) (n_prio s)
                    (fupd (n_thr s) t (IUnlock None)), [])
        | ISetChg =>                                                                       (* 220 *)
            Some (mkI (n_fin s) (n_st s) (n_mtx s) (n_task s) (match n_task s with KDorm | KDel => n_kpri s | _ => n_prio s end) (n_prio s)
                    (fupd (n_thr s) t (IUnlock (Some void))), [])
        | IUnlock r =>
            Some (mkI (n_fin s) (n_st s) None (n_task s) (n_kpri s) (n_prio s) (fupd (n_thr s) t (match r with None => ISetSt | Some r0 => IRet r0 end)), [])
        | ISetSt =>                                                                        (* 162 *)
            Some (mkI (n_fin s) true (n_mtx s) (n_task s) (n_kpri s) (n_prio s) (fupd (n_thr s) t (IRet void)), [])
        | IWai c =>                                                                        (* 178-187 *)
            match n_task s, c with
            | KDel, _ => Some (n_go s t (IRet (IR (RErr OtherError))), [Eff t c (IR (RErr OtherError))])
            | _, IT (TWait ms) =>
                if ms <? -1 then Some (n_go s t (IRet (IR (RErr OtherError))), [Eff t c (IR (RErr OtherError))])   (* E_PAR *)
                else if n_fin s then Some (n_go s t (IPoll c), [])
                else if ms =? 0 then Some (n_go s t (IRet (IR (RErr TimedOut))), [Eff t c (IR (RErr TimedOut))])
                else Some (n_go s t (IQue c), [])
            | _, _ => if n_fin s then Some (n_go s t (IPoll c), []) else Some (n_go s t (IQue c), [])
            end
        | IPoll c =>                                                                       (* 63-65 *)
            if n_dormant s then
              match c with
              | IT TDestroy => Some (n_go s t IDel, [])
              | _ => Some (n_go s t (IRet (IR (RErr OK))), [Eff t c (IR (RErr OK))])
              end
            else None
        | IDel =>                                                                          (* 132-139 *)
            Some (mkI (n_fin s) (n_st s) (n_mtx s) KDel (n_kpri s) (n_prio s) (fupd (n_thr s) t (IRet void)), [Eff t (IT TDestroy) void])
        | IRet r => Some (n_go s t IIdle, [Ret t r])
        end
    | NTimeout t =>                                                                        (* 183-184 *)
        match n_thr s t with
        | IQue (IT (TWait ms)) =>
            if ms =? -1 then None else Some (n_go s t (IRet (IR (RErr TimedOut))), [Eff t (IT (TWait ms)) (IR (RErr TimedOut))])
        | _ => None
        end
    | NSpin t => match n_thr s t with IPoll c => if n_dormant s then None else Some (s, []) | _ => None end   (* 66 *)
    | NTask =>
        match n_task s with
        | KDorm | KDel => None
        | KAwait => if n_st s then Some (mkI (n_fin s) (n_st s) (n_mtx s) KClr (n_kpri s) (n_prio s) (n_thr s), []) else None
        | KClr => Some (mkI (n_fin s) false (n_mtx s) KRun (n_kpri s) (n_prio s) (n_thr s),
                        [Call 0 (IT TBegin); Eff 0 (IT TBegin) void; Ret 0 void])
        | KRun => match n_thr s 0 with
                  | IIdle => Some (mkI (n_fin s) (n_st s) (n_mtx s) KFin (n_kpri s) (n_prio s) (n_thr s), [Call 0 (IT TEnd)])
                  | _ => None
                  end
        | KFin => Some (mkI true (n_st s) (n_mtx s) KExit (n_kpri s) (n_prio s) (fun u => match n_thr s u with IQue c => IPoll c | q => q end), [])
        | KExit => Some (mkI (n_fin s) (n_st s) (n_mtx s) KDorm (n_kpri s) (n_prio s) (n_thr s), [Eff 0 (IT TEnd) void; Ret 0 void])
        end
    end.

  Definition n_idle (s : its) (t : nat) : Prop := n_thr s t = IIdle.
  (** the call agent t is executing *)
  Definition n_running (s : its) (t : nat) : option icall :=
    match n_thr s t with
    | ILock c | IFlg c | IDorm c | IWai c | IQue c | IPoll c => Some c
    | IClr | ISta | IRef | IChg | ISetSt | IUnlock None => Some (IT TStart)
    | _ => None
    end.
  (** a setPriority call that has changed the priority but not yet finished *)
  Definition n_setting (s : its) (t : nat) : Prop :=
    match n_thr s t with IFlg (ISetPriority _) | IDorm (ISetPriority _) | ISetChg => True | _ => False end.
  Definition n_own_step (l : ilabel) : Prop := match l with NStep _ | NTimeout _ | NTask => True | _ => False end.
  (** time-outs are ones the kernel accepts; the object is not destroyed *)
  Definition n_label_ok (l : ilabel) : Prop :=
    match l with NCall _ (IT (TWait ms)) => -1 <= ms | NCall _ (IT TDestroy) => False | _ => True end.
  (** what a priority argument stands for: itself if it is a priority, else the caller's own; the thread's own is [old] *)
  Definition n_resolve (t : nat) (p old q : Z) : Prop :=
    q = if (minp <=? p) && (p <=? maxp) then p else if Nat.eqb t 0 then old else ext_prio t.
End ItronThread.
