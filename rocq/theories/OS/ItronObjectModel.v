(** Model of the Itron factories of event flags, mutexes and periodic timers with the objects' constructors and destructors, and of the
    periodic timer's start, stop, isStarted and callback, for any number of tasks:
    platform/ItronOSWrapper/ItronPeriodicTimerFactory.cpp (the line numbers below), ItronEventFlagFactory.cpp (create 206-231, destroy 233-238,
    constructor 19-31, destructor 33-38), ItronMutexFactory.cpp (create 157-185, destroy 187-192).  The three have the same shape; destroy of a
    timer first stops it ([timer] = true).  What one does with event flags and mutexes is in OS/ItronEventFlagModel.v and OS/ItronMutexModel.v.
    The kernel (environment): pget_mpf hands out a free block of the factory's pool of [max] blocks; acre_* gives a positive id that is not in
    use (ids are used again after deletion) or fails; a cyclic handler that is started may be activated at any time (MTick), one at a time.
    [smp] = false: handlers have precedence over tasks, as on one processor: while one runs no task takes a step (this is how uITRON 4.0
    describes them).  [smp] = true: tasks of other processors go on.
    The factory's constructor is assumed to have got its pool and its mutex (87-107).
    Clients are assumed to use only objects that create has returned and that nobody has started to destroy, and to destroy an object only when
    no call on it is running; [k_busy] (who is in a call on the object) and [k_st] (the stage of the object) express that and are not in the program.
    Storing the id that acre_* returned is part of that step (39): the object is not yet known to anybody. *)
From Coq Require Import List Bool Arith.
Import ListNotations.
From Verif Require Import Spec.Linear Spec.ObjectSpec OS.Sched.

Inductive kpc :=
| KIdle
| KLock (c : ocall)                      (* 120, 147 *)
| KGet                                   (* 125-132 *)
| KAcre (p : nat)                        (* 29-39 *)
| KDtorF (p : nat)                       (* 135-136, 42-47 *)
| KRelF (p : nat)                        (* 137 *)
| KStp (p : nat)                         (* 146 *)
| KDel (p : nat)                         (* 148, 42-47 *)
| KRel (p : nat)                         (* 149 *)
| KUnl (r : ores)                        (* ~Lock *)
| KAt (c : ocall)                        (* start 51-54, stop 56-59, isStarted 61-69 *)
| KRet (r : ores).
(** stages of an object: no block; under construction; constructed; in use; destroy called; kernel object deleted *)
Inductive kstage := SFree | SMake | SMade | SLive | SDying | SGone.

(** m_timerId (m_flgId, m_mutexId) of the objects in the blocks; kernel objects: (exinf, started); blocks in use; who holds m_mtxId; the callback that runs *)
Record kst := mkK { k_id : nat -> nat; k_kern : nat -> option (nat * bool); k_blk : nat -> bool; k_mtx : option nat; k_cb : option nat;
                    k_st : nat -> kstage; k_busy : nat -> list nat; k_pc : nat -> kpc }.
Definition k_init : kst := mkK (fun _ => 0) (fun _ => None) (fun _ => false) None None (fun _ => SFree) (fun _ => []) (fun _ => KIdle).

Inductive klab :=
| MCall (t : nat) (c : ocall)
| MStep (t : nat)
| MGet (t p : nat)                (* pget_mpf answers block p *)
| MAcre (t i : nat)               (* acre_* answers id i; 0 stands for an error *)
| MTick (i : nat)                 (* the handler of kernel object i is activated *)
| MEnd (throws : bool).           (* the callback ends *)

Definition k_go (s : kst) (t : nat) (q : kpc) : kst := mkK (k_id s) (k_kern s) (k_blk s) (k_mtx s) (k_cb s) (k_st s) (k_busy s) (fupd (k_pc s) t q).
Definition k_ker (s : kst) (k : nat -> option (nat * bool)) (t : nat) (q : kpc) : kst := mkK (k_id s) k (k_blk s) (k_mtx s) (k_cb s) (k_st s) (k_busy s) (fupd (k_pc s) t q).
(** sta_cyc, stp_cyc; del_cyc in the destructor if isCreated() *)
Definition k_set (k : nat -> option (nat * bool)) (i : nat) (b : bool) : nat -> option (nat * bool) :=
  match k i with Some (p, _) => fupd k i (Some (p, b)) | None => k end.
Definition k_dtor (k : nat -> option (nat * bool)) (i : nat) : nat -> option (nat * bool) := if 0 <? i then fupd k i None else k.
Definition k_free (max : nat) (s : kst) : bool := existsb (fun p => negb (k_blk s p)) (seq 0 max).
Notation kout := (list (event ocall ores)).
Definition k_act (c : ocall) : kout := [Call 0 c; Eff 0 c OVoid; Ret 0 OVoid].
Definition is_live (a : kstage) : bool := match a with SLive => true | _ => false end.
Definition on_obj (c : ocall) : option nat := match c with OStart p | OStop p | OIsStarted p => Some p | _ => None end.

(** steps of tasks *)
Definition k_task (max : nat) (timer : bool) (s : kst) (l : klab) : option (kst * kout) :=
  match l with
  | MCall t c =>
      match k_pc s t with
      | KIdle =>
          if 0 <? t then
            match c with
            | OCreate => Some (k_go s t (KLock OCreate), [Call t c])
            | ODestroy p =>
                if (is_live (k_st s p) && match k_busy s p with [] => true | _ => false end)%bool then
                  Some (mkK (k_id s) (k_kern s) (k_blk s) (k_mtx s) (k_cb s) (fupd (k_st s) p SDying) (k_busy s)
                            (fupd (k_pc s) t (if timer then KStp p else KLock (ODestroy p))), [Call t c])
                else None
            | OStart p | OStop p | OIsStarted p =>
                if (timer && is_live (k_st s p))%bool then
                  Some (mkK (k_id s) (k_kern s) (k_blk s) (k_mtx s) (k_cb s) (k_st s) (fupd (k_busy s) p (t :: k_busy s p)) (fupd (k_pc s) t (KAt c)), [Call t c])
                else None
            | _ => None
            end
          else None
      | _ => None
      end
  | MStep t =>
      match k_pc s t with
      | KLock c =>
          match k_mtx s with
          | Some _ => None
          | None => Some (mkK (k_id s) (k_kern s) (k_blk s) (Some t) (k_cb s) (k_st s) (k_busy s) (fupd (k_pc s) t (match c with ODestroy p => KDel p | _ => KGet end)), [])
          end
      | KGet => if k_free max s then None else Some (k_go s t (KUnl ONoRoom), [Eff t OCreate ONoRoom])                       (* 127-132 *)
      | KDtorF p => Some (k_ker s (k_dtor (k_kern s) (k_id s p)) t (KRelF p), [])
      | KRelF p =>
          Some (mkK (k_id s) (k_kern s) (fupd (k_blk s) p false) (k_mtx s) (k_cb s) (fupd (k_st s) p SFree) (k_busy s) (fupd (k_pc s) t (KUnl ORefused)), [Eff t OCreate ORefused])
      | KStp p => Some (k_ker s (k_set (k_kern s) (k_id s p) false) t (KLock (ODestroy p)), [])
      | KDel p =>
          Some (mkK (k_id s) (k_dtor (k_kern s) (k_id s p)) (k_blk s) (k_mtx s) (k_cb s) (fupd (k_st s) p SGone) (k_busy s) (fupd (k_pc s) t (KRel p)), [Eff t (ODestroy p) OVoid])
      | KRel p => Some (mkK (k_id s) (k_kern s) (fupd (k_blk s) p false) (k_mtx s) (k_cb s) (fupd (k_st s) p SFree) (k_busy s) (fupd (k_pc s) t (KUnl OVoid)), [])
      | KUnl r => Some (mkK (k_id s) (k_kern s) (k_blk s) None (k_cb s) (k_st s) (k_busy s) (fupd (k_pc s) t (KRet r)), [])
      | KAt c =>
          match on_obj c with
          | Some p =>
              let k := match c with OStart _ => k_set (k_kern s) (k_id s p) true | OStop _ => k_set (k_kern s) (k_id s p) false | _ => k_kern s end in
              let r := match c with OIsStarted _ => OBool (match k_kern s (k_id s p) with Some (_, b) => b | None => false end) | _ => OVoid end in
              Some (mkK (k_id s) k (k_blk s) (k_mtx s) (k_cb s) (k_st s) (fupd (k_busy s) p (filter (fun u => negb (u =? t)) (k_busy s p))) (fupd (k_pc s) t (KRet r)), [Eff t c r])
          | None => None
          end
      | KRet r =>
          Some (mkK (k_id s) (k_kern s) (k_blk s) (k_mtx s) (k_cb s) (match r with OObj p => fupd (k_st s) p SLive | _ => k_st s end) (k_busy s) (fupd (k_pc s) t KIdle), [Ret t r])
      | _ => None
      end
  | MGet t p =>                                                                                                              (* and 27: m_timerId(0) *)
      match k_pc s t with
      | KGet =>
          if ((p <? max) && negb (k_blk s p))%bool then
            Some (mkK (fupd (k_id s) p 0) (k_kern s) (fupd (k_blk s) p true) (k_mtx s) (k_cb s) (fupd (k_st s) p SMake) (k_busy s) (fupd (k_pc s) t (KAcre p)), [])
          else None
      | _ => None
      end
  | MAcre t i =>
      match k_pc s t with
      | KAcre p =>
          if i =? 0 then Some (k_go s t (KDtorF p), [])
          else match k_kern s i with
               | None =>
                   Some (mkK (fupd (k_id s) p i) (fupd (k_kern s) i (Some (p, false))) (k_blk s) (k_mtx s) (k_cb s) (fupd (k_st s) p SMade) (k_busy s)
                             (fupd (k_pc s) t (KUnl (OObj p))), [Eff t OCreate (OObj p)])
               | Some _ => None
               end
      | _ => None
      end
  | _ => None
  end.
Definition k_step (max : nat) (timer smp : bool) (s : kst) (l : klab) : option (kst * kout) :=
  match l with
  | MTick i =>                                                                                                               (* 16-22 *)
      match k_cb s, k_kern s i with
      | None, Some (p, true) => Some (mkK (k_id s) (k_kern s) (k_blk s) (k_mtx s) (Some p) (k_st s) (k_busy s) (k_pc s), k_act (OTick p))
      | _, _ => None
      end
  | MEnd b =>                                                                                                                (* PeriodicTimer.cpp 39-62: handleException calls stop() *)
      match k_cb s with
      | Some p =>
          if b then Some (mkK (k_id s) (k_set (k_kern s) (k_id s p) false) (k_blk s) (k_mtx s) None (k_st s) (k_busy s) (k_pc s), k_act (OThrow p))
          else Some (mkK (k_id s) (k_kern s) (k_blk s) (k_mtx s) None (k_st s) (k_busy s) (k_pc s), [])
      | None => None
      end
  | _ => match k_cb s with Some _ => if smp then k_task max timer s l else None | None => k_task max timer s l end
  end.

Definition k_idle (s : kst) (t : nat) : Prop := k_pc s t = KIdle.
Definition k_own_step (l : klab) : Prop := match l with MStep _ | MGet _ _ | MAcre _ _ => True | _ => False end.
Definition k_stuck (max : nat) (timer smp : bool) (s : kst) : Prop := forall l, k_own_step l -> k_step max timer smp s l = None.
