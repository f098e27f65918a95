(** Model of platform/StdCppOSWrapper/StdCppThreadFactory.cpp, class StdCppThreadFactory (create, destroy, getCurrentThread) with
    beginThread and endThread, for any number of threads.  The Posix and Windows factories inherit it.
    Environment: native threads are named by std::thread::id; an id is used again after its thread was joined; threads are also created and
    ended outside of the library (VBorn, VDie).  Memory allocation, the std::thread constructor and the insertion into the map may throw.
    std::map::insert leaves an existing entry alone.  The factory's mutex is recursive, but the inner acquisitions (setPriority inside of
    beginThread) are not modelled.
    The runs of a thread are abstracted to VRun (start) and VEnd: OS/ThreadModel.v has them in full.
    Clients are assumed to call destroy and start only on a thread that create has returned and that nobody has started to destroy, and
    not to destroy the calling thread.
    The owner of native threads and [s_st] (the stage of an object) are not in the program: only the assumption on clients (VRun, destroy)
    refers to them. *)
From Coq Require Import List Bool Arith.
Import ListNotations.
From Verif Require Import Spec.Linear Spec.CurrentThreadSpec OS.Sched.

Inductive spc :=
| PIdle
| PLock (c : tcall)                      (* 181, 215, 232 *)
| SNew                                   (* 182 *)
| SBegin (x : nat)                       (* 183, 43-45 *)
| SUnlF (x : nat)                        (* the std::thread constructor has thrown: the lock is released *)
| SLockF (x : nat)                       (* 190, 204 *)
| SDel (x : nat)                         (* 191, 205 *)
| SUnl1 (x : nat)                        (* 184 *)
| SLock2 (x : nat)                       (* 197 *)
| SIns (x : nat)                         (* 198 *)
| SUnlG (x : nat)                        (* insert has thrown: the lock is released *)
| SJoinG (x : nat)                       (* 203: endThread *)
| DWait (x : nat) | DJoin (x : nat)      (* 214: endThread, 53 and 54-60 *)
| DErase (x : nat)                       (* 216 *)
| DDel (x : nat)                         (* 217 *)
| GScan                                  (* 233-237 *)
| PUnl (r : tres)
| PRet (r : tres).
(** stages of an object: not allocated; allocated; with a native thread; in the map as well; in use; destroy called; joined, still in the map; gone from both *)
Inductive ost := ONone | ONew | ONat | OMade | OLive | ODying | OWin | ODead.

(** m_threadIdMap, m_threadId of the objects, who holds m_mutex; native threads, allocated objects; which threads run *)
Record sst := mkS { s_map : nat -> option nat; s_oid : nat -> nat; s_mtx : option nat; s_res : nat -> option owner; s_obj : nat -> bool;
                    s_run : nat -> bool; s_st : nat -> ost; s_pc : nat -> spc }.
Definition s_init (app : nat -> bool) : sst :=
  mkS (fun _ => None) (fun _ => 0) None (fun i => if app i then Some Foreign else None) (fun _ => false) (fun _ => false) (fun _ => ONone) (fun _ => PIdle).

Inductive slab :=
| VCall (t : nat) (c : tcall)
| VStep (t : nat)
| VThrow (t : nat)                   (* allocation, std::thread or insert throws *)
| VAlloc (t x : nat)                 (* the new object is x *)
| VNat (t i : nat)                   (* the new native thread is i *)
| VBorn (i : nat) | VDie (i : nat)   (* a thread of the application *)
| VRun (x : nat) | VEnd (x : nat).

Definition s_go (s : sst) (t : nat) (q : spc) : sst := mkS (s_map s) (s_oid s) (s_mtx s) (s_res s) (s_obj s) (s_run s) (s_st s) (fupd (s_pc s) t q).
(** release the lock / the stage of x changes *)
Definition s_rel (s : sst) (t : nat) (q : spc) (st : nat -> ost) : sst := mkS (s_map s) (s_oid s) None (s_res s) (s_obj s) (s_run s) st (fupd (s_pc s) t q).
Definition is_live (a : ost) : bool := match a with OLive => true | _ => false end.
Definition s_acts (s : sst) (t : nat) : bool := match s_res s t with Some Foreign => true | Some (Own x) => s_run s x | None => false end.
(** std::map::insert *)
Definition s_insert (m : nat -> option nat) (i x : nat) : nat -> option nat := match m i with None => fupd m i (Some x) | Some _ => m end.
Notation sout := (list (event tcall tres)).

Definition s_step (s : sst) (l : slab) : option (sst * sout) :=
  match l with
  | VCall t c =>
      match s_pc s t with
      | PIdle =>
          if s_acts s t then
            match c with
            | TCreate | TCurrent => Some (s_go s t (PLock c), [Call t c])
            | TDestroy x =>
                if (is_live (s_st s x) && negb (s_oid s x =? t))%bool then
                  Some (mkS (s_map s) (s_oid s) (s_mtx s) (s_res s) (s_obj s) (s_run s) (fupd (s_st s) x ODying) (fupd (s_pc s) t (DWait x)), [Call t c])
                else None
            end
          else None
      | _ => None
      end
  | VStep t =>
      match s_pc s t with
      | PLock _ | SLockF _ | SLock2 _ =>
          match s_mtx s with
          | Some _ => None
          | None =>
              Some (mkS (s_map s) (s_oid s) (Some t) (s_res s) (s_obj s) (s_run s) (s_st s)
                        (fupd (s_pc s) t (match s_pc s t with
                                          | PLock TCreate => SNew | PLock (TDestroy x) => DErase x | PLock TCurrent => GScan
                                          | SLockF x => SDel x | SLock2 x => SIns x | q => q
                                          end)), [])
          end
      | SUnlF x => Some (s_rel s t (SLockF x) (s_st s), [])
      | SDel x => Some (mkS (s_map s) (s_oid s) (s_mtx s) (s_res s) (fupd (s_obj s) x false) (s_run s) (fupd (s_st s) x ONone) (fupd (s_pc s) t (PUnl (TNull Refused))), [])
      | SUnl1 x => Some (s_rel s t (SLock2 x) (s_st s), [])
      | SIns x =>
          Some (mkS (s_insert (s_map s) (s_oid s x) x) (s_oid s) (s_mtx s) (s_res s) (s_obj s) (s_run s) (fupd (s_st s) x OMade) (fupd (s_pc s) t (PUnl (TThread x))), [])
      | SUnlG x => Some (s_rel s t (SJoinG x) (s_st s), [])
      | SJoinG x =>
          Some (mkS (s_map s) (s_oid s) (s_mtx s) (fupd (s_res s) (s_oid s x) None) (s_obj s) (s_run s) (fupd (s_st s) x ODead) (fupd (s_pc s) t (SLockF x)), [])
      | DWait x => if s_run s x then None else Some (s_go s t (DJoin x), [])
      | DJoin x =>
          Some (mkS (s_map s) (s_oid s) (s_mtx s) (fupd (s_res s) (s_oid s x) None) (s_obj s) (s_run s) (fupd (s_st s) x OWin) (fupd (s_pc s) t (PLock (TDestroy x))), [])
      | DErase x =>
          Some (mkS (fupd (s_map s) (s_oid s x) None) (s_oid s) (s_mtx s) (s_res s) (s_obj s) (s_run s) (fupd (s_st s) x ODead) (fupd (s_pc s) t (DDel x)), [])
      | DDel x => Some (mkS (s_map s) (s_oid s) (s_mtx s) (s_res s) (fupd (s_obj s) x false) (s_run s) (fupd (s_st s) x ONone) (fupd (s_pc s) t (PUnl TVoid)), [])
      | GScan => Some (s_go s t (PUnl (TCur (s_map s t))), [])
      | PUnl r => Some (s_rel s t (PRet r) (s_st s), [])
      | PRet r =>
          Some (mkS (s_map s) (s_oid s) (s_mtx s) (s_res s) (s_obj s) (s_run s) (match r with TThread x => fupd (s_st s) x OLive | _ => s_st s end) (fupd (s_pc s) t PIdle), [Ret t r])
      | _ => None
      end
  | VThrow t =>
      match s_pc s t with
      | SNew => Some (s_go s t (PUnl (TNull NoBlock)), [])
      | SBegin x => Some (mkS (s_map s) (s_oid s) (s_mtx s) (s_res s) (s_obj s) (s_run s) (fupd (s_st s) x ODead) (fupd (s_pc s) t (SUnlF x)), [])
      | SIns x => Some (s_go s t (SUnlG x), [])
      | _ => None
      end
  | VAlloc t x =>
      match s_pc s t with
      | SNew =>
          if s_obj s x then None
          else Some (mkS (s_map s) (s_oid s) (s_mtx s) (s_res s) (fupd (s_obj s) x true) (s_run s) (fupd (s_st s) x ONew) (fupd (s_pc s) t (SBegin x)), [])
      | _ => None
      end
  | VNat t i =>
      match s_pc s t with
      | SBegin x =>
          match s_res s i with
          | Some _ => None
          | None =>
              Some (mkS (s_map s) (fupd (s_oid s) x i) (s_mtx s) (fupd (s_res s) i (Some (Own x))) (s_obj s) (s_run s) (fupd (s_st s) x ONat) (fupd (s_pc s) t (SUnl1 x)), [])
          end
      | _ => None
      end
  | VBorn i => match s_res s i with None => Some (mkS (s_map s) (s_oid s) (s_mtx s) (fupd (s_res s) i (Some Foreign)) (s_obj s) (s_run s) (s_st s) (s_pc s), []) | Some _ => None end
  | VDie i =>
      match s_res s i, s_pc s i with
      | Some Foreign, PIdle => Some (mkS (s_map s) (s_oid s) (s_mtx s) (fupd (s_res s) i None) (s_obj s) (s_run s) (s_st s) (s_pc s), [])
      | _, _ => None
      end
  | VRun x => if is_live (s_st s x) then Some (mkS (s_map s) (s_oid s) (s_mtx s) (s_res s) (s_obj s) (fupd (s_run s) x true) (s_st s) (s_pc s), []) else None
  | VEnd x =>
      match s_pc s (s_oid s x) with
      | PIdle => if s_run s x then Some (mkS (s_map s) (s_oid s) (s_mtx s) (s_res s) (s_obj s) (fupd (s_run s) x false) (s_st s) (s_pc s), []) else None
      | _ => None
      end
  end.

Definition s_idle (s : sst) (t : nat) : Prop := s_pc s t = PIdle.
(** steps of running calls *)
Definition s_own_step (l : slab) : Prop := match l with VStep _ | VThrow _ | VAlloc _ _ | VNat _ _ => True | _ => False end.
Definition s_stuck (s : sst) : Prop := forall l, s_own_step l -> s_step s l = None.
(** a call of destroy is running *)
Definition destroying (q : spc) : Prop := match q with DWait _ | DJoin _ | PLock (TDestroy _) | DErase _ | DDel _ | PUnl TVoid | PRet TVoid => True | _ => False end.
(** a native thread begins *)
Definition birth (l : slab) : Prop := match l with VNat _ _ | VBorn _ => True | _ => False end.
(** at every step of the run *)
Fixpoint always (P : sst -> slab -> Prop) (s : sst) (ls : list slab) : Prop :=
  match ls with [] => True | l :: ls' => P s l /\ match s_step s l with Some (s1, _) => always P s1 ls' | None => True end end.
(** no thread of the system begins while a destroy is running *)
Definition calm (app : nat -> bool) (ls : list slab) : Prop := always (fun s l => birth l -> forall t, ~ destroying (s_pc s t)) (s_init app) ls.
(** no native thread gets an id that a thread had which destroy has joined but has not yet taken out of the map *)
Definition fresh_at (s : sst) (l : slab) : Prop :=
  match l with VNat _ i | VBorn i => forall t x, s_pc s t = PLock (TDestroy x) \/ s_pc s t = DErase x -> s_oid s x <> i | _ => True end.
Definition fresh_ids (app : nat -> bool) (ls : list slab) : Prop := always fresh_at (s_init app) ls.
