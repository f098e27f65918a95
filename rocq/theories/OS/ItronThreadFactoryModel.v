(** Model of platform/ItronOSWrapper/ItronThreadFactory.cpp, class ItronThreadFactory (create, destroy, getCurrentThread) with the
    constructor and destructor of ItronThread as far as the kernel objects go, for any number of tasks.
    The kernel (environment): tasks, event flags and mutexes are named by positive ids; acre_* gives an id that is not in use (ids are used
    again after deletion) or fails; del_* deletes; tasks may also be created and deleted by the application outside of the library
    (XBorn, XDie); pget_mpf hands out a free block of the factory's memory pool, which has MAX_THREADS = [max] blocks.
    The runs of a thread are abstracted to XRun (start) and XEnd (the run is over and the task is dormant): OS/ItronThreadModel.v has them in
    full; wait (320) lets the caller pass when the thread does not run.
    Clients are assumed to call destroy and start only on a thread that create has returned and that nobody has started to destroy, and
    not to destroy the calling thread.  The factory's constructor is assumed to have got its memory pool and its mutex (251-269).
    The owner that the kernel objects carry and [f_live] are not in the program: no step depends on the former, the latter expresses the
    assumption about clients. *)
From Coq Require Import List Bool Arith.
Import ListNotations.
From Verif Require Import Spec.Linear Spec.CurrentThreadSpec OS.Sched.

Inductive kind := KTsk | KFlg | KMtx.
Record obj := mkO { o_tsk : nat; o_flg : nat; o_mtx : nat }.              (* m_taskId, m_evWait, m_mtxId: 20-22 *)
Definition o_get (o : obj) (k : kind) : nat := match k with KTsk => o_tsk o | KFlg => o_flg o | KMtx => o_mtx o end.

Inductive fpc :=
| PIdle
| PLock (c : tcall)                      (* Lock lk(m_mtxId): 284, 321, 350 *)
| CCheck                                 (* 285-291 *)
| CGet                                   (* 293-300 *)
| CTsk (p : nat)                         (* 106 *)
| CFlg (p i : nat)                       (* 112 *)
| CMtx (p i j : nat)                     (* 120 *)
| CDelF (p i j : nat)                    (* 122 *)
| CDelT (p i : nat)                      (* 114, 123 *)
| CRel (p : nat)                         (* 303-306 *)
| CPush (p : nat)                        (* 309-312 *)
| DWait (p : nat)                        (* 320 *)
| DErase (p : nat)                       (* 322-327 *)
| DTsk (p : nat) | DFlg (p : nat) | DMtx (p : nat)      (* 135, 136, 137 *)
| DRel (p : nat)                         (* 329 *)
| GScan                                  (* 351-356 *)
| PUnl (r : tres)                        (* ~Lock *)
| PRet (r : tres).

(** m_threadIdMap, the objects in the blocks, who holds m_mtxId; kernel objects, blocks of the pool; which threads run, which may be used *)
Record fst_ := mkF { f_map : list (nat * nat); f_ob : nat -> obj; f_mtx : option nat; f_res : kind -> nat -> option owner; f_blk : nat -> bool;
                     f_run : nat -> bool; f_live : nat -> bool; f_pc : nat -> fpc }.
(** initially tasks that satisfy [app] exist *)
Definition f_init (app : nat -> bool) : fst_ :=
  mkF [] (fun _ => mkO 0 0 0) None (fun k i => match k with KTsk => if app i then Some Foreign else None | _ => None end) (fun _ => false)
      (fun _ => false) (fun _ => false) (fun _ => PIdle).

Inductive flab :=
| XCall (t : nat) (c : tcall)
| XStep (t : nat)
| XGet (t : nat) (p : nat)           (* pget_mpf answers block p *)
| XNew (t : nat) (i : nat)           (* acre_tsk, acre_flg, acre_mtx answer id i; 0 stands for an error *)
| XBorn (i : nat) | XDie (i : nat)   (* a task of the application *)
| XRun (p : nat) | XEnd (p : nat).   (* thread p *)

Definition f_go (s : fst_) (t : nat) (q : fpc) : fst_ :=
  mkF (f_map s) (f_ob s) (f_mtx s) (f_res s) (f_blk s) (f_run s) (f_live s) (fupd (f_pc s) t q).
Definition kupd {A} (f : kind -> nat -> A) (k : kind) (i : nat) (x : A) : kind -> nat -> A :=
  fun k' => match k, k' with KTsk, KTsk | KFlg, KFlg | KMtx, KMtx => fupd (f k') i x | _, _ => f k' end.
Definition f_res_go (s : fst_) (r : kind -> nat -> option owner) (t : nat) (q : fpc) : fst_ :=
  mkF (f_map s) (f_ob s) (f_mtx s) r (f_blk s) (f_run s) (f_live s) (fupd (f_pc s) t q).
(** erase the first entry with this id: 322-327 *)
Fixpoint f_erase (i : nat) (l : list (nat * nat)) : list (nat * nat) :=
  match l with [] => [] | x :: l' => if fst x =? i then l' else x :: f_erase i l' end.
Definition f_find (i : nat) (l : list (nat * nat)) : option nat := option_map snd (find (fun x => fst x =? i) l).
(** the calling task exists, and if it is a thread's, that thread runs *)
Definition f_acts (s : fst_) (t : nat) : bool := match f_res s KTsk t with Some Foreign => true | Some (Own p) => f_run s p | None => false end.
Definition free_block (max : nat) (s : fst_) : bool := existsb (fun p => negb (f_blk s p)) (seq 0 max).
Notation fout := (list (event tcall tres)).

Definition f_step (max : nat) (s : fst_) (l : flab) : option (fst_ * fout) :=
  match l with
  | XCall t c =>
      match f_pc s t with
      | PIdle =>
          if f_acts s t then
            match c with
            | TCreate | TCurrent => Some (f_go s t (PLock c), [Call t c])
            | TDestroy p =>
                if (f_live s p && negb (o_tsk (f_ob s p) =? t))%bool then
                  Some (mkF (f_map s) (f_ob s) (f_mtx s) (f_res s) (f_blk s) (f_run s) (fupd (f_live s) p false) (fupd (f_pc s) t (DWait p)), [Call t c])
                else None
            end
          else None
      | _ => None
      end
  | XStep t =>
      match f_pc s t with
      | PLock c =>
          match f_mtx s with
          | Some _ => None
          | None =>
              Some (mkF (f_map s) (f_ob s) (Some t) (f_res s) (f_blk s) (f_run s) (f_live s)
                        (fupd (f_pc s) t (match c with TCreate => CCheck | TDestroy p => DErase p | TCurrent => GScan end)), [])
          end
      | CCheck => if max <=? length (f_map s) then Some (f_go s t (PUnl (TNull Full)), []) else Some (f_go s t CGet, [])           (* 289-291 *)
      | CGet => if free_block max s then None else Some (f_go s t (PUnl (TNull NoBlock)), [])                                     (* 295-297 *)
      | CDelF p i j => Some (f_res_go s (kupd (f_res s) KFlg j None) t (CDelT p i), [])
      | CDelT p i => Some (f_res_go s (kupd (f_res s) KTsk i None) t (CRel p), [])
      | CRel p => Some (mkF (f_map s) (f_ob s) (f_mtx s) (f_res s) (fupd (f_blk s) p false) (f_run s) (f_live s) (fupd (f_pc s) t (PUnl (TNull Refused))), [])
      | CPush p =>
          Some (mkF (f_map s ++ [(o_tsk (f_ob s p), p)]) (f_ob s) (f_mtx s) (f_res s) (f_blk s) (f_run s) (f_live s) (fupd (f_pc s) t (PUnl (TThread p))), [])
      | DWait p => if f_run s p then None else Some (f_go s t (PLock (TDestroy p)), [])
      | DErase p =>
          Some (mkF (f_erase (o_tsk (f_ob s p)) (f_map s)) (f_ob s) (f_mtx s) (f_res s) (f_blk s) (f_run s) (f_live s) (fupd (f_pc s) t (DTsk p)), [])
      | DTsk p => Some (f_res_go s (kupd (f_res s) KTsk (o_tsk (f_ob s p)) None) t (DFlg p), [])
      | DFlg p => Some (f_res_go s (kupd (f_res s) KFlg (o_flg (f_ob s p)) None) t (DMtx p), [])
      | DMtx p => Some (f_res_go s (kupd (f_res s) KMtx (o_mtx (f_ob s p)) None) t (DRel p), [])
      | DRel p => Some (mkF (f_map s) (f_ob s) (f_mtx s) (f_res s) (fupd (f_blk s) p false) (f_run s) (f_live s) (fupd (f_pc s) t (PUnl TVoid)), [])
      | GScan => Some (f_go s t (PUnl (TCur (f_find t (f_map s)))), [])
      | PUnl r => Some (mkF (f_map s) (f_ob s) None (f_res s) (f_blk s) (f_run s) (f_live s) (fupd (f_pc s) t (PRet r)), [])
      | PRet r =>
          Some (mkF (f_map s) (f_ob s) (f_mtx s) (f_res s) (f_blk s) (f_run s)
                    (match r with TThread p => fupd (f_live s) p true | _ => f_live s end) (fupd (f_pc s) t PIdle), [Ret t r])
      | _ => None
      end
  | XGet t p =>
      match f_pc s t with
      | CGet =>
          if ((p <? max) && negb (f_blk s p))%bool then
            Some (mkF (f_map s) (f_ob s) (f_mtx s) (f_res s) (fupd (f_blk s) p true) (f_run s) (f_live s) (fupd (f_pc s) t (CTsk p)), [])
          else None
      | _ => None
      end
  | XNew t i =>
      match f_pc s t with
      | CTsk p =>
          if i =? 0 then Some (f_go s t (CRel p), [])                                                                            (* 107-109 *)
          else match f_res s KTsk i with None => Some (f_res_go s (kupd (f_res s) KTsk i (Some (Own p))) t (CFlg p i), []) | Some _ => None end
      | CFlg p i' =>
          if i =? 0 then Some (f_go s t (CDelT p i'), [])                                                                        (* 113-116 *)
          else match f_res s KFlg i with None => Some (f_res_go s (kupd (f_res s) KFlg i (Some (Own p))) t (CMtx p i' i), []) | Some _ => None end
      | CMtx p i' j' =>
          if i =? 0 then Some (f_go s t (CDelF p i' j'), [])                                                                     (* 121-125 *)
          else match f_res s KMtx i with
               | None =>                                                                                                         (* 127-129 *)
                   Some (mkF (f_map s) (fupd (f_ob s) p (mkO i' j' i)) (f_mtx s) (kupd (f_res s) KMtx i (Some (Own p))) (f_blk s) (f_run s) (f_live s)
                             (fupd (f_pc s) t (CPush p)), [])
               | Some _ => None
               end
      | _ => None
      end
  | XBorn i =>
      match f_res s KTsk i with
      | None => Some (mkF (f_map s) (f_ob s) (f_mtx s) (kupd (f_res s) KTsk i (Some Foreign)) (f_blk s) (f_run s) (f_live s) (f_pc s), [])
      | Some _ => None
      end
  | XDie i =>
      match f_res s KTsk i, f_pc s i with
      | Some Foreign, PIdle => Some (mkF (f_map s) (f_ob s) (f_mtx s) (kupd (f_res s) KTsk i None) (f_blk s) (f_run s) (f_live s) (f_pc s), [])
      | _, _ => None
      end
  | XRun p => if f_live s p then Some (mkF (f_map s) (f_ob s) (f_mtx s) (f_res s) (f_blk s) (fupd (f_run s) p true) (f_live s) (f_pc s), []) else None
  | XEnd p =>
      match f_pc s (o_tsk (f_ob s p)) with
      | PIdle => if f_run s p then Some (mkF (f_map s) (f_ob s) (f_mtx s) (f_res s) (f_blk s) (fupd (f_run s) p false) (f_live s) (f_pc s), []) else None
      | _ => None
      end
  end.

Definition f_idle (s : fst_) (t : nat) : Prop := f_pc s t = PIdle.
Definition f_own_step (l : flab) : Prop := match l with XStep _ | XGet _ _ | XNew _ _ => True | _ => False end.
Definition f_stuck (max : nat) (s : fst_) : Prop := forall l, f_own_step l -> f_step max s l = None.
