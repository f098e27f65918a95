(** Model of platform/ItronOSWrapper/ItronVariableMemoryPoolFactory.cpp (class ItronVariableMemoryPoolFactory, its pool table and the pools in
    it) with private/ItronLock.h, and of platform/StdCppOSWrapper/StdCppVariableMemoryPoolFactory.cpp, for any number of tasks.
    The kernel (environment): memory pools are named by the ids 1 .. [nids]; acre_mpl creates a pool under an id that is not in use, in the
    memory given or, if none is given, in memory of its own where no pool is, or fails; pget_mpl hands out bytes of the pool that are free at
    a place that is [usable] (the kernel's alignment and overhead: any rule), and fails only if there is none, or no such pool, or for zero
    bytes; rel_mpl takes them back, and refuses an address that is not handed out; del_mpl deletes the pool.  loc_mtx blocks while the mutex is held.
    [max] is MAX_VARIABLE_MEMORY_POOLS; [has_mtx] tells whether the constructor of the factory got its mutex (52-61: if not, m_mutexId stays
    0 and Lock does nothing).  size_t is unbounded here.  The user's memory address is not null. *)
From Coq Require Import List NArith Bool Arith.
Import ListNotations.
From Verif Require Import Spec.Linear Spec.VarPoolSpec OS.Sched.

Definition apartb (a n b m : N) : bool := ((a + n <=? b) || (b + m <=? a))%N.
(** pget_mpl can answer [a] *)
Definition grants (usable : vpool -> N -> N -> bool) (p : vpool) (n a : N) : bool :=
  (negb (N.eqb n 0) && ((v_base p <=? a) && (a + n <=? v_base p + v_size p)) && forallb (fun x => apartb a n (fst x) (snd x)) (v_out p) && usable p a n)%N%bool.
(** pget_mpl finds no place *)
Definition no_place (usable : vpool -> N -> N -> bool) (p : vpool) (n : N) : bool :=
  forallb (fun k => negb (grants usable p n (v_base p + N.of_nat k))) (seq 0 (N.to_nat (v_size p))).

Inductive ypc :=
| YIdle
| YLock (c : vcall)                       (* Lock lk(m_mutexId): 77, 91 *)
| YScan (size addr : N) (i : nat)         (* loop at slot i: 78-79 *)
| YAcre (size addr : N) (i : nat)         (* init: 15-20 *)
| YAssign (size addr : N) (i id : nat)    (* init: 24, id is the new pool *)
| YDel (i : nat)                          (* deinit: 30 *)
| YClear (i : nat)                        (* deinit: 31 *)
| YUnlock (r : vres)                      (* ~Lock *)
| YAt (c : vcall)                         (* allocate, deallocate: no lock *)
| YRet (r : vres).

(** m_mplId of a slot (0: not created), the kernel's pools, the owner of the factory's mutex *)
Record yst := mkY { y_id : nat -> nat; y_kern : nat -> option vpool; y_mtx : option nat; y_thr : nat -> ypc }.
Definition y_init : yst := mkY (fun _ => 0) (fun _ => None) None (fun _ => YIdle).          (* .h 22; .cpp 54 *)

Inductive ylab :=
| UCall (t : nat) (c : vcall)
| UStep (t : nat)
| UAcre (t : nat) (id : nat) (base : N)   (* acre_mpl answers id, with memory at base; id 0 stands for an error *)
| UGet (t : nat) (a : N).                 (* pget_mpl answers address a *)

Definition y_go (s : yst) (t : nat) (x : ypc) : yst := mkY (y_id s) (y_kern s) (y_mtx s) (fupd (y_thr s) t x).
(** the memory is given, or is where no pool is *)
Definition place_ok (nids : nat) (s : yst) (size addr base : N) : bool :=
  if N.eqb addr 0 then
    (negb (N.eqb base 0) && forallb (fun k => match y_kern s k with Some p => apartb base size (v_base p) (v_size p) | None => true end) (seq 1 nids))%bool
  else N.eqb base addr.
Notation yout := (list (event vcall vres)).

Section K.
  Variables (max nids : nat) (usable : vpool -> N -> N -> bool) (has_mtx : bool).
  Definition y_step (s : yst) (l : ylab) : option (yst * yout) :=
    match l with
    | UCall t c =>
        match y_thr s t with
        | YIdle =>
            match c with
            | VCreate size addr =>                                                             (* 73-75 *)
                if N.eqb size 0 then Some (y_go s t (YRet VBad), [Call t c; Eff t c VBad]) else Some (y_go s t (YLock c), [Call t c])
            | VDestroy _ => Some (y_go s t (YLock c), [Call t c])
            | _ => Some (y_go s t (YAt c), [Call t c])
            end
        | _ => None
        end
    | UStep t =>
        match y_thr s t with
        | YIdle => None
        | YLock c =>                                                                           (* ItronLock.h 13-18 *)
            let next := match c with VCreate size addr => YScan size addr 0 | VDestroy i => YDel i | _ => YIdle end in
            if has_mtx then
              match y_mtx s with
              | None => Some (mkY (y_id s) (y_kern s) (Some t) (fupd (y_thr s) t next), [])
              | Some _ => None
              end
            else Some (y_go s t next, [])
        | YScan size addr i =>
            if i <? max then
              if 0 <? y_id s i then Some (y_go s t (YScan size addr (S i)), [])                (* 78-79, .h 27 *)
              else Some (y_go s t (YAcre size addr i), [])
            else Some (y_go s t (YUnlock VNoSlot), [Eff t (VCreate size addr) VNoSlot])        (* 86 *)
        | YAcre size addr i => None                                                            (* see UAcre *)
        | YAssign size addr i id =>                                                            (* 24-25, 80-83 *)
            Some (mkY (fupd (y_id s) i id) (y_kern s) (y_mtx s) (fupd (y_thr s) t (YUnlock (VPool i))), [Eff t (VCreate size addr) (VPool i)])
        | YDel i =>                                                                            (* 30 *)
            Some (mkY (y_id s) (if 0 <? y_id s i then fupd (y_kern s) (y_id s i) None else y_kern s) (y_mtx s) (fupd (y_thr s) t (YClear i)),
                  [Eff t (VDestroy i) VVoid])
        | YClear i =>                                                                          (* 31 *)
            Some (mkY (fupd (y_id s) i 0) (y_kern s) (y_mtx s) (fupd (y_thr s) t (YUnlock VVoid)), [])
        | YUnlock r =>                                                                         (* ItronLock.h 20-25 *)
            Some (mkY (y_id s) (y_kern s) (if has_mtx then None else y_mtx s) (fupd (y_thr s) t (YRet r)), [])
        | YAt (VAlloc i n) =>                                                                  (* 34-42: pget_mpl fails *)
            match y_kern s (y_id s i) with
            | Some p => if no_place usable p n then Some (y_go s t (YRet VNull), [Eff t (VAlloc i n) VNull]) else None
            | None => Some (y_go s t (YRet VNull), [Eff t (VAlloc i n) VNull])
            end
        | YAt (VFree i a) =>                                                                   (* 44-49 *)
            Some (mkY (y_id s)
                      (match y_kern s (y_id s i) with
                       | Some p =>
                           if N.eqb a 0 then y_kern s                                          (* 46: null *)
                           else fupd (y_kern s) (y_id s i) (Some (mkV (v_base p) (v_size p) (filter (fun x => negb (N.eqb a (fst x))) (v_out p))))
                       | None => y_kern s
                       end) (y_mtx s) (fupd (y_thr s) t (YRet VVoid)), [Eff t (VFree i a) VVoid])
        | YAt _ => None
        | YRet r => Some (y_go s t YIdle, [Ret t r])
        end
    | UAcre t id base =>
        match y_thr s t with
        | YAcre size addr i =>
            if id =? 0 then Some (y_go s t (YUnlock VRefused), [Eff t (VCreate size addr) VRefused])           (* 21-23, 83 *)
            else if (id <=? nids) && place_ok nids s size addr base then
              match y_kern s id with
              | None => Some (mkY (y_id s) (fupd (y_kern s) id (Some (mkV base size []))) (y_mtx s) (fupd (y_thr s) t (YAssign size addr i id)), [])
              | Some _ => None
              end
            else None
        | _ => None
        end
    | UGet t a =>                                                                              (* 34-42: pget_mpl succeeds *)
        match y_thr s t with
        | YAt (VAlloc i n) =>
            match y_kern s (y_id s i) with
            | Some p =>
                if grants usable p n a then
                  Some (mkY (y_id s) (fupd (y_kern s) (y_id s i) (Some (mkV (v_base p) (v_size p) ((a, n) :: v_out p)))) (y_mtx s)
                            (fupd (y_thr s) t (YRet (VAddr a))), [Eff t (VAlloc i n) (VAddr a)])
                else None
            | None => None
            end
        | _ => None
        end
    end.
  Definition y_own_step (l : ylab) : Prop := match l with UCall _ _ => False | _ => True end.
  Definition y_stuck (s : yst) : Prop := forall l, y_own_step l -> y_step s l = None.
End K.
Definition y_idle (s : yst) (t : nat) : Prop := y_thr s t = YIdle.

(** * platform/StdCppOSWrapper/StdCppVariableMemoryPoolFactory.cpp.  Environment: operator new gives a fresh pool object or throws
    bad_alloc; malloc gives bytes that are not in use, or null; free takes them back and ignores null. *)
Inductive gpc :=
| GIdle
| GLock (c : vcall)               (* lock_guard: 37, 50 *)
| GNew (size addr : N)            (* 38 *)
| GDelete (i : nat)               (* 51 *)
| GUnlock (r : vres)
| GAt (c : vcall)                 (* allocate, deallocate: no lock *)
| GRet (r : vres).
Record gst := mkG { g_pool : nat -> bool; g_heap : list (N * N); g_mtx : option nat; g_thr : nat -> gpc }.
Definition g_init : gst := mkG (fun _ => false) [] None (fun _ => GIdle).
Inductive glab :=
| WCall (t : nat) (c : vcall)
| WStep (t : nat)
| WNew (t : nat) (i : option nat)  (* operator new: a pool object, or bad_alloc *)
| WMalloc (t : nat) (a : N).       (* malloc: an address, 0 for null *)
Definition g_go (s : gst) (t : nat) (x : gpc) : gst := mkG (g_pool s) (g_heap s) (g_mtx s) (fupd (g_thr s) t x).
Definition g_step (s : gst) (l : glab) : option (gst * yout) :=
  match l with
  | WCall t c =>
      match g_thr s t with
      | GIdle =>
          match c with
          | VCreate size _ =>                                                                  (* 31-33 *)
              if N.eqb size 0 then Some (g_go s t (GRet VBad), [Call t c; Eff t c VBad]) else Some (g_go s t (GLock c), [Call t c])
          | VDestroy _ => Some (g_go s t (GLock c), [Call t c])
          | _ => Some (g_go s t (GAt c), [Call t c])
          end
      | _ => None
      end
  | WStep t =>
      match g_thr s t with
      | GLock c =>
          match g_mtx s with
          | None => Some (mkG (g_pool s) (g_heap s) (Some t) (fupd (g_thr s) t (match c with VCreate size addr => GNew size addr | VDestroy i => GDelete i | _ => GIdle end)), [])
          | Some _ => None
          end
      | GDelete i => Some (mkG (fupd (g_pool s) i false) (g_heap s) (g_mtx s) (fupd (g_thr s) t (GUnlock VVoid)), [Eff t (VDestroy i) VVoid])    (* 51, 10: ~StdCppVariableMemoryPool() {} *)
      | GUnlock r => Some (mkG (g_pool s) (g_heap s) None (fupd (g_thr s) t (GRet r)), [])
      | GAt (VFree i a) =>                                                                     (* 17-20 *)
          Some (mkG (g_pool s) (filter (fun x => negb (N.eqb a (fst x))) (g_heap s)) (g_mtx s) (fupd (g_thr s) t (GRet VVoid)), [Eff t (VFree i a) VVoid])
      | GRet r => Some (g_go s t GIdle, [Ret t r])
      | _ => None
      end
  | WNew t oi =>
      match g_thr s t with
      | GNew size addr =>                                                                      (* 38-45 *)
          match oi with
          | Some i => if g_pool s i then None else Some (mkG (fupd (g_pool s) i true) (g_heap s) (g_mtx s) (fupd (g_thr s) t (GUnlock (VPool i))), [Eff t (VCreate size addr) (VPool i)])
          | None => Some (g_go s t (GUnlock VRefused), [Eff t (VCreate size addr) VRefused])
          end
      | _ => None
      end
  | WMalloc t a =>
      match g_thr s t with
      | GAt (VAlloc i n) =>                                                                    (* 12-15 *)
          if N.eqb a 0 then Some (g_go s t (GRet VNull), [Eff t (VAlloc i n) VNull])
          else if forallb (fun x => apartb a n (fst x) (snd x) && negb (N.eqb a (fst x)))%bool (g_heap s) then
            Some (mkG (g_pool s) ((a, n) :: g_heap s) (g_mtx s) (fupd (g_thr s) t (GRet (VAddr a))), [Eff t (VAlloc i n) (VAddr a)])
          else None
      | _ => None
      end
  end.
Definition g_idle (s : gst) (t : nat) : Prop := g_thr s t = GIdle.
Definition g_own_step (l : glab) : Prop := match l with WCall _ _ => False | _ => True end.
Definition g_stuck (s : gst) : Prop := forall l, g_own_step l -> g_step s l = None.
