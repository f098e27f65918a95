(** Specification of OSWrapper::VariableMemoryPool (mechanism/OSWrapper/VariableMemoryPool.h) with a bounded number of pools: a pool has a
    piece of memory, [v_size] bytes at [v_base], and hands out parts of it that do not overlap. *)
From Coq Require Import List NArith Bool Arith.
Import ListNotations.
From Verif Require Import Spec.Linear.
Local Open Scope N_scope.

Inductive vcall :=
| VCreate (poolSize addr : N)       (* addr = 0: null, the system provides the memory *)
| VDestroy (i : nat)                (* a pool is named by its position i *)
| VAlloc (i : nat) (n : N)
| VFree (i : nat) (a : N).
Inductive vres :=
| VVoid
| VPool (i : nat)                   (* create: this pool *)
| VNoSlot                           (* create: null, all pools are in use *)
| VRefused                          (* create: null, the system gave no memory pool *)
| VBad                              (* create: null, the size is zero *)
| VAddr (a : N)                     (* allocate: this address *)
| VNull.                            (* allocate: null *)

(** [n] bytes at [a] and [m] bytes at [b] have no byte in common *)
Definition apart (a n b m : N) : Prop := a + n <= b \/ b + m <= a.
Record vpool := mkV { v_base : N; v_size : N; v_out : list (N * N) }.     (* handed out: (address, length) *)
Definition vstate := nat -> option vpool.
Definition v_new : vstate := fun _ => None.
Definition vset (f : vstate) (i : nat) (x : option vpool) : vstate := fun j => if Nat.eqb j i then x else f j.
Definition veq (f g : vstate) : Prop := forall i, f i = g i.
(** [n] bytes at [a] lie in the pool and are free *)
Definition free_at (p : vpool) (a n : N) : Prop :=
  n <> 0 /\ v_base p <= a /\ a + n <= v_base p + v_size p /\ forall b m, In (b, m) (v_out p) -> apart a n b m.

(** [max]: number of pools; [usable p a n]: the system can serve a request for [n] bytes at the free place [a] (alignment, overhead) *)
Definition vspec (max : nat) (usable : vpool -> N -> N -> bool) (s : vstate) (t : nat) (c : vcall) (r : vres) (s' : vstate) : Prop :=
  match c with
  | VCreate size addr =>
      match r with
      | VPool i =>
          (i < max)%nat /\ s i = None /\ size <> 0 /\
          exists base, base <> 0 /\ (addr <> 0 -> base = addr) /\ (addr = 0 -> forall j p, s j = Some p -> apart base size (v_base p) (v_size p)) /\
                       veq s' (vset s i (Some (mkV base size [])))
      | VNoSlot => (forall i, (i < max)%nat -> s i <> None) /\ veq s' s
      | VRefused => (exists i, (i < max)%nat /\ s i = None) /\ veq s' s
      | VBad => size = 0 /\ veq s' s
      | _ => False
      end
  | VDestroy i => r = VVoid /\ veq s' (vset s i None)
  | VAlloc i n =>
      match s i with
      | None => r = VNull /\ veq s' s
      | Some p =>
          match r with
          | VAddr a => free_at p a n /\ veq s' (vset s i (Some (mkV (v_base p) (v_size p) ((a, n) :: v_out p))))
          | VNull => (forall a, free_at p a n -> usable p a n = false) /\ veq s' s
          | _ => False
          end
      end
  | VFree i a =>
      r = VVoid /\
      match s i with
      | None => veq s' s
      | Some p => veq s' (vset s i (Some (mkV (v_base p) (v_size p) (filter (fun x => negb (N.eqb a (fst x))) (v_out p)))))
      end
  end.
Notation vevents := (list (event vcall vres)).

(** no two of the pieces overlap *)
Fixpoint all_apart (l : list (N * N)) : Prop :=
  match l with
  | [] => True
  | (a, n) :: l' => (forall b m, In (b, m) l' -> apart a n b m) /\ all_apart l'
  end.
Definition total (l : list (N * N)) : N := fold_right (fun x acc => snd x + acc) 0 l.
(** * What the callers see of one pool: its size, the address given for it, and what it has handed out and not got back *)
Definition view_step (i : nat) (st : option (N * N * list (N * N))) (e : nat * vcall * vres) : option (N * N * list (N * N)) :=
  match e with
  | (_, VCreate size addr, VPool j) => if Nat.eqb j i then Some (size, addr, []) else st
  | (_, VDestroy j, _) => if Nat.eqb j i then None else st
  | (_, VAlloc j n, VAddr a) => if Nat.eqb j i then match st with Some (size, addr, held) => Some (size, addr, (a, n) :: held) | None => None end else st
  | (_, VFree j a, _) =>
      if Nat.eqb j i then match st with Some (size, addr, held) => Some (size, addr, filter (fun x => negb (N.eqb a (fst x))) held) | None => None end else st
  | _ => st
  end.
Definition pool_view (i : nat) (l : list (nat * vcall * vres)) : option (N * N * list (N * N)) := fold_left (view_step i) l None.
(** what all pools together have handed out and not got back *)
Definition heap_step (st : list (N * N)) (e : nat * vcall * vres) : list (N * N) :=
  match e with
  | (_, VAlloc _ n, VAddr a) => (a, n) :: st
  | (_, VFree _ a, _) => filter (fun x => negb (N.eqb a (fst x))) st
  | _ => st
  end.
Definition heap_view (l : list (nat * vcall * vres)) : list (N * N) := fold_left heap_step l [].
Definition inside (base size a n : N) : Prop := base <= a /\ a + n <= base + size.

(** * The malloc version (platform/StdCppOSWrapper): any number of pools; one heap for all of them *)
Record hstate := mkH { h_pool : nat -> bool; h_out : list (N * N) }.
Definition h_new : hstate := mkH (fun _ => false) [].
Definition heq (s s' : hstate) : Prop := (forall i, h_pool s i = h_pool s' i) /\ h_out s = h_out s'.
Definition hspec (s : hstate) (t : nat) (c : vcall) (r : vres) (s' : hstate) : Prop :=
  match c with
  | VCreate size _ =>
      match r with
      | VPool i => h_pool s i = false /\ size <> 0 /\ heq s' (mkH (fun j => if Nat.eqb j i then true else h_pool s j) (h_out s))
      | VRefused => heq s' s
      | VBad => size = 0 /\ heq s' s
      | _ => False
      end
  | VDestroy i => r = VVoid /\ heq s' (mkH (fun j => if Nat.eqb j i then false else h_pool s j) (h_out s))
  | VAlloc i n =>
      match r with
      | VAddr a => a <> 0 /\ (forall b m, In (b, m) (h_out s) -> apart a n b m /\ a <> b) /\ heq s' (mkH (h_pool s) ((a, n) :: h_out s))
      | VNull => heq s' s
      | _ => False
      end
  | VFree _ a => r = VVoid /\ heq s' (mkH (h_pool s) (filter (fun x => negb (N.eqb a (fst x))) (h_out s)))
  end.
