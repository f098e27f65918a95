(** Specification of OSWrapper::FixedMemoryPool (mechanism/OSWrapper/FixedMemoryPool.h) with a bounded number of pools: a set of
    pools, each of them either not created or created with a block size, a number of blocks, and the blocks handed out. *)
From Coq Require Import List NArith Bool Arith.
Import ListNotations.
From Verif Require Import Spec.Linear.

Inductive pcall :=
| PCreate (blockSize poolSize : N)
| PDestroy (i : nat)                (* a pool is named by its position i *)
| PAlloc (i : nat)
| PFree (i : nat) (b : N)           (* block b of the pool *)
| PBlockSize (i : nat).
Inductive pres :=
| QVoid
| QPool (i : nat)                   (* create: this pool *)
| QNoSlot                           (* create: null, all pools are in use *)
| QRefused                          (* create: null, the system gave no memory pool *)
| QBad                              (* create: null, a size is zero *)
| QBlock (b : N)                    (* allocate: this block *)
| QNull                             (* allocate: null *)
| QSize (n : N).
Record pool := mkPool { po_size : N; po_count : N; po_out : list N }.
Definition pstate := nat -> option pool.
Definition p_new : pstate := fun _ => None.
Definition pset (f : pstate) (i : nat) (x : option pool) : pstate := fun j => if Nat.eqb j i then x else f j.
Definition peq (f g : pstate) : Prop := forall i, f i = g i.

(** [max]: number of pools; [blocks bs size]: how many blocks of [bs] bytes a pool of [size] bytes has *)
Definition pspec (max : nat) (blocks : N -> N -> N) (s : pstate) (t : nat) (c : pcall) (r : pres) (s' : pstate) : Prop :=
  match c with
  | PCreate bs size =>
      match r with
      | QPool i => i < max /\ s i = None /\ bs <> 0%N /\ size <> 0%N /\ (0 < blocks bs size)%N /\ peq s' (pset s i (Some (mkPool bs (blocks bs size) [])))
      | QNoSlot => (forall i, i < max -> s i <> None) /\ peq s' s
      | QRefused => (exists i, i < max /\ s i = None) /\ peq s' s
      | QBad => (bs = 0%N \/ size = 0%N) /\ peq s' s
      | _ => False
      end
  | PDestroy i => r = QVoid /\ peq s' (pset s i None)
  | PAlloc i =>
      match s i with
      | None => r = QNull /\ peq s' s
      | Some p =>
          match r with
          | QBlock b => (b < po_count p)%N /\ ~ In b (po_out p) /\ peq s' (pset s i (Some (mkPool (po_size p) (po_count p) (b :: po_out p))))
          | QNull => (forall b, (b < po_count p)%N -> In b (po_out p)) /\ peq s' s
          | _ => False
          end
      end
  | PFree i b =>
      r = QVoid /\
      match s i with
      | None => peq s' s
      | Some p => peq s' (pset s i (Some (mkPool (po_size p) (po_count p) (filter (fun x => negb (N.eqb b x)) (po_out p)))))
      end
  | PBlockSize i => (match s i with Some p => r = QSize (po_size p) | None => exists n, r = QSize n end) /\ peq s' s
  end.

Notation pevents := (list (event pcall pres)).
