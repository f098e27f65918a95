(** Specification of BitPattern<T>: a list of w booleans, bit 0 first. *)
From Coq Require Import List ZArith Bool.
Import ListNotations.
Open Scope Z_scope.

Inductive bop := BSetAll | BSet (pos : Z) | BResetAll | BReset (pos : Z) | BFlipAll | BFlip (pos : Z)
               | BTest (pos : Z) | BAll | BAny | BNone | BValue | BSize
               | BAssign (v : Z).                      (* through operator T&(): a value of type T *)
Inductive bout := OUnitB | OBoolB (b : bool) | OValB (v : Z).

Definition upd (l : list bool) (n : nat) (b : bool) : list bool := firstn n l ++ b :: skipn (S n) l.
Definition bit (l : list bool) (pos : Z) : bool := nth (Z.to_nat pos) l false.
(** the unsigned number written by the bits *)
Fixpoint value (l : list bool) : Z := match l with [] => 0 | b :: l' => (if b then 1 else 0) + 2 * value l' end.

(** [bspec l o l' r]: from the bits [l], [o] yields [r] and leaves the bits [l'] *)
Definition bspec (l : list bool) (o : bop) (l' : list bool) (r : bout) : Prop :=
  match o with
  | BSetAll => l' = map (fun _ => true) l /\ r = OUnitB
  | BResetAll => l' = map (fun _ => false) l /\ r = OUnitB
  | BFlipAll => l' = map negb l /\ r = OUnitB
  | BSet p => l' = upd l (Z.to_nat p) true /\ r = OUnitB
  | BReset p => l' = upd l (Z.to_nat p) false /\ r = OUnitB
  | BFlip p => l' = upd l (Z.to_nat p) (negb (bit l p)) /\ r = OUnitB
  | BTest p => l' = l /\ r = OBoolB (bit l p)
  | BAll => l' = l /\ r = OBoolB (forallb (fun b => b) l)
  | BAny => l' = l /\ r = OBoolB (existsb (fun b => b) l)
  | BNone => l' = l /\ r = OBoolB (forallb negb l)
  | BValue => l' = l /\ r = OValB (value l)
  | BSize => l' = l /\ r = OValB (Z.of_nat (length l))
  | BAssign v => length l' = length l /\ value l' = v /\ r = OUnitB
  end.
Definition bpre (w : Z) (o : bop) : Prop :=
  match o with
  | BSet p | BReset p | BFlip p | BTest p => 0 <= p < w
  | BAssign v => 0 <= v < 2 ^ w
  | _ => True
  end.
Inductive bspec_run : list bool -> list bop -> list bool -> list bout -> Prop :=
| bs_nil l : bspec_run l [] l []
| bs_cons l o l1 r os l2 rs : bspec l o l1 r -> bspec_run l1 os l2 rs -> bspec_run l (o :: os) l2 (r :: rs).
