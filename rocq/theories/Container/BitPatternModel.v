(** Model of mechanism/Container/BitPattern.h for an unsigned type T of w = sizeof(T)*8 bits.  A T narrower than int
    (32 bits) is promoted to int before ~, <<, &, |, ^; the result is converted back to T (modulo 2^w). *)
From Coq Require Import List ZArith Bool.
Import ListNotations.
From Verif Require Import Spec.BitSpec.
Open Scope Z_scope.

Inductive bres (A : Type) := BOk (a : A) | BAssertFail | BUndef.
Arguments BOk {A}. Arguments BAssertFail {A}. Arguments BUndef {A}.

Section BP.
  Variable w : Z.
  Variable dbg : bool.

  (** static_cast<T> *)
  Definition castT (x : Z) : Z := x mod 2 ^ w.
  (** ~x after promotion: in int when w < 32, in T otherwise *)
  Definition bnot (x : Z) : Z := if w <? 32 then Z.lnot x else castT (Z.lnot x).
  (** static_cast<T>(1U) << pos after promotion: undefined when pos reaches the width of the promoted type (for int,
      already when the result does not fit) *)
  Definition shl1 (pos : Z) : bres Z :=
    if w <? 32 then (if pos <? 31 then BOk (Z.shiftl 1 pos) else BUndef)
    else (if pos <? w then BOk (castT (Z.shiftl 1 pos)) else BUndef).
  Definition dassert_pos (pos : Z) (k : bres (Z * bout)) : bres (Z * bout) :=
    if dbg then (if pos <? w then k else BAssertFail) else k.
  Definition with_shl (pos : Z) (k : Z -> bres (Z * bout)) : bres (Z * bout) :=
    match shl1 pos with BOk v => k v | BAssertFail => BAssertFail | BUndef => BUndef end.

  (** 22-23 constructors *)
  Definition b_init : Z := 0.
  Definition b_step (d : Z) (o : bop) : bres (Z * bout) :=
    match o with
    | BSize => BOk (d, OValB w)                                                                     (* 25-28 *)
    | BSetAll => BOk (castT (bnot (castT 0)), OUnitB)                                               (* 30-34 *)
    | BSet pos => dassert_pos pos (with_shl pos (fun v => BOk (castT (Z.lor d (castT v)), OUnitB)))   (* 36-41 *)
    | BResetAll => BOk (0, OUnitB)                                                                  (* 43-47 *)
    | BReset pos => dassert_pos pos (with_shl pos (fun v => BOk (castT (Z.land d (castT (bnot v))), OUnitB)))  (* 49-54 *)
    | BFlipAll => BOk (castT (bnot d), OUnitB)                                                      (* 56-60 *)
    | BFlip pos => dassert_pos pos (with_shl pos (fun v => BOk (castT (Z.lxor d (castT v)), OUnitB))) (* 62-67 *)
    | BValue => BOk (d, OValB d)                                                                    (* 69-77 *)
    | BAssign v => BOk (castT v, OUnitB)                                                            (* 74-77 *)
    | BTest pos => dassert_pos pos (with_shl pos (fun v => BOk (d, OBoolB (negb (Z.land d (castT v) =? 0)))))  (* 79-83 *)
    | BAll => BOk (d, OBoolB (d =? castT (bnot (castT 0))))                                         (* 85-88 *)
    | BAny => BOk (d, OBoolB (negb (d =? 0)))                                                       (* 90-93 *)
    | BNone => BOk (d, OBoolB (d =? 0))                                                             (* 95-98 *)
    end.
  Fixpoint b_run (d : Z) (os : list bop) : bres (Z * list bout) :=
    match os with
    | [] => BOk (d, [])
    | o :: os' =>
        match b_step d o with
        | BOk (d', r) => match b_run d' os' with
                         | BOk (d'', rs) => BOk (d'', r :: rs) | BAssertFail => BAssertFail | BUndef => BUndef
                         end
        | BAssertFail => BAssertFail
        | BUndef => BUndef
        end
    end.
End BP.
