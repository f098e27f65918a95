(** Model of mechanism/Container/Array.h: T m_buf[Size].  Reading or writing outside m_buf is undefined (ArrUB); element
    copies and comparisons are assumed not to throw. *)
From Coq Require Import List ZArith Bool.
Import ListNotations.
From Verif Require Import Base.ZList Spec.Exn.
Open Scope Z_scope.

Inductive ares (A : Type) := ArrOk (a : A) | ArrThrow (e : exn) | ArrUB | ArrDiverge.
Arguments ArrOk {A}. Arguments ArrThrow {A}. Arguments ArrUB {A}. Arguments ArrDiverge {A}.

Section Arr.
  Context {V : Type}.
  Variable Size : Z.                                 (* template parameter *)
  Definition a_load (m : list V) (p : Z) : ares V :=
    if p <? 0 then ArrUB else match nth_error m (Z.to_nat p) with Some v => ArrOk v | None => ArrUB end.
  Definition a_store (m : list V) (p : Z) (v : V) : ares (list V) :=
    if (p <? 0) || (Size <=? p) then ArrUB else ArrOk (firstn (Z.to_nat p) m ++ v :: skipn (S (Z.to_nat p)) m).
  Definition arr_size : Z := Size.                                                   (* 37-40 *)
  Definition arr_empty : bool := arr_size =? 0.                                      (* 47-50 *)
  Definition arr_begin : Z := 0.                                                     (* 88-96 *)
  Definition arr_end : Z := arr_size.                                                (* 98-106 *)
  Definition arr_index (m : list V) (idx : Z) : ares V := a_load m (arr_begin + idx). (* 52-60 *)
  Definition arr_at (m : list V) (idx : Z) : ares V :=                               (* 62-76 *)
    if arr_size <=? idx then ArrThrow OutOfRange else a_load m (arr_begin + idx).
  Definition arr_front (m : list V) : ares V := a_load m arr_begin.                  (* 129-137 *)
  Definition arr_back (m : list V) : ares V := a_load m (arr_end - 1).               (* 139-147 *)
  (** 149-154 fill *)
  Fixpoint fill_loop (fuel : nat) (m : list V) (i : Z) (d : V) : ares (list V) :=
    if i <? arr_end then
      match fuel with
      | O => ArrDiverge
      | S f => match a_store m i d with ArrOk m' => fill_loop f m' (i + 1) d | ArrThrow e => ArrThrow e | ArrUB => ArrUB | ArrDiverge => ArrDiverge end
      end
    else ArrOk m.
  Definition arr_fill (fuel : nat) (m : list V) (d : V) : ares (list V) := fill_loop fuel m arr_begin d.
  (** 158-173 operator==, operator!= *)
  Variable eqb : V -> V -> bool.
  Fixpoint eq_loop (fuel : nat) (x y : list V) (i : Z) : ares bool :=
    if i <? Size then
      match fuel with
      | O => ArrDiverge
      | S f => match arr_index x i, arr_index y i with
               | ArrOk a, ArrOk b => if negb (eqb a b) then ArrOk false else eq_loop f x y (i + 1)
               | _, _ => ArrUB
               end
      end
    else ArrOk true.
  Definition arr_eq (fuel : nat) (x y : list V) : ares bool := eq_loop fuel x y 0.
  Definition arr_neq (fuel : nat) (x y : list V) : ares bool :=
    match arr_eq fuel x y with ArrOk b => ArrOk (negb b) | r => r end.
End Arr.
