(** What a user of LockGuard relies on: the mutex operations of a scope are well bracketed. *)
From Coq Require Import List.
Import ListNotations.
From Verif Require Import Spec.OSError.

Inductive gevent :=
| GLock (m : nat) (r : err)       (* m->lock() was called and returned r *)
| GAdopt (m : nat)                (* a guard adopted the lock of m *)
| GUnlock (m : nat)               (* m->unlock() was called *)
| GAct (a : nat).                 (* anything else the program does *)

Inductive bracketed : list gevent -> Prop :=
| br_nil : bracketed []
| br_act a w : bracketed w -> bracketed (GAct a :: w)
| br_lock m w1 w2 : bracketed w1 -> bracketed w2 -> bracketed (GLock m OK :: w1 ++ GUnlock m :: w2)
| br_fail m e w : e <> OK -> bracketed w -> bracketed (GLock m e :: w)          (* not obtained: never unlocked *)
| br_adopt m w1 w2 : bracketed w1 -> bracketed w2 -> bracketed (GAdopt m :: w1 ++ GUnlock m :: w2).

(** nesting depth of [m] after the events, starting at [d]; None: an unlock without a matching lock *)
Fixpoint depth_after (m : nat) (d : nat) (w : list gevent) : option nat :=
  match w with
  | [] => Some d
  | GLock n OK :: w' | GAdopt n :: w' => depth_after m (if Nat.eqb n m then S d else d) w'
  | GUnlock n :: w' => if Nat.eqb n m then match d with O => None | S k => depth_after m k w' end else depth_after m d w'
  | _ :: w' => depth_after m d w'
  end.
