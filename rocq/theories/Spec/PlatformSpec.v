(** Specification of the platforms' init functions: which factory is in charge of a class, and with which priority range,
    as a function of what the program has done so far and of nothing else. *)
From Coq Require Import List ZArith Bool.
Import ListNotations.
From Verif Require Import Spec.FacadeSpec.
Open Scope Z_scope.

Inductive platform := StdCpp | Posix | Windows | Itron | TestDouble.
Definition platform_eqb (a b : platform) : bool :=
  match a, b with StdCpp, StdCpp | Posix, Posix | Windows, Windows | Itron, Itron | TestDouble, TestDouble => true | _, _ => false end.
(** what a program does: it calls a platform's init (the range is ignored by StdCpp, Itron and TestDouble, whose init has no parameters)
    or a static method *)
Inductive action := Init (p : platform) (lowest highest : Z) | Use (c : api).
(** the one-shot timer is the one class a platform (uITRON) has no factory for *)
Definition serves (p : platform) (k : kind) : bool := match p, k with Itron, KOneShot => false | _, _ => true end.
Section Spec.
  (** [home p k]: the factory object of platform [p] for class [k] *)
  Variable home : platform -> kind -> Z.
  (** the factory in charge of class [k]: that of the last init or registration that concerned the class, 0 if none *)
  Definition in_charge (k : kind) (hist : list action) : Z :=
    fold_left (fun f a => match a with
                          | Init p _ _ => if serves p k then home p k else f
                          | Use (Register k' f') => if kind_eqb k' k then f' else f
                          | Use _ => f
                          end) hist 0.
End Spec.
(** the range of the first init of [p] *)
Fixpoint first_range (p : platform) (hist : list action) : option (Z * Z) :=
  match hist with
  | [] => None
  | Init q lo hi :: rest => if platform_eqb q p then Some (lo, hi) else first_range p rest
  | _ :: rest => first_range p rest
  end.
(** [a] leaves alone who is in charge of [k] *)
Definition keeps (k : kind) (a : action) : Prop :=
  match a with Init p _ _ => serves p k = false | Use (Register k' _) => k' <> k | Use _ => True end.
(** a request for an object, a service or a number, as opposed to registration and destruction *)
Definition request (c : api) : Prop := match c with Register _ _ | Destroy _ _ => False | _ => True end.
