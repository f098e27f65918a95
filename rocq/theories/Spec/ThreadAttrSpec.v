(** Specification of a thread's attributes (mechanism/OSWrapper/Thread.h:77-230): priority, priority at creation, name.  A thread object is
    named by a number; the threads that call are numbers too, and thread [x] is the thread of object [x] once that exists.  A caller that
    is not a thread of the library has no object. *)
From Coq Require Import List ZArith Bool Arith.
Import ListNotations.
From Verif Require Import Spec.Linear.
Local Open Scope Z_scope.

Inductive acall :=
| ACreate (p : Z) (n : nat)          (* a name is a pointer to a string *)
| ASet (x : nat) (p : Z)             (* setPriority *)
| AGet (x : nat)                     (* getPriority *)
| AInit (x : nat)                    (* getInitialPriority *)
| AName (x : nat) (n : nat)          (* setName *)
| AGetName (x : nat).                (* getName *)
Inductive ares := RVoid | RInt (v : Z) | RStr (n : nat) | RThread (x : nat) | RNull.

Record attr := mkAttr { at_prio : Z; at_init : Z; at_name : nat }.
Definition astate := nat -> option attr.
Definition a_none : astate := fun _ => None.
Definition aset (f : astate) (x : nat) (o : attr) : astate := fun y => if Nat.eqb y x then Some o else f y.
Definition aeq (f g : astate) : Prop := forall x, f x = g x.

(** Thread.h:77: the argument that asks for the caller's priority *)
Definition INHERIT : Z := -1.
Section Spec.
  Variable direct : Z -> bool.       (* the priorities that are set as given; with any other the caller's is set *)
  Variable normal : Z.               (* the priority of a caller that is no thread of the library *)

  Definition own_priority (s : astate) (t : nat) : Z := match s t with Some o => at_prio o | None => normal end.
  Definition resolved (s : astate) (t : nat) (p : Z) : Z := if direct p then p else own_priority s t.

  Definition attr_spec (s : astate) (t : nat) (c : acall) (r : ares) (s' : astate) : Prop :=
    match c with
    | ACreate p n =>
        match r with
        | RThread x => s x = None /\ aeq s' (aset s x (mkAttr (resolved s t p) (resolved s t p) n))
        | RNull => aeq s' s
        | _ => False
        end
    | ASet x p => exists o, s x = Some o /\ r = RVoid /\ aeq s' (aset s x (mkAttr (resolved s t p) (at_init o) (at_name o)))
    | AGet x => exists o, s x = Some o /\ r = RInt (at_prio o) /\ aeq s' s
    | AInit x => exists o, s x = Some o /\ r = RInt (at_init o) /\ aeq s' s
    | AName x n => exists o, s x = Some o /\ r = RVoid /\ aeq s' (aset s x (mkAttr (at_prio o) (at_init o) n))
    | AGetName x => exists o, s x = Some o /\ r = RStr (at_name o) /\ aeq s' s
    end.
  (** the same, except that an inherited priority may be any *)
  Definition attr_spec_loose (s : astate) (t : nat) (c : acall) (r : ares) (s' : astate) : Prop :=
    match c with
    | ACreate p n =>
        match r with
        | RThread x => s x = None /\ exists v, (direct p = true -> v = p) /\ aeq s' (aset s x (mkAttr v v n))
        | RNull => aeq s' s
        | _ => False
        end
    | ASet x p => exists o v, s x = Some o /\ r = RVoid /\ (direct p = true -> v = p) /\ aeq s' (aset s x (mkAttr v (at_init o) (at_name o)))
    | _ => attr_spec s t c r s'
    end.
  (** the call asks for the caller's priority *)
  Definition inherits (c : acall) : Prop := match c with ACreate p _ | ASet _ p => direct p = false | _ => False end.
  (** a thread that inherits has its priority set by itself only *)
  Definition own_master (es : list (event acall ares)) : Prop :=
    forall t x p c, In (Call t (ASet x p)) es -> t <> x -> In (Call x c) es -> ~ inherits c.
End Spec.
