(** Execution model for the container code: raw element memory, element lifetimes, exceptions, assertions and
    undefined behaviour.  [V] is the element type. *)
From Verif Require Import Base.ZList.
From Verif Require Export Spec.Exn.

Section M.
  Context {V : Type}.

  (** A container object.  [mem i] is slot i of m_virtualBuf: None = raw storage, Some v = live element.
      [mb], [me]: m_begin and m_end (FixedVector has only m_end; [mb] is then 0).
      [fuse]: None = element operations do not throw; Some k = the (k+1)-th element construction/assignment
      from now on throws.
      FixedVector.h:43-50, FixedDeque.h:217-227. *)
  Record st := mkst { mem : Z -> option V; mb : Z; me : Z; fuse : option nat }.

  Inductive res (A : Type) :=
  | Ok (a : A) (s : st)
  | Thr (e : exn) (s : st)       (* a C++ exception propagates *)
  | AssertFail (s : st)          (* DEBUG_ASSERT fired *)
  | UB                           (* undefined behaviour *)
  | Diverge.                     (* loop fuel exhausted *)
  Arguments Ok {A}. Arguments Thr {A}. Arguments AssertFail {A}. Arguments UB {A}. Arguments Diverge {A}.

  Definition M (A : Type) := st -> res A.
  Definition ret {A} (a : A) : M A := fun s => Ok a s.
  Definition bind {A C} (m : M A) (k : A -> M C) : M C :=
    fun s => match m s with
             | Ok a s' => k a s'
             | Thr e s' => Thr e s'
             | AssertFail s' => AssertFail s'
             | UB => UB
             | Diverge => Diverge
             end.
  Definition throw {A} (e : exn) : M A := fun s => Thr e s.
  Definition ub {A} : M A := fun _ => UB.
  Definition diverge {A} : M A := fun _ => Diverge.

  (** DEBUG_ASSERT: Assertion.h:190-200; [dbg] says whether assertions are compiled in. *)
  Definition dassert (dbg b : bool) : M unit :=
    fun s => if dbg then (if b then Ok tt s else AssertFail s) else Ok tt s.

  Definition upd (f : Z -> option V) (i : Z) (x : option V) : Z -> option V :=
    fun j => if Z.eqb j i then x else f j.

  Definition get_mb : M Z := fun s => Ok (mb s) s.
  Definition get_me : M Z := fun s => Ok (me s) s.
  Definition set_mb (x : Z) : M unit := fun s => Ok tt (mkst (mem s) x (me s) (fuse s)).
  Definition set_me (x : Z) : M unit := fun s => Ok tt (mkst (mem s) (mb s) x (fuse s)).

  (** slots of the buffer: [0, B) *)
  Variable B : Z.
  Variable torn : V.     (* value of an element whose assignment threw *)
  Variable dflt : V.     (* T() *)

  Definition inbuf (i : Z) : bool := (0 <=? i) && (i <? B).

  (** read an element *)
  Definition rd (i : Z) : M V :=
    fun s => if inbuf i then match mem s i with Some v => Ok v s | None => UB end else UB.

  (** private/Construct.h:8-12 [construct(p, val)]: placement new.  Over a live element it is counted as UB: the
      old element would never be destroyed.  If the copy constructor throws the slot stays raw. *)
  Definition ctor (i : Z) (v : V) : M unit :=
    fun s => if inbuf i then
               match mem s i with
               | Some _ => UB
               | None =>
                 match fuse s with
                 | Some O => Thr ElemExn (mkst (mem s) (mb s) (me s) None)
                 | Some (S k) => Ok tt (mkst (upd (mem s) i (Some v)) (mb s) (me s) (Some k))
                 | None => Ok tt (mkst (upd (mem s) i (Some v)) (mb s) (me s) None)
                 end
               end
             else UB.

  (** private/Construct.h:14-18 [construct(p)]: value-initialises *)
  Definition ctor_default (i : Z) : M unit := ctor i dflt.

  (** element assignment [*p = v]; if it throws the target stays live with an unspecified value *)
  Definition asg (i : Z) (v : V) : M unit :=
    fun s => if inbuf i then
               match mem s i with
               | None => UB
               | Some _ =>
                 match fuse s with
                 | Some O => Thr ElemExn (mkst (upd (mem s) i (Some torn)) (mb s) (me s) None)
                 | Some (S k) => Ok tt (mkst (upd (mem s) i (Some v)) (mb s) (me s) (Some k))
                 | None => Ok tt (mkst (upd (mem s) i (Some v)) (mb s) (me s) None)
                 end
               end
             else UB.

  (** private/Construct.h:20-24 [destroy(p)] *)
  Definition dtor (i : Z) : M unit :=
    fun s => if inbuf i then
               match mem s i with
               | None => UB
               | Some _ => Ok tt (mkst (upd (mem s) i None) (mb s) (me s) (fuse s))
               end
             else UB.

  (** a [const T&] argument: a value living outside the container, or a reference to slot i of the container *)
  Inductive ref := RVal (v : V) | RSlot (i : Z).
  Definition deref (r : ref) : M V :=
    match r with RVal v => ret v | RSlot i => rd i end.

  (** reading an input range by offset; past the end is UB *)
  Definition rdin (xs : list V) (i : Z) : M V :=
    if i <? 0 then ub else match nth_error xs (Z.to_nat i) with Some v => ret v | None => ub end.

  (** a C++ loop: [for (a = ...; cond(a); ) a = body(a)] *)
  Fixpoint loop {A} (fuel : nat) (cond : A -> M bool) (body : A -> M A) (a : A) : M A :=
    bind (cond a) (fun c =>
      if c then match fuel with
                | O => diverge
                | S f => bind (body a) (fun a' => loop f cond body a')
                end
      else ret a).
End M.

Arguments st : clear implicits.
Arguments res : clear implicits.
Arguments M : clear implicits.
Arguments ref : clear implicits.
Arguments Ok {V A}. Arguments Thr {V A}. Arguments AssertFail {V A}.
Arguments UB {V A}. Arguments Diverge {V A}.
Arguments RVal {V}. Arguments RSlot {V}.

Notation "x <- m ;; k" := (bind m (fun x => k)) (at level 90, m at level 89, right associativity).
Notation "m ;;; k" := (bind m (fun _ => k)) (at level 90, right associativity).
