(** Which violations of IntrusiveList's contract its debug assertions are meant to notice. *)
From Coq Require Import List.
Import ListNotations.
From Verif Require Import Spec.ListFamSpec.
(** a list without elements where one is needed; a list spliced into itself; an element, or a range that begins, at end() *)
Definition caught (F : fam) (o : lop) : Prop :=
  match o with
  | LErase t _ | LPopBack t | LPopFront t | LFront t | LBack t => contents F t = []
  | LSpliceAll t _ x => t = x
  | LSpliceOne t _ x i | LSpliceRange t _ x i _ => i = t \/ i = x
  | _ => False
  end.
(** the call is made on live lists (and the element to be spliced is a node of one) *)
Definition on_live_lists (F : fam) (o : lop) : Prop :=
  match o with
  | LNew _ => True
  | LSpliceOne t _ x i => live F t /\ live F x /\ exists u, live F u /\ is_pos F u i
  | _ => forall u, In u (largs o) -> live F u
  end.
