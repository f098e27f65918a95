(** Data races.  A program of several threads is a step function [step : state -> label -> option (state * events)]; [who l] is the thread that
    makes step [l].  [acc s t] lists the plain shared variables that thread t reads or writes in the next step it makes from state [s]. *)
From Coq Require Import List.
Import ListNotations.

Inductive kind := Reads | Writes.
(** two threads are about to access the same variable, at least one of them writes: undefined behaviour in C++ *)
Definition race {L : Type} (acc : nat -> list (L * kind)) : Prop :=
  exists (t u : nat) (x : L) (k j : kind), t <> u /\ In (x, k) (acc t) /\ In (x, j) (acc u) /\ (k = Writes \/ j = Writes).

Section Complete.
  Context {State Label Event L Val : Type}.
  Variables (step : State -> Label -> option (State * list Event)) (who : Label -> nat) (acc : State -> nat -> list (L * kind)).
  Variable get : State -> L -> Val.               (* the value of a variable *)
  Variable alike : L -> State -> State -> Prop.   (* the states differ at most in the value of this variable *)
  (** [acc] leaves nothing out: a variable not written keeps its value; a variable neither read nor written has no influence *)
  Definition complete : Prop :=
    (forall s l s1 es x, step s l = Some (s1, es) -> ~ In (x, Writes) (acc s (who l)) -> get s1 x = get s x) /\
    (forall s s' l s1 es x, alike x s s' -> (forall k, ~ In (x, k) (acc s (who l))) -> step s l = Some (s1, es) ->
       exists s1', step s' l = Some (s1', es) /\ alike x s1 s1' /\ get s1' x = get s' x).
End Complete.
