(** Specification of OSWrapper::Thread (mechanism/OSWrapper/Thread.h): a thread object is finished, started (its runnable will
    run), running or destroyed.  TBegin and TEnd are the actions of the thread itself: it enters and leaves Runnable::run. *)
From Coq Require Import List ZArith.
Import ListNotations.
From Verif Require Import Spec.OSError Spec.Linear.

Inductive tcall := TStart | TWait (ms : Z) (* -1 is Timeout::FOREVER, 0 POLLING *) | TIsFinished | TDestroy | TBegin | TEnd.
Inductive tres := RVoid | RErr (e : err) | RBool (b : bool).
Inductive tstate := Finished | Started | Running | Destroyed.

Definition tspec (s : tstate) (t : nat) (c : tcall) (r : tres) (s' : tstate) : Prop :=
  match c with
  | TStart => r = RVoid /\ s' = match s with Finished => Started | _ => s end          (* on a running thread: nothing *)
  | TWait ms => (r = RErr OK /\ s = Finished /\ s' = s) \/ (r = RErr TimedOut /\ ms <> (-1)%Z /\ s <> Finished /\ s' = s)
  | TIsFinished => r = RBool (match s with Finished => true | _ => false end) /\ s' = s
  | TDestroy => r = RVoid /\ s = Finished /\ s' = Destroyed
  | TBegin => r = RVoid /\ s = Started /\ s' = Running
  | TEnd => r = RVoid /\ s = Running /\ s' = Finished
  end.

(** what happened to the runnable: effective starts, begins and ends of run() *)
Inductive mark := MStart | MBegin | MEnd.
Fixpoint marks (s : tstate) (l : list (nat * tcall * tres)) : list mark :=
  match l with
  | [] => []
  | (_, TStart, _) :: l' => match s with Finished => MStart :: marks Started l' | _ => marks s l' end
  | (_, TBegin, _) :: l' => MBegin :: marks Running l'
  | (_, TEnd, _) :: l' => MEnd :: marks Finished l'
  | (_, TDestroy, _) :: l' => marks Destroyed l'
  | _ :: l' => marks s l'
  end.
(** one run per effective start: [k] complete rounds, and perhaps one in progress *)
Definition one_run_per_start (s : tstate) (m : list mark) : Prop :=
  exists k, m = concat (repeat [MStart; MBegin; MEnd] k) ++ match s with Started => [MStart] | Running => [MStart; MBegin] | _ => [] end.

(** clients destroy a thread object only when every other call on it has returned, and do not use it afterwards.
    The thread itself is agent 0. *)
Definition is_open (t : nat) (h : list (event tcall tres)) : bool :=
  fold_left (fun b e => match e with Call u _ => if Nat.eqb u t then true else b | Ret u _ => if Nat.eqb u t then false else b | Eff _ _ _ => b end) h false.
Definition proper_destroy (h : list (event tcall tres)) : Prop :=
  forall h1 t h2, h = h1 ++ Call t TDestroy :: h2 ->
    (forall u, u <> 0 -> is_open u h1 = false) /\ (forall u c, In (Call u c) h2 -> u = 0).
