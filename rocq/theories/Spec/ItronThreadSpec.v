(** Specification of a Thread object with its priority (mechanism/OSWrapper/Thread.h): [tspec] of ThreadSpec plus the priority,
    which setPriority replaces and getPriority reports.  Agent 0 is the thread itself. *)
From Coq Require Import List ZArith.
Import ListNotations.
From Verif Require Import Spec.OSError Spec.Linear Spec.ThreadSpec.

Inductive icall := IT (c : tcall) | ISetPriority (p : Z) | IGetPriority.
Inductive ires := IR (r : tres) | IPrio (p : Z).
(** [resolve t p old q]: the priority p asked for by agent t stands for q when the thread's priority is [old] *)
Definition ispec (resolve : nat -> Z -> Z -> Z -> Prop) (s : tstate * Z) (t : nat) (c : icall) (r : ires) (s' : tstate * Z) : Prop :=
  match c with
  | IT c0 => (exists r0, r = IR r0 /\ tspec (fst s) t c0 r0 (fst s')) /\ snd s' = snd s
  | ISetPriority p => r = IR RVoid /\ fst s' = fst s /\ resolve t p (snd s) (snd s')
  | IGetPriority => r = IPrio (snd s) /\ s' = s
  end.
(** the part of a run that ThreadSpec talks about *)
Definition thread_part (l : list (nat * icall * ires)) : list (nat * tcall * tres) :=
  flat_map (fun x => match x with (t, IT c, IR r) => [(t, c, r)] | _ => [] end) l.
