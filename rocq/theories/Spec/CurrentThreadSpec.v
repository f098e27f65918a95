(** Specification of OSWrapper::Thread::create, destroy and getCurrentThread (mechanism/OSWrapper/Thread.h) as far as the identity of
    threads goes: getCurrentThread returns the Thread object of the thread that calls it, and null to a thread that the library did not create. *)
From Coq Require Import List.
Import ListNotations.
From Verif Require Import Spec.Linear.

Inductive tcall := TCreate | TDestroy (p : nat) | TCurrent.
Inductive why := Full | NoBlock | Refused.
Inductive tres :=
| TThread (p : nat)           (* create: this Thread object *)
| TNull (w : why)             (* create: null *)
| TVoid
| TCur (r : option nat).      (* getCurrentThread *)

(** who a thread of the system is: created outside of the library, or the thread of this Thread object *)
Inductive owner := Foreign | Own (p : nat).
Definition thread_of (o : option owner) : option nat := match o with Some (Own p) => Some p | _ => None end.

(** the Thread objects that clients hold: returned by create, and destroy not called yet *)
Definition in_use (p : nat) (es : list (event tcall tres)) : Prop :=
  exists e1 e2 t, es = e1 ++ Ret t (TThread p) :: e2 /\ forall u, ~ In (Call u (TDestroy p)) e2.
