(** Specification of a bounded family of system objects that clients create and destroy: event flags, mutexes, periodic timers
    (mechanism/OSWrapper/EventFlag.h, Mutex.h, PeriodicTimer.h).  An object exists or not; a timer is started or not (for the other kinds that bit is
    never used).  OTick and OThrow are actions of the system (agent 0): a callback of a timer begins; the callback of a timer ends by an
    exception, which stops the timer. *)
From Coq Require Import List Arith Bool.
Import ListNotations.
From Verif Require Import Spec.Linear.

Inductive ocall := OCreate | ODestroy (p : nat) | OStart (p : nat) | OStop (p : nat) | OIsStarted (p : nat) | OTick (p : nat) | OThrow (p : nat).
Inductive ores :=
| OObj (p : nat)      (* create: this object *)
| ONoRoom             (* create: null, all objects are in use *)
| ORefused            (* create: null, the system gave no object *)
| OVoid
| OBool (b : bool).
Definition ostate := nat -> option bool.
Definition o_none : ostate := fun _ => None.
Definition oset (f : ostate) (p : nat) (x : option bool) : ostate := fun q => if Nat.eqb q p then x else f q.
Definition oeq (f g : ostate) : Prop := forall p, f p = g p.

(** [max]: how many objects there can be *)
Definition ospec (max : nat) (s : ostate) (t : nat) (c : ocall) (r : ores) (s' : ostate) : Prop :=
  match c with
  | OCreate =>
      match r with
      | OObj p => p < max /\ s p = None /\ oeq s' (oset s p (Some false))
      | ONoRoom => (forall p, p < max -> s p <> None) /\ oeq s' s
      | ORefused => (exists p, p < max /\ s p = None) /\ oeq s' s
      | _ => False
      end
  | ODestroy p => r = OVoid /\ s p <> None /\ oeq s' (oset s p None)
  | OStart p => r = OVoid /\ s p <> None /\ oeq s' (oset s p (Some true))
  | OStop p | OThrow p => r = OVoid /\ s p <> None /\ oeq s' (oset s p (Some false))
  | OIsStarted p => (exists b, s p = Some b /\ r = OBool b) /\ oeq s' s
  | OTick p => r = OVoid /\ s p = Some true /\ oeq s' s
  end.
Notation oevents := (list (event ocall ores)).
