(** What "how long a call took" means: events stamped with the time (in milliseconds) at which they happened. *)
From Coq Require Import List ZArith Arith Bool.
Import ListNotations.
From Verif Require Import Spec.OSError Spec.Linear Spec.EventFlagSpec Spec.MutexSpec Spec.MessageQueueSpec.
Open Scope Z_scope.

Section Spec.
  Variables C R : Type.
  (** a call or return of thread [t] *)
  Definition about (t : nat) (e : event C R) : bool := match e with Call u _ | Ret u _ => Nat.eqb u t | Eff _ _ _ => false end.
  (** thread [t] made call [c] at time [t0] and has not returned yet *)
  Definition pending (es : list (Z * event C R)) (t : nat) (t0 : Z) (c : C) : Prop :=
    exists a b, es = a ++ (t0, Call t c) :: b /\ forall x, In x b -> about t (snd x) = false.
  (** thread [t] made call [c] at time [t0], and it returned [r] at time [t1] *)
  Definition took (es : list (Z * event C R)) (t : nat) (t0 : Z) (c : C) (t1 : Z) (r : R) : Prop :=
    exists a b d, es = a ++ (t0, Call t c) :: b ++ (t1, Ret t r) :: d /\ forall x, In x b -> about t (snd x) = false.
End Spec.
Arguments about {C R}. Arguments pending {C R}. Arguments took {C R}.

(** a time limit below zero (other than "forever") ends the wait at once, like zero *)
Definition wait_ms (ms : Z) : Z := Z.max 0 ms.

(** the time limit of a call, in milliseconds: None is "no limit"; calls that do not wait have limit 0 *)
Definition of_ms (ms : Z) : option Z := if ms =? -1 then None else Some ms.                  (* -1: Timeout::FOREVER *)
Definition event_limit (c : ecall) : option Z :=
  match c with
  | EWaitAny k | EWaitOne _ k | EWait _ _ _ k => match k with Forever => None | Polling => Some 0 | Within ms => of_ms ms end
  | _ => Some 0
  end.
Definition mutex_limit (c : mcall) : option Z :=
  match c with MLock => None | MTryLock => Some 0 | MTimedLock ms => of_ms ms | MUnlock => Some 0 end.
Definition queue_limit {V} (c : qcall V) : option Z :=
  match c with QSend _ ms | QRecv _ ms => of_ms ms | QGetSize | QGetMaxSize => Some 0 end.
(** results that say "timed out" *)
Definition event_timed_out (r : eres) : Prop := exists v, r = ERes TimedOut v.
Definition mutex_timed_out (r : err) : Prop := r = TimedOut.
Definition queue_timed_out {V} (r : qres V) : Prop := r = RSend TimedOut \/ exists v, r = RRecv TimedOut v.

(** a "timed out" result does not come before the limit has passed *)
Definition not_early {C R} (limit : C -> option Z) (timed_out : R -> Prop) (es : list (Z * event C R)) : Prop :=
  forall t t0 c t1 r, took es t t0 c t1 r -> timed_out r -> exists ms, limit c = Some ms /\ t0 + wait_ms ms <= t1.
(** a call with limit [ms] takes at most [k] times [ms]: it has returned by then, and while it runs its time is not up *)
Definition not_late {C R} (limit : C -> option Z) (k : Z) (now : Z) (es : list (Z * event C R)) : Prop :=
  (forall t t0 c ms t1 r, took es t t0 c t1 r -> limit c = Some ms -> t0 <= t1 <= t0 + k * wait_ms ms) /\
  (forall t t0 c ms, pending es t t0 c -> limit c = Some ms -> t0 <= now <= t0 + k * wait_ms ms).
