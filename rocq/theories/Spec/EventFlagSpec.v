(** Specification of OSWrapper::EventFlag (mechanism/OSWrapper/EventFlag.h:25-256, the documentation comments): an
    object holding a pattern of [w] bits, with atomic operations.  A wait call that cannot succeed yet has no step. *)
From Coq Require Import List ZArith Bool.
Import ListNotations.
From Verif Require Import Spec.OSError.
Open Scope Z_scope.

(** the three families waitXxx(), tryWaitXxx() and timedWaitXxx(tmout), tmout in milliseconds (-1 is Timeout::FOREVER) *)
Inductive patience := Forever | Polling | Within (ms : Z).
Inductive mode := ModeOR | ModeAND | ModeInvalid.
Inductive ecall :=
| EWaitAny (k : patience)
| EWaitOne (pos : Z) (k : patience)
| EWait (P : Z) (m : mode) (rel : bool) (k : patience)     (* rel: releasedPattern is not null *)
| ESetAll | ESetOne (pos : Z) | ESet (P : Z)
| EResetAll | EResetOne (pos : Z) | EReset (P : Z)
| EGet.
Inductive eres := ERes (e : err) (released : option Z) | EPat (p : Z).

Section Spec.
  Variable w : Z.                 (* number of bits of Pattern *)
  Variable autoReset : bool.

  Definition has (p i : Z) : Prop := Z.testbit p i = true.
  (** the condition a wait call waits for; None: the call is rejected *)
  Definition econd (c : ecall) : option (Z -> Prop) :=
    match c with
    | EWaitAny _ => Some (fun p => exists i, 0 <= i < w /\ has p i)
    | EWaitOne pos _ => if pos <? w then Some (fun p => has p pos) else None
    | EWait P m _ _ =>
        if P =? 0 then None else
        match m with
        | ModeOR => Some (fun p => exists i, 0 <= i < w /\ has P i /\ has p i)
        | ModeAND => Some (fun p => forall i, 0 <= i < w -> has P i -> has p i)
        | ModeInvalid => None
        end
    | _ => None
    end.
  Definition is_wait (c : ecall) : bool := match c with EWaitAny _ | EWaitOne _ _ | EWait _ _ _ _ => true | _ => false end.
  Definition is_set (c : ecall) : bool := match c with ESetAll | ESetOne _ | ESet _ => true | _ => false end.
  Definition forever (c : ecall) : Prop :=
    match c with
    | EWaitAny k | EWaitOne _ k | EWait _ _ _ k => k = Forever \/ k = Within (-1)
    | _ => True
    end.
  Definition wants_released (c : ecall) : bool := match c with EWait _ _ rel _ => rel | _ => false end.

  Definition rejected (r : eres) (p p' : Z) : Prop := r = ERes InvalidParameter None /\ p' = p.
  Definition only_bit_changes (p p' pos : Z) (b : bool) : Prop :=
    forall i, 0 <= i -> Z.testbit p' i = if i =? pos then b else Z.testbit p i.

  Definition espec (p : Z) (t : nat) (c : ecall) (r : eres) (p' : Z) : Prop :=
    0 <= p' < 2 ^ w /\
    match c with
    | EWaitAny _ | EWaitOne _ _ | EWait _ _ _ _ =>
        match econd c with
        | None => rejected r p p'
        | Some Q =>
            (Q p /\ r = ERes OK (if wants_released c then Some p else None) /\ p' = if autoReset then 0 else p) \/
            (~ Q p /\ ~ forever c /\ r = ERes TimedOut None /\ p' = p)
        end
    | ESetAll => r = ERes OK None /\ forall i, 0 <= i < w -> has p' i
    | EResetAll => r = ERes OK None /\ p' = 0
    | ESetOne pos => if pos <? w then r = ERes OK None /\ only_bit_changes p p' pos true else rejected r p p'
    | EResetOne pos => if pos <? w then r = ERes OK None /\ only_bit_changes p p' pos false else rejected r p p'
    | ESet P => r = ERes OK None /\ forall i, 0 <= i -> Z.testbit p' i = Z.testbit p i || Z.testbit P i
    | EReset P => r = ERes OK None /\ forall i, 0 <= i -> Z.testbit p' i = Z.testbit p i && negb (Z.testbit P i)
    | EGet => r = EPat p /\ p' = p
    end.

  (** arguments of the C++ types: an unsigned pattern, a size_t position *)
  Definition ecall_ok (c : ecall) : Prop :=
    match c with
    | EWait P _ _ _ | ESet P | EReset P => 0 <= P < 2 ^ w
    | EWaitOne pos _ | ESetOne pos | EResetOne pos => 0 <= pos
    | _ => True
    end.
End Spec.

(** a wait call that returned OK, in a sequence of effects *)
Definition released (x : nat * ecall * eres) : Prop := is_wait (snd (fst x)) = true /\ exists v, snd x = ERes OK v.
