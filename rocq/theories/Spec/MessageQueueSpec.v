(** Specification of OSWrapper::MessageQueue<T> (mechanism/OSWrapper/MessageQueue.h:15-254): a FIFO queue of at most [N]
    messages with atomic operations.  send on a full queue and receive on an empty one have no successful step. *)
From Coq Require Import List ZArith.
Import ListNotations.
From Verif Require Import Spec.OSError.

Section Spec.
  Variable V : Type.          (* messages *)
  Variable N : nat.           (* maxSize *)

  Inductive qcall :=
  | QSend (v : V) (ms : Z)             (* send / trySend / timedSend; -1 is Timeout::FOREVER, 0 Timeout::POLLING *)
  | QRecv (store : bool) (ms : Z)      (* receive / tryReceive / timedReceive; store: the pointer is not null *)
  | QGetSize
  | QGetMaxSize.
  Inductive qres :=
  | RSend (e : err)
  | RRecv (e : err) (msg : option V)   (* msg: what was stored through the pointer *)
  | RNum (n : Z)
  | RFailure.                          (* the exception Assertion::Failure left the call *)
  Definition limited (ms : Z) : Prop := ms <> (-1)%Z.

  Definition qspec (q : list V) (t : nat) (c : qcall) (r : qres) (q' : list V) : Prop :=
    match c with
    | QSend v ms =>
        (r = RSend OK /\ length q < N /\ q' = q ++ [v]) \/
        (r = RSend TimedOut /\ limited ms /\ q' = q) \/
        ((r = RSend OtherError \/ r = RFailure) /\ q' = q)               (* copying the message threw, or no lock *)
    | QRecv store ms =>
        (exists v, q = v :: q' /\ r = RRecv OK (if store then Some v else None)) \/
        (r = RRecv TimedOut None /\ limited ms /\ q' = q) \/
        ((r = RRecv OtherError None \/ r = RFailure) /\ q' = q)
    | QGetSize => r = RNum (Z.of_nat (length q)) /\ q' = q
    | QGetMaxSize => r = RNum (Z.of_nat N) /\ q' = q
    end.
End Spec.
Arguments QSend {V}. Arguments QRecv {V}. Arguments QGetSize {V}. Arguments QGetMaxSize {V}.
Arguments RSend {V}. Arguments RRecv {V}. Arguments RNum {V}. Arguments RFailure {V}.

(** in a sequence of effects: the messages sent, and the results of the successful receives *)
Section Effects.
  Variable V : Type.
  Definition sent (x : nat * qcall V * qres V) : list V := match x with (_, QSend v _, RSend OK) => [v] | _ => [] end.
  Definition received (x : nat * qcall V * qres V) : list (bool * option V) :=
    match x with (_, QRecv store _, RRecv OK m) => [(store, m)] | _ => [] end.
  Definition all_sent (l : list (nat * qcall V * qres V)) : list V := flat_map sent l.
  Definition all_received (l : list (nat * qcall V * qres V)) : list (bool * option V) := flat_map received l.
  (** the receive delivered this message (or dropped it, when its pointer was null) *)
  Definition delivers (v : V) (x : bool * option V) : Prop := snd x = if fst x then Some v else None.
End Effects.
Arguments all_sent {V}. Arguments all_received {V}. Arguments delivers {V}. Arguments sent {V}. Arguments received {V}.
