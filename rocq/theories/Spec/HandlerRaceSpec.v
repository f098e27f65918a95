(** What may happen to uncaught-exception handlers while threads run: a trace of the events, and which handler is set at a point of it. *)
From Coq Require Import String List Arith.
Import ListNotations.
From Verif Require Import Spec.HandlerSpec.

(** Thread, OneShotTimer and PeriodicTimer each have a default handler of their own *)
Inductive class := ThreadC | OneShotC | PeriodicC.
(** a place where a handler is kept: an object's own handler, the default of a class, and the one a ThreadPool reports *)
Inductive place := OfObject (r : nat) | Default (k : class) | OfPool.
Inductive hev :=
| EvBegin (r : nat)                          (* object r (thread, timer) calls run() *)
| EvEnd (r : nat)                            (* run() returned *)
| EvThrow (r : nat) (x : exn)                (* run() threw x *)
| EvHandle (r : nat) (h : nat) (m : string)  (* handler h is called for object r with message m *)
| EvUnhandled (r : nat)                      (* the exception is dropped: no handler *)
| EvStopThrew (r : nat)                      (* the exception is dropped: the timer's stop() threw another one *)
| EvHandled (r : nat)                        (* the handler is over *)
| EvSet (t : nat) (p : place) (h : option nat)   (* agent t sets the handler kept in p (None: null) *)
| EvGet (t : nat) (p : place) (h : option nat)   (* agent t asks for it and gets h *)
| EvPoolSet (t : nat) (h : option nat)       (* agent t calls ThreadPool::setUncaughtExceptionHandler(h) *)
| EvPoolDone (t : nat).                      (* ... and it returns *)

Definition class_eqb (a b : class) : bool :=
  match a, b with ThreadC, ThreadC | OneShotC, OneShotC | PeriodicC, PeriodicC => true | _, _ => false end.
Definition place_eqb (p q : place) : bool :=
  match p, q with OfObject r, OfObject u => Nat.eqb r u | Default a, Default b => class_eqb a b | OfPool, OfPool => true | _, _ => false end.
(** the handler kept in p after the trace: what was set last, none at the beginning *)
Fixpoint handler_after (start : option nat) (es : list hev) (p : place) : option nat :=
  match es with
  | [] => start
  | EvSet _ q h :: es' => handler_after (if place_eqb p q then h else start) es' p
  | _ :: es' => handler_after start es' p
  end.
Definition handler_now (es : list hev) (p : place) : option nat := handler_after None es p.

(** the exception of object r has been taken care of *)
Definition settles (r : nat) (e : hev) : Prop :=
  match e with EvHandle u _ _ | EvUnhandled u | EvStopThrew u => u = r | _ => False end.
(** object r threw x after a, and that is still being looked after at the end of the trace *)
Definition dispatching (es : list hev) (r : nat) (a : list hev) (x : exn) (b : list hev) : Prop :=
  es = a ++ EvThrow r x :: b /\ forall e, In e b -> ~ settles r e /\ e <> EvBegin r /\ forall y, e <> EvThrow r y.
(** at some point of b (after the trace a) the handler kept in p was h *)
Definition at_some_point (a b : list hev) (p : place) (h : option nat) : Prop :=
  exists b1 b2, b = b1 ++ b2 /\ handler_now (a ++ b1) p = h.
(** the places that matter to an exception of object r, of class k *)
Definition concerns (r : nat) (k : class) (p : place) : Prop := p = OfObject r \/ p = Default k.
(** no handler satisfying bad is set in a place while an exception that it matters to is being looked after *)
Definition no_set_during_dispatch (class_of : nat -> option class) (bad : option nat -> Prop) (es : list hev) : Prop :=
  forall es1 t p h es2, es = es1 ++ EvSet t p h :: es2 -> bad h ->
    forall r k a x b, dispatching es1 r a x b -> class_of r = Some k -> ~ concerns r k p.
