(** Specification of the containment of exceptions thrown by a Runnable (Thread.h, OneShotTimer.h, PeriodicTimer.h). *)
From Coq Require Import String List.
Import ListNotations.

Inductive exn := XStd (what : string)          (* std::exception or a class derived from it *)
               | XFailure (message : string)   (* Assertion::Failure *)
               | XOther.                       (* anything else *)
Inductive outcome := Normal | Throws (x : exn).
(** what the outside sees: run() entered, stop() entered, handler [h] entered with a message *)
Inductive act := ARun | AStop | AHandle (h : nat) (msg : string).
Record cfg := mkCfg { own : option nat; dflt : option nat }.    (* the object's handler and the class-wide default *)

Definition message_of (x : exn) : string :=
  match x with XStd w => w | XFailure m => m | XOther => "Unknown Exception"%string end.
Definition handler_of (c : cfg) : option nat := match own c with Some h => Some h | None => dflt c end.
(** the calls to make for exception [x] with handlers [c] *)
Definition handling (c : cfg) (x : exn) : list act :=
  match handler_of c with Some h => [AHandle h (message_of x)] | None => [] end.
