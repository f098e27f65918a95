(** What "a periodic timer fires on time" means where the period runs from the start of the timer (mechanism/OSWrapper/PeriodicTimer.h:83-110):
    events stamped with the time (in milliseconds) at which they happened.  YBegin, YEnd and YThrow are actions of the system (agent 0): a
    callback begins; it ends; it ends by an exception, which stops the timer. *)
From Coq Require Import List ZArith Bool.
Import ListNotations.
From Verif Require Import Spec.Linear.
Open Scope Z_scope.

Inductive ycall := YStart | YStop | YIsStarted | YBegin | YEnd | YThrow.
Inductive yres := YVoid | YBool (b : bool).
Notation yevents := (list (Z * event ycall yres)).

(** since when the timer has been on, counted from the last start, and how many callbacks have begun since *)
Definition running1 (o : option (Z * Z)) (e : Z * event ycall yres) : option (Z * Z) :=
  match snd e with
  | Eff _ YStart _ => Some (fst e, 0)
  | Eff _ YStop _ | Eff _ YThrow _ => None
  | Eff _ YBegin _ => match o with Some (t0, k) => Some (t0, k + 1) | None => None end
  | _ => o
  end.
Definition running (es : yevents) : option (Z * Z) := fold_left running1 es None.
(** when the last callback ended (0 if there was none) *)
Definition last_end1 (z : Z) (e : Z * event ycall yres) : Z :=
  match snd e with Eff _ YEnd _ | Eff _ YThrow _ => fst e | _ => z end.
Definition last_end (es : yevents) : Z := fold_left last_end1 es 0.
(** a callback is in progress *)
Definition in_callback1 (b : bool) (e : Z * event ycall yres) : bool :=
  match snd e with Eff _ YBegin _ => true | Eff _ YEnd _ | Eff _ YThrow _ => false | _ => b end.
Definition in_callback (es : yevents) : bool := fold_left in_callback1 es false.

(** the (k+1)-th callback since a start begins when (k+1) periods have passed since the start, not before *)
Definition never_early (ms : Z) (es : yevents) : Prop :=
  forall a t1 t r d, es = a ++ (t1, Eff t YBegin r) :: d -> exists t0 k, running a = Some (t0, k) /\ t0 + (k + 1) * ms <= t1.
(** it begins exactly then; if the callback before it is still in progress then, when that ends *)
Definition on_time (ms : Z) (es : yevents) : Prop :=
  forall a t1 t r d, es = a ++ (t1, Eff t YBegin r) :: d -> exists t0 k, running a = Some (t0, k) /\ t1 = Z.max (t0 + (k + 1) * ms) (last_end a).
(** a callback is never overdue, except that the one before it may still be in progress *)
Definition never_overdue (ms now : Z) (es : yevents) : Prop :=
  forall t0 k, running es = Some (t0, k) -> in_callback es = false -> now <= Z.max (t0 + (k + 1) * ms) (last_end es).
(** callbacks come one at a time *)
Definition one_at_a_time (es : yevents) : Prop := forall a z t r d, es = a ++ (z, Eff t YBegin r) :: d -> in_callback a = false.
(** what a call gave when it took effect is what it returns *)
Definition given1 (t : nat) (o : option yres) (e : Z * event ycall yres) : option yres :=
  match snd e with Eff u _ r => if Nat.eqb u t then Some r else o | _ => o end.
Definition returned_as_given (es : yevents) : Prop :=
  forall a z t r d, es = a ++ (z, Ret t r) :: d -> fold_left (given1 t) a None = Some r.
(** isStarted tells whether the timer is on *)
Definition told_truly (es : yevents) : Prop :=
  forall a z t b d, es = a ++ (z, Eff t YIsStarted (YBool b)) :: d -> b = match running a with Some _ => true | None => false end.
