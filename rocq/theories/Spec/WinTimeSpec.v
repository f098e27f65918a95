(** What "the Windows timers fire on time" means (mechanism/OSWrapper/OneShotTimer.h, PeriodicTimer.h as implemented with the Windows
    multimedia timers; the calls and the timer's own actions are those of Spec/WinTimerSpec): events stamped with the time (in
    milliseconds) at which they happened.  WDue: the running time has expired; WBegin, WEnd: its callback begins and ends. *)
From Coq Require Import List ZArith Bool.
Import ListNotations.
From Verif Require Import Spec.Linear Spec.WinTimerSpec.
Open Scope Z_scope.

Notation stamped := (list (Z * event wcall wres)).
(** the events without their times *)
Definition untimed (es : stamped) : wevents := map snd es.

(** since when the time has been running, counted from the last effective start, and how often it has expired since; None: it does not run *)
Definition timing1 (periodic : bool) (o : option (Z * Z)) (e : Z * event wcall wres) : option (Z * Z) :=
  match snd e with
  | Eff _ WStart RDone => Some (fst e, 0)
  | Eff _ WStop RDone => None
  | Eff _ WDue _ => if periodic then match o with Some (t0, k) => Some (t0, k + 1) | None => None end else None
  | _ => o
  end.
Definition timing (periodic : bool) (es : stamped) : option (Z * Z) := fold_left (timing1 periodic) es None.
(** when the timer was last started (effectively), when the time last expired, when a callback last ended (0 if none did) *)
Definition last_start1 (o : option Z) (e : Z * event wcall wres) : option Z := match snd e with Eff _ WStart RDone => Some (fst e) | _ => o end.
Definition last_start (es : stamped) : option Z := fold_left last_start1 es None.
Definition last_due1 (o : option Z) (e : Z * event wcall wres) : option Z := match snd e with Eff _ WDue _ => Some (fst e) | _ => o end.
Definition last_due (es : stamped) : option Z := fold_left last_due1 es None.
Definition last_end1 (z : Z) (e : Z * event wcall wres) : Z := match snd e with Eff _ WEnd _ => fst e | _ => z end.
Definition last_end (es : stamped) : Z := fold_left last_end1 es 0.

(** the (k+1)-th expiry since a start comes when (k+1) times [ms] have passed since the start, not before; a callback begins after an expiry *)
Definition never_early (periodic : bool) (ms : Z) (es : stamped) : Prop :=
  (forall a t1 t r d, es = a ++ (t1, Eff t WDue r) :: d -> exists t0 k, timing periodic a = Some (t0, k) /\ t0 + (k + 1) * ms <= t1) /\
  (forall a t1 t r d, es = a ++ (t1, Eff t WBegin r) :: d -> exists t0, last_due a = Some t0 /\ t0 <= t1).
(** it comes exactly then; if the callback before it is still in progress then, when that ends; and its callback begins at once *)
Definition on_time (periodic : bool) (ms : Z) (es : stamped) : Prop :=
  (forall a t1 t r d, es = a ++ (t1, Eff t WDue r) :: d ->
     exists t0 k, timing periodic a = Some (t0, k) /\ t1 = Z.max (t0 + (k + 1) * ms) (last_end a)) /\
  (forall a t1 t r d, es = a ++ (t1, Eff t WBegin r) :: d -> last_due a = Some t1).
(** no expiry is overdue, except that the callback of the one before may still be in progress *)
Definition never_overdue (periodic : bool) (ms now : Z) (es : stamped) : Prop :=
  forall t0 k, timing periodic es = Some (t0, k) -> w_dues (effects (untimed es)) = w_ends (effects (untimed es)) ->
    now <= Z.max (t0 + (k + 1) * ms) (last_end es).
(** a callback begins [ms] after the last effective start, or later *)
Definition after_last_start (ms : Z) (es : stamped) : Prop :=
  forall a t1 t r d, es = a ++ (t1, Eff t WBegin r) :: d -> exists t0, last_start a = Some t0 /\ t0 + ms <= t1.
(** exactly [ms] after *)
Definition exactly_after_last_start (ms : Z) (es : stamped) : Prop :=
  forall a t1 t r d, es = a ++ (t1, Eff t WBegin r) :: d -> exists t0, last_start a = Some t0 /\ t1 = t0 + ms.
(** the effective starts up to time [z], the expiries, the callbacks *)
Definition starts_until (z : Z) (es : stamped) : nat := w_starts (effects (untimed (filter (fun e => fst e <=? z) es))).
