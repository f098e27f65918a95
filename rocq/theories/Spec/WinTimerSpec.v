(** Specification of the Windows one-shot and periodic timers (OSWrapper::OneShotTimer, OSWrapper::PeriodicTimer as implemented
    with the Windows multimedia timers).  Unlike the timers of Spec/TimerSpec, start() and stop() never wait for a callback, so
    a timer can be started again while the callback of its previous life is still due or running.
    A sequential timer object:
    - [p_on]   isStarted();
    - [p_cur]  the time of the last effective start is still running;
    - [p_old]  how many times of earlier starts are still running: these are out of reach of stop();
    - [p_fl]   the callback: nothing, about to be called (the time has expired), or running;
    - [p_gone] the object has been destroyed.
    WDue, WBegin, WEnd are actions of the timer itself (agent 0).  The C++ functions start and stop return nothing; here the
    result records what the call did. *)
From Coq Require Import List Arith Bool.
Import ListNotations.
From Verif Require Import Spec.Linear.

Inductive wcall := WStart | WStop | WIsStarted | WDestroy | WDue | WBegin | WEnd.
Inductive wres :=
| RDone         (* start: the time runs; stop: the running time is cancelled *)
| RNone         (* start of a started timer, stop of a stopped timer: nothing happens *)
| RRefused      (* start: the system gave no timer *)
| RLate         (* stop: too late, the callback is due or running; the timer is off *)
| RMissed       (* stop: too late, the callback is due or running; and the timer stays on *)
| RBool (b : bool).
Inductive wflight := FRest | FDue | FRunning.
Record wstate := mkWS { p_on : bool; p_cur : bool; p_old : nat; p_fl : wflight; p_gone : bool }.
Definition w_new : wstate := mkWS false false 0 FRest false.

Definition wspec (periodic : bool) (s : wstate) (t : nat) (c : wcall) (r : wres) (s' : wstate) : Prop :=
  match c with
  | WStart =>
      match r with
      | RDone => p_on s = false /\ s' = mkWS true true (p_old s) (p_fl s) (p_gone s)
      | RNone => p_on s = true /\ s' = s
      | RRefused => p_on s = false /\ s' = s
      | _ => False
      end
  | WStop =>
      match r with
      | RDone => p_on s = true /\ p_cur s = true /\ s' = mkWS false false (p_old s) (p_fl s) (p_gone s)
      | RNone => p_on s = false /\ s' = s
      | RLate => periodic = false /\ p_on s = true /\ p_cur s = false /\ p_fl s <> FRest /\ s' = mkWS false false (p_old s) (p_fl s) (p_gone s)
      | RMissed => periodic = false /\ p_on s = true /\ p_cur s = false /\ p_fl s <> FRest /\ s' = s
      | _ => False
      end
  | WIsStarted => r = RBool (p_on s) /\ s' = s
  | WDestroy => r = RDone /\ s' = mkWS (p_on s) (p_cur s) (p_old s) (p_fl s) true
  | WDue =>                                          (* RBool true: the time of the last start has expired; RBool false: that of an earlier one *)
      p_fl s = FRest /\ p_gone s = false /\
      match r with
      | RBool true => p_cur s = true /\ s' = mkWS (p_on s) periodic (p_old s) FDue false
      | RBool false => exists k, p_old s = S k /\ s' = mkWS (p_on s) (p_cur s) k FDue false
      | _ => False
      end
  | WBegin => r = RDone /\ p_fl s = FDue /\ s' = mkWS (p_on s) (p_cur s) (p_old s) FRunning (p_gone s)
  | WEnd => r = RDone /\ p_fl s = FRunning /\
      s' = if periodic then mkWS (p_on s) (p_cur s) (p_old s) FRest (p_gone s)
           else mkWS false false (p_old s + if p_cur s then 1 else 0) FRest (p_gone s)
  end.

Notation weff := (nat * wcall * wres)%type.
Notation wevents := (list (event wcall wres)).
(** how many of the effects are ... *)
Definition wcount (f : wcall -> wres -> bool) (l : list weff) : nat := length (filter (fun e => f (snd (fst e)) (snd e)) l).
Definition w_starts := wcount (fun c r => match c, r with WStart, RDone => true | _, _ => false end).       (* the time began to run *)
Definition w_refusals := wcount (fun c r => match c, r with WStart, RRefused => true | _, _ => false end).  (* the system gave no timer *)
Definition w_cancels := wcount (fun c r => match c, r with WStop, RDone => true | _, _ => false end).       (* stops in time *)
Definition w_dues := wcount (fun c _ => match c with WDue => true | _ => false end).                        (* the time expired *)
Definition w_begins := wcount (fun c _ => match c with WBegin => true | _ => false end).                    (* a callback began *)
Definition w_ends := wcount (fun c _ => match c with WEnd => true | _ => false end).                        (* a callback ended *)
Arguments w_starts : simpl never. Arguments w_refusals : simpl never. Arguments w_cancels : simpl never.
Arguments w_dues : simpl never. Arguments w_begins : simpl never. Arguments w_ends : simpl never.

(** the timer is never started (effectively) while a callback is due or running: at each start every expiry has been followed by the
    end of its callback *)
Definition never_restarted_early (l : list weff) : Prop := forall l1 t l2, l = l1 ++ (t, WStart, RDone) :: l2 -> w_dues l1 = w_ends l1.

(** what happened, in order: effective starts, stops in time, begins and ends of callbacks *)
Inductive wmark := VStart | VCancel | VBegin | VEnd.
Definition wmarks (l : list weff) : list wmark :=
  flat_map (fun e => match snd (fst e), snd e with
                     | WStart, RDone => [VStart] | WStop, RDone => [VCancel]
                     | WBegin, _ => [VBegin] | WEnd, _ => [VEnd] | _, _ => [] end) l.
(** one life of a one-shot timer *)
Inductive w_round : list wmark -> Prop :=
| wr_cancel : w_round [VStart; VCancel]
| wr_fire : w_round [VStart; VBegin; VEnd].
Definition w_history (s : wstate) (m : list wmark) : Prop :=
  exists rounds now, m = concat rounds ++ now /\ Forall w_round rounds /\
    match p_fl s with
    | FRest => now = if p_on s then [VStart] else []
    | FDue => now = [VStart]
    | FRunning => now = [VStart; VBegin]
    end.
(** callbacks do not overlap: begins and ends alternate *)
Fixpoint alternate (running : bool) (m : list wmark) : Prop :=
  match m with
  | [] => True
  | VBegin :: m' => running = false /\ alternate true m'
  | VEnd :: m' => running = true /\ alternate false m'
  | _ :: m' => alternate running m'
  end.

(** conditions on what callers do *)
Definition w_only_client (t : nat) (es : wevents) : Prop := forall u c, In (Call u c) es -> u = t \/ u = 0.
Definition w_callback_calls_nothing (es : wevents) : Prop := forall c, In (Call 0 c) es -> c = WDue \/ c = WBegin \/ c = WEnd.
