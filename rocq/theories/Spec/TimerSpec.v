(** Specification of OSWrapper::OneShotTimer and OSWrapper::PeriodicTimer (mechanism/OSWrapper/OneShotTimer.h, PeriodicTimer.h).
    A timer is on or off (isStarted), and its callback is
    - resting: nothing will happen until the next start;
    - armed:   the time is running;
    - due:     the time has expired and the callback is going to be called;
    - running.
    MDue, MBegin, MEnd are the actions of the timer itself (agent 0): the time expires, Runnable::run begins, it has ended. *)
From Coq Require Import List ZArith Bool.
Import ListNotations.
From Verif Require Import Spec.Linear.

Inductive mcall := MStart | MStop | MIsStarted | MDestroy | MDue | MBegin | MEnd.
Inductive mres := MVoid | MBool (b : bool).
Inductive mphase := Rest | Armed | Due | Running.
Record mstate := mkMS { m_on : bool; m_phase : mphase; m_dead : bool }.
Definition m_new : mstate := mkMS false Rest false.

(** [periodic]: a periodic timer stays on after a callback and the time runs again *)
Definition mspec (periodic : bool) (s : mstate) (t : nat) (c : mcall) (r : mres) (s' : mstate) : Prop :=
  match c with
  | MStart => r = MVoid /\
      if m_on s then s' = s else m_phase s = Rest /\ s' = mkMS true Armed (m_dead s)
  | MStop => r = MVoid /\
      s' = if m_on s then mkMS false (match m_phase s with Armed => Rest | p => p end) (m_dead s) else s
  | MIsStarted => r = MBool (m_on s) /\ s' = s
  | MDestroy => r = MVoid /\ s' = mkMS (m_on s) (m_phase s) true
  | MDue => r = MVoid /\ m_on s = true /\ m_phase s = Armed /\ m_dead s = false /\ s' = mkMS true Due false
  | MBegin => r = MVoid /\ m_phase s = Due /\ s' = mkMS (m_on s) Running (m_dead s)
  | MEnd => r = MVoid /\ m_phase s = Running /\
      s' = if periodic then mkMS (m_on s) (if m_on s then Armed else Rest) (m_dead s) else mkMS false Rest (m_dead s)
  end.

(** what happened, in the order it happened: effective starts, stops that came in time, stops that came too late for the
    callback that was due or running, begins and ends of the callback *)
Inductive mmark := KStart | KCancel | KLate | KBegin | KEnd.
Fixpoint mmarks (periodic : bool) (s : mstate) (l : list (nat * mcall * mres)) : list mmark :=
  match l with
  | [] => []
  | (_, c, _) :: l' =>
      match c with
      | MStart => if m_on s then mmarks periodic s l' else KStart :: mmarks periodic (mkMS true Armed (m_dead s)) l'
      | MStop =>
          if m_on s then
            match m_phase s with
            | Armed => KCancel :: mmarks periodic (mkMS false Rest (m_dead s)) l'
            | p => KLate :: mmarks periodic (mkMS false p (m_dead s)) l'
            end
          else mmarks periodic s l'
      | MIsStarted => mmarks periodic s l'
      | MDestroy => mmarks periodic (mkMS (m_on s) (m_phase s) true) l'
      | MDue => mmarks periodic (mkMS true Due false) l'
      | MBegin => KBegin :: mmarks periodic (mkMS (m_on s) Running (m_dead s)) l'
      | MEnd => KEnd :: mmarks periodic (if periodic then mkMS (m_on s) (if m_on s then Armed else Rest) (m_dead s) else mkMS false Rest (m_dead s)) l'
      end
  end.

(** one life of a one-shot timer: started, then either cancelled in time or called back exactly once *)
Inductive one_shot_round : list mmark -> Prop :=
| or_cancel : one_shot_round [KStart; KCancel]
| or_fire : one_shot_round [KStart; KBegin; KEnd]
| or_late1 : one_shot_round [KStart; KLate; KBegin; KEnd]
| or_late2 : one_shot_round [KStart; KBegin; KLate; KEnd].
(** complete rounds, then the round in progress.  It is in progress exactly when the timer is on or its callback is due or running *)
Definition one_shot_history (s : mstate) (m : list mmark) : Prop :=
  exists rounds now, m = concat rounds ++ now /\ Forall one_shot_round rounds /\
    match m_phase s with
    | Rest => now = []
    | Armed => now = [KStart]
    | Due => now = [KStart] \/ now = [KStart; KLate]
    | Running => now = [KStart; KBegin] \/ now = [KStart; KLate; KBegin] \/ now = [KStart; KBegin; KLate]
    end.
(** one life of a periodic timer: started, called back any number of times, and then stopped; a late stop lets the callback
    that was due or running finish, and there is no other one *)
Inductive periodic_round : list mmark -> Prop :=
| pr_cancel k : periodic_round (KStart :: concat (repeat [KBegin; KEnd] k) ++ [KCancel])
| pr_late1 k : periodic_round (KStart :: concat (repeat [KBegin; KEnd] k) ++ [KLate; KBegin; KEnd])
| pr_late2 k : periodic_round (KStart :: concat (repeat [KBegin; KEnd] k) ++ [KBegin; KLate; KEnd]).
Definition periodic_history (s : mstate) (m : list mmark) : Prop :=
  exists rounds now, m = concat rounds ++ now /\ Forall periodic_round rounds /\
    match m_on s, m_phase s with
    | _, Rest => now = []
    | true, Running => exists k, now = KStart :: concat (repeat [KBegin; KEnd] k) ++ [KBegin]
    | true, _ => exists k, now = KStart :: concat (repeat [KBegin; KEnd] k)
    | false, Running => exists k, now = KStart :: concat (repeat [KBegin; KEnd] k) ++ [KBegin; KLate] \/
                                  now = KStart :: concat (repeat [KBegin; KEnd] k) ++ [KLate; KBegin]
    | false, _ => exists k, now = KStart :: concat (repeat [KBegin; KEnd] k) ++ [KLate]
    end.

(** conditions on what callers do, read off the events *)
Notation mevents := (list (event mcall mres)).
(** a start or stop in progress is disturbed by a start, respectively stop, of someone else taking effect meanwhile;
    a stop is also disturbed by the callback ending meanwhile *)
Definition disturbs (c c' : mcall) : bool := match c, c' with MStart, MStart | MStop, MStop | MStop, MEnd => true | _, _ => false end.
Definition undisturbed (es : mevents) : Prop :=
  forall es1 t c es2 u c' r es3,
    es = es1 ++ Call t c :: es2 ++ Eff u c' r :: es3 -> (forall r', ~ In (Eff t c r') es2) -> u <> t -> disturbs c c' = false.
(** no stop takes effect while the callback is due or running *)
Definition no_late_stop (periodic : bool) (es : mevents) : Prop := ~ In KLate (mmarks periodic m_new (effects es)).
Definition never_calls (c : mcall) (es : mevents) : Prop := forall t, ~ In (Call t c) es.
Definition only_called_by (t : nat) (c : mcall) (es : mevents) : Prop := forall u, In (Call u c) es -> u = t.
(** how often the time expired, and how often the callback began *)
Definition dues (es : mevents) : nat := length (filter (fun e => match e with Eff _ MDue _ => true | _ => false end) es).
Definition begun (es : mevents) : nat := length (filter (fun e => match e with Eff _ MBegin _ => true | _ => false end) es).
(** only client 1 (and the timer itself) calls anything *)
Definition one_controller (es : mevents) : Prop := forall t c, In (Call t c) es -> t = 1 \/ t = 0.
Definition callback_calls_nothing (es : mevents) : Prop := forall c, In (Call 0 c) es -> c = MDue \/ c = MBegin \/ c = MEnd.
(** one thread [c] starts, and one thread [d] stops; [c] is not the timer's own thread, [d] may be (a callback that throws stops the timer) *)
Definition disciplined (c d : nat) (es : mevents) : Prop :=
  c <> 0 /\ only_called_by c MStart es /\ only_called_by d MStop es /\ never_calls MDestroy es.
