(** What "the timer fires on time" means: the marks of Spec/TimerSpec stamped with the time (in milliseconds) of the effect. *)
From Coq Require Import List ZArith Bool.
Import ListNotations.
From Verif Require Import Spec.Linear Spec.TimerSpec Spec.TimedSpec.
Open Scope Z_scope.

(** the state after an effect (the function that [mspec] describes as a relation) *)
Definition mnext (periodic : bool) (s : mstate) (c : mcall) : mstate :=
  match c with
  | MStart => if m_on s then s else mkMS true Armed (m_dead s)
  | MStop => if m_on s then mkMS false (match m_phase s with Armed => Rest | p => p end) (m_dead s) else s
  | MIsStarted => s
  | MDestroy => mkMS (m_on s) (m_phase s) true
  | MDue => mkMS true Due false
  | MBegin => mkMS (m_on s) Running (m_dead s)
  | MEnd => if periodic then mkMS (m_on s) (if m_on s then Armed else Rest) (m_dead s) else mkMS false Rest (m_dead s)
  end.
(** the effects with their times *)
Definition effects_at (es : list (Z * event mcall mres)) : list (Z * (nat * mcall * mres)) :=
  flat_map (fun x => match snd x with Eff t c r => [(fst x, (t, c, r))] | _ => [] end) es.
Fixpoint marks_at (periodic : bool) (s : mstate) (l : list (Z * (nat * mcall * mres))) : list (Z * mmark) :=
  match l with
  | [] => []
  | (z, (t, c, r)) :: l' => map (fun k => (z, k)) (mmarks periodic s [(t, c, r)]) ++ marks_at periodic (mnext periodic s c) l'
  end.
Definition timer_marks (periodic : bool) (es : list (Z * event mcall mres)) : list (Z * mmark) := marks_at periodic m_new (effects_at es).

(** the marks from which the time runs: a start that had an effect, the end of a callback *)
Definition arms (k : mmark) : bool := match k with KStart | KEnd => true | _ => false end.
(** the time of the last of them *)
Definition last_armed (m : list (Z * mmark)) : option Z :=
  fold_left (fun acc x => if arms (snd x) then Some (fst x) else acc) m None.

(** no callback begins before [ms] have passed since every effective start, and since the end of every callback, before it *)
Definition never_early (ms : Z) (m : list (Z * mmark)) : Prop :=
  forall a t0 k b t1 d, m = a ++ (t0, k) :: b ++ (t1, KBegin) :: d -> arms k = true -> t0 + ms <= t1.
(** every callback begins exactly [ms] after the last effective start or end of a callback *)
Definition on_time (ms : Z) (m : list (Z * mmark)) : Prop :=
  forall a t1 d, m = a ++ (t1, KBegin) :: d -> last_armed a = Some (t1 - ms).
(** callbacks that began and ended at these times, one after the other, and how long they took together *)
Definition pairs (ps : list (Z * Z)) : list (Z * mmark) := flat_map (fun x => [(fst x, KBegin); (snd x, KEnd)]) ps.
Definition durations (ps : list (Z * Z)) : Z := fold_right (fun x acc => (snd x - fst x) + acc) 0 ps.
(** the calls [sel] take no time: each returned at the time it was made, and those still running were made just now *)
Definition instant (sel : mcall -> Prop) (now : Z) (es : list (Z * event mcall mres)) : Prop :=
  (forall t t0 c, sel c -> pending es t t0 c -> t0 = now) /\ (forall t t0 c t1 r, sel c -> took es t t0 c t1 r -> t0 = t1).
