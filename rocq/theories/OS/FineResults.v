(** What the theorems about OS/ThreadModel and OS/TimerModel say about the models of the same classes in which every access to a field is a
    step of its own (OS/ThreadFineModel, OS/TimerFineModel). *)
From Coq Require Import List ZArith Bool Lia Arith.
Import ListNotations.
From Verif Require Import Spec.OSError Spec.Linear Spec.ThreadSpec OS.Sched OS.Monitor OS.ThreadModel OS.ThreadProofs OS.ThreadFineModel OS.ThreadFineProofs.
From Verif Require Spec.TimerSpec OS.TimerModel OS.TimerProofs OS.TimerLiveness OS.TimerFineModel OS.TimerFineProofs.
Open Scope nat_scope.

(** * Thread *)
Lemma xwakes_idle t ds : wakes xcnd xpc x_wake ds (XC t TIdle) = XC t TIdle.
Proof. induction ds as [|d ds IH]; [reflexivity|]. destruct d; exact IH. Qed.
Lemma xlink_idle f s t : xlink f s -> x_idle f t -> t_idle s t.
Proof.
  intros (b & H & (_ & _ & _ & Q)) X. unfold x_idle, t_idle in *. unfold same in H.
  assert (B : b_pc b (S t) = XC t TIdle).
  { destruct (f_own f) as [o|].
    - destruct H as (c0 & c & ds & SC & P & _ & _ & QF). destruct (Nat.eq_dec (S t) o) as [<-|NE]; [rewrite P in X; discriminate|].
      rewrite (QF _ NE) in X. injection X as X. assert (Z : x_section (wakes xcnd xpc x_wake ds (b_pc b (S t))) = None) by (rewrite X; reflexivity).
      apply (wakes_none x_ok) in Z. congruence.
    - destruct H as (_ & P). rewrite P in X. now injection X. }
  destruct (Q t) as [(P & _)|(ms & P & _)]; rewrite P in B; [now injection B|discriminate].
Qed.
Theorem fine_thread_atomic ls f es : exec x_step x_init ls = Some (f, es) -> proper_destroy (history es) ->
  linearizable tspec Finished (history es) /\
  exists st, sp_run tspec Finished (effects es) st /\ one_run_per_start st (marks Finished (effects es)).
Proof. intros E P. destruct (fine_thread ls f es E) as (l2 & s & X & _). exact (thread_linearizable l2 s es X P). Qed.
Theorem fine_thread_no_hang ls f es : exec x_step x_init ls = Some (f, es) -> proper_destroy (history es) -> x_stuck f ->
  (forall t, x_idle f t) /\ (f_pc f 0 = FOut (XN NDone) <-> exists d, In (Call d TDestroy) (history es)) /\
  exists k, marks Finished (effects es) = concat (repeat [MStart; MBegin; MEnd] k).
Proof.
  intros E P ST. destruct (fine_thread ls f es E) as (l2 & s & X & L). destruct (fine_thread_stuck f s L ST) as (A & B & C & D).
  destruct (thread_no_hang l2 s es X P A B) as (G & H & K). split; [intros t; now apply C|]. split; [|exact K]. rewrite D. split.
  - intros Z. apply H. now injection Z.
  - intros Z. now rewrite (proj2 H Z).
Qed.
Theorem fine_thread_bounded n ls0 f es0 ls f' es : exec x_step x_init ls0 = Some (f, es0) -> (forall t, n <= t -> x_idle f t) ->
  (forall l, In l ls -> x_own_step l) -> exec x_step f ls = Some (f', es) -> length ls <= 10 * (n * (2 * n + 8) + 2 * n + 6) + 5 * n + 5.
Proof.
  intros E0 Q O E. destruct (fine_thread ls0 f es0 E0) as (l2 & s & X & L).
  destruct (fine_thread_from f s ls f' es n L E O Q) as (l3 & s' & X' & _ & O' & B).
  assert (K := thread_calls_end n l2 s es0 l3 s' es X (fun t h => xlink_idle f s t L (Q t h)) O' X'). lia.
Qed.
Lemma xlink_native f s : xlink f s -> t_nat s = NDone -> f_pc f 0 = FOut (XN NDone).
Proof.
  intros (b & H & (_ & _ & N & _)) X. rewrite X in N. unfold same in H. destruct (f_own f) as [o|].
  - destruct H as (c0 & c & ds & SC & P & _ & _ & QF). destruct (Nat.eq_dec 0 o) as [<-|NE]; [rewrite N in SC; discriminate|].
    rewrite (QF _ NE), N. f_equal. clear -ds. induction ds as [|d ds IH]; [reflexivity|]. destruct d; exact IH.
  - destruct H as (_ & P). now rewrite P, N.
Qed.
Theorem fine_thread_destroyed ls f es d : exec x_step x_init ls = Some (f, es) -> proper_destroy (history es) ->
  In (Call d TDestroy) (history es) -> is_open d (history es) = false ->
  f_pc f 0 = FOut (XN NDone) /\ exists k, marks Finished (effects es) = concat (repeat [MStart; MBegin; MEnd] k).
Proof.
  intros E P D O. destruct (fine_thread ls f es E) as (l2 & s & X & L). destruct (thread_destroyed l2 s es d X P D O) as (A & K).
  split; [now apply (xlink_native f s)|exact K].
Qed.
Theorem fine_thread_no_race ls f es t u a b : exec x_step x_init ls = Some (f, es) -> uses f t = Some a -> uses f u = Some b -> t = u.
Proof. exact (no_data_race x_ok _ _ ls f es t u a b). Qed.
Lemma x_rest f : f_own f = None -> f_pc f 0 = FOut (XN NDone) -> (forall t, x_idle f t) -> x_stuck f.
Proof.
  intros O N I [[|t]|[|t]|l] OW NT; unfold x_step; cbn [f_step].
  - now rewrite N, ?O.
  - unfold x_idle in I. now rewrite I, ?O.
  - now rewrite N, ?O.
  - unfold x_idle in I. now rewrite I, ?O.
  - destruct l; cbn [x_actor]; try contradiction; unfold x_idle in I; rewrite ?N, ?I; reflexivity.
Qed.

(** * timers *)
Import Spec.TimerSpec OS.TimerModel OS.TimerProofs OS.TimerLiveness OS.TimerFineModel OS.TimerFineProofs.
Theorem fine_timer_no_race p ls f es t u a b : exec (v_step p) v_init ls = Some (f, es) -> uses f t = Some a -> uses f u = Some b -> t = u.
Proof. exact (no_data_race (v_ok p) _ _ ls f es t u a b). Qed.
Theorem fine_one_shot_atomic ls f es : exec (v_step false) v_init ls = Some (f, es) ->
  linearizable (mspec false) m_new (history es) /\
  exists st, sp_run (mspec false) m_new (effects es) st /\ (f_own f = None -> m_on st = f_fld f VActive) /\ one_shot_history st (mmarks false m_new (effects es)).
Proof.
  intros E. destruct (fine_timer false ls f es E) as (l2 & s & X & L). destruct (one_shot_atomic l2 s es X) as (A & st & B & C & D).
  split; [exact A|]. exists st. split; [exact B|]. split; [|exact D]. intros O. rewrite C. symmetry. exact (vlink_fields false f s L O).
Qed.
Theorem fine_periodic_atomic ls f es : exec (v_step true) v_init ls = Some (f, es) ->
  linearizable (mspec true) m_new (history es) /\
  exists st, sp_run (mspec true) m_new (effects es) st /\ (f_own f = None -> m_on st = f_fld f VActive) /\ periodic_history st (mmarks true m_new (effects es)).
Proof.
  intros E. destruct (fine_timer true ls f es E) as (l2 & s & X & L). destruct (periodic_atomic l2 s es X) as (A & st & B & C & D).
  split; [exact A|]. exists st. split; [exact B|]. split; [|exact D]. intros O. rewrite C. symmetry. exact (vlink_fields true f s L O).
Qed.
Theorem fine_one_shot_fires ls f es : exec (v_step false) v_init ls = Some (f, es) -> never_calls MDestroy es -> v_stuck false f -> v_idle f 0 ->
  sp_run (mspec false) m_new (effects es) (mkMS false Rest false) /\
  exists rounds, mmarks false m_new (effects es) = concat rounds /\ Forall one_shot_round rounds.
Proof.
  intros E N ST Z. destruct (fine_timer false ls f es E) as (l2 & s & X & L).
  exact (proj2 (one_shot_stuck_rests l2 s es X N (fine_timer_stuck false f s L ST) (proj2 (vlink_idle false f s 0 L) Z))).
Qed.
Theorem fine_one_shot_calm ls f es : exec (v_step false) v_init ls = Some (f, es) -> undisturbed es -> no_late_stop false es -> never_calls MDestroy es ->
  v_stuck false f -> forall t, v_idle f t.
Proof.
  intros E U NL N ST t. destruct (fine_timer false ls f es E) as (l2 & s & X & L).
  apply (vlink_idle false f s t L). exact (proj1 (one_shot_calm_no_hang l2 s es X U NL N (fine_timer_stuck false f s L ST)) t).
Qed.
Theorem fine_starts_alone p ls f es : exec (v_step p) v_init ls = Some (f, es) -> never_calls MStop es -> v_stuck p f -> forall t, v_idle f t.
Proof.
  intros E N ST t. destruct (fine_timer p ls f es E) as (l2 & s & X & L).
  apply (vlink_idle p f s t L). exact (no_stops_no_hang p l2 s es X N (fine_timer_stuck p f s L ST) t).
Qed.
Theorem fine_one_shot_bounded n ls0 f es0 ls f' es : exec (v_step false) v_init ls0 = Some (f, es0) -> (forall t, n <= t -> v_idle f t) ->
  (forall l, In l ls -> v_own_step l) -> exec (v_step false) f ls = Some (f', es) -> length ls <= 18 * (n * (2 * n + 10) + 2 * n + 6) + 18.
Proof.
  intros E0 Q O E. destruct (fine_timer false ls0 f es0 E0) as (l2 & s & X & L).
  destruct (fine_timer_from false f s ls f' es L E) as (l3 & s' & X' & _ & B). destruct (B O) as (O' & B').
  assert (K := one_shot_comes_to_rest n l2 s es0 l3 s' es X (fun t h => proj2 (vlink_idle false f s t L) (Q t h)) O' X'). lia.
Qed.
Theorem fine_after_stop p ls f es es1 u c r es2 : exec (v_step p) v_init ls = Some (f, es) -> es = es1 ++ Eff u c r :: es2 ->
  c = MStop \/ (c = MEnd /\ p = false) -> (forall t r', ~ In (Eff t MStart r') es2) ->
  (forall t r', In (Eff t MIsStarted r') es2 -> r' = MBool false) /\ begun es2 <= 1 /\ (dues es1 = begun es1 -> begun es2 = 0).
Proof.
  intros E EQ C N. destruct (fine_timer p ls f es E) as (l2 & s & X & L). exact (proj2 (after_stop p l2 s es es1 u c r es2 X EQ C N)).
Qed.
Theorem fine_timer_destroyed p ls f es d : exec (v_step p) v_init ls = Some (f, es) -> In (Call d MDestroy) es -> v_idle f d ->
  forall ls' f' es', exec (v_step p) f ls' = Some (f', es') -> forall c, ~ In (Call 0 c) es'.
Proof.
  intros E D Z ls' f' es' E' c. destruct (fine_timer p ls f es E) as (l2 & s & X & L).
  destruct (timer_destroyed p l2 s es d X D (proj2 (vlink_idle p f s d L) Z)) as (_ & K).
  destruct (fine_timer_from p f s ls' f' es' L E') as (l3 & s' & X' & _). exact (K l3 s' es' X' c).
Qed.
Theorem fine_destroy_returns p ls f es : exec (v_step p) v_init ls = Some (f, es) -> v_stuck p f -> v_idle f 0 -> forall t, f_pc f (S t) <> FOut (VC t MJoin).
Proof.
  intros E ST Z t P. destruct (fine_timer p ls f es E) as (l2 & s & X & L).
  apply (stuck_destroy_returned p l2 s es X (fine_timer_stuck p f s L ST) (proj2 (vlink_idle p f s 0 L) Z) t).
  destruct L as (b & H & (_ & _ & Q)).
  assert (MV : forall t, v_step p f (FMove t) = None) by (intros k; apply ST; exact I).
  destruct (stuck_same f b H MV) as (_ & _ & R). rewrite R, Q in P. now injection P.
Qed.
(** one thread starts and one thread stops a periodic timer: a state in which nothing can move has no call in progress *)
Theorem fine_disciplined p c d ls f es : p = true -> exec (v_step p) v_init ls = Some (f, es) -> disciplined c d es -> v_stuck p f -> forall t, v_idle f t.
Proof.
  intros -> E D ST t. destruct (fine_timer true ls f es E) as (l2 & s & X & L). apply (vlink_idle true f s t L).
  destruct (fine_timer_stuck true f s L ST) as (A & B & _).
  assert (DEC : m_idle s t \/ ~ m_idle s t) by (unfold m_idle; destruct (m_thr s t); (now left) || (right; discriminate)).
  destruct DEC as [Y|N]; [exact Y|]. destruct (disciplined_progress c d l2 s es t X D N) as [Z|[Z|Z]]; [elim Z; apply A|elim Z; exact B|elim Z; apply A].
Qed.
Lemma v_rest p f n : f_own f = None -> f_pc f 0 = FOut (VN n) -> n = LSleep \/ n = LDone -> (forall t, v_idle f t) -> v_stuck p f.
Proof.
  intros O N NN J [[|t]|[|t]|l] OW; unfold v_step, v_idle in *; cbn [f_step].
  - rewrite N, O. destruct NN as [-> | ->]; reflexivity.
  - now rewrite J, ?O.
  - now rewrite N, ?O.
  - now rewrite J, ?O.
  - destruct l; cbn [v_actor]; try contradiction; rewrite ?N, ?J; destruct NN as [-> | ->]; reflexivity.
Qed.
