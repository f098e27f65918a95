(** How long the calls of ItronMutex take. *)
From Coq Require Import List ZArith Bool Arith Lia.
Import ListNotations.
From Verif Require Import Spec.OSError Spec.Linear Spec.MutexSpec Spec.TimedSpec OS.Sched OS.ItronMutexModel OS.ItronMutexProofs OS.TimedModel OS.TimedProofs
  OS.TimedItronModel.
Open Scope Z_scope.

Section IM.
  Variables (n : nat) (may_tick : tst ist -> bool).
  Notation tstep := (im_timed n may_tick).
  Notation x0 := (t_init i_init).

  Lemma im_shape s l s' e : i_step s l = Some (s', e) -> one_event (im_who l) e.
  Proof.
    intros E. destruct l as [t c|t|t|t]; cbn beta iota delta [i_step im_who] in E |- *; destruct (i_thr s t) as [|d|d|d| | | | |r]; try discriminate;
    repeat match type of E with context [match ?x with _ => _ end] => destruct x; try discriminate end;
    injection E as <- <-; constructor.
  Qed.
  Lemma im_other s l s' e u : i_step s l = Some (s', e) -> u <> im_who l -> i_thr s' u = i_thr s u.
  Proof.
    intros E N. destruct l as [t c|t|t|t]; cbn beta iota delta [i_step im_who] in E, N; destruct (i_thr s t) as [|d|d|d| | | | |r]; try discriminate;
    repeat match type of E with context [match ?x with _ => _ end] => destruct x; try discriminate end;
    injection E as <- <-; cbn; now rewrite fupd_other.
  Qed.
  Lemma im_since_other (x : tst ist) l u : u <> im_who l -> (if im_starts (t_st x) l then fupd (t_since x) (im_who l) (t_now x) else t_since x) u = t_since x u.
  Proof. intros N. destruct (im_starts (t_st x) l); [now rewrite fupd_other|reflexivity]. Qed.
  Lemma im_call s l s' t c : i_step s l = Some (s', [Call t c]) -> l = KCall t c.
  Proof.
    intros E. destruct l as [u d|u|u|u]; cbn beta iota delta [i_step] in E; destruct (i_thr s u) as [|d'|d'|d'| | | | |r]; try discriminate;
    repeat match type of E with context [match ?x with _ => _ end] => destruct x; try discriminate end.
    all: now injection E as _ -> ->.
  Qed.
  Lemma im_ret s l s' t r : i_step s l = Some (s', [Ret t r]) -> i_thr s t = IRet r.
  Proof.
    intros E. destruct l as [u d|u|u|u]; cbn beta iota delta [i_step] in E; destruct (i_thr s u) as [|d'|d'|d'| | | | |r'] eqn:Q; try discriminate;
    repeat match type of E with context [match ?x with _ => _ end] => destruct x; try discriminate end.
    all: injection E as _ <- <-; exact Q.
  Qed.

  (** ** not early *)
  Definition iE (x : tst ist) (t : nat) (t0 : Z) (c : mcall) : Prop :=
    t0 <= t_now x /\
    match i_thr (t_st x) t with
    | IIdle => False
    | IAcq d => d = c /\ is_lock c = true /\ t_since x t = t0
    | IRet r => r = TimedOut -> exists m, mutex_limit c = Some m /\ t0 + wait_ms m <= t_now x
    | _ => True
    end.
  Theorem im_not_early ls x es : exec tstep x0 ls = Some (x, es) -> not_early mutex_limit mutex_timed_out es.
  Proof.
    intros E.
    destruct (timed_calls ist ilab mcall err i_step im_who n im_starts im_expiry may_tick (fun _ => True) (fun _ => True) iE
      (fun t t0 c t1 r => r = TimedOut -> exists m, mutex_limit c = Some m /\ t0 + wait_ms m <= t1)) with (x0 := @t_init ist i_init) (ls := ls) (x := x) (es := es) as (_ & H).
    - exact im_shape.
    - intros y l y' t c _ _ S. apply t_act_inv in S. destruct S as (_ & _ & s' & e & S & EQ & ->).
      destruct e as [|e [|? ?]]; try discriminate. injection EQ as <-. unfold iE. cbn [t_st t_now t_since]. split; [lia|].
      pose proof (im_call _ _ _ _ _ S) as ->. cbn beta iota delta [i_step im_who im_starts] in S |- *. destruct (i_thr (t_st y) t); try discriminate.
      injection S as <-. cbn [i_go i_thr]. rewrite fupd_same. destruct (is_lock c) eqn:K; [|exact I].
      split; [reflexivity|]. split; [reflexivity|apply fupd_same].
    - intros y l y' es' t t0 c _ _ (T0 & Pt) S HR. apply t_act_inv in S. destruct S as (_ & X & s' & e & S & -> & ->).
      unfold iE. cbn [t_st t_now t_since]. split; [exact T0|].
      destruct (Nat.eq_dec t (im_who l)) as [->|N].
      2:{ rewrite (im_other _ _ _ _ _ S N), (im_since_other y l t N). exact Pt. }
      destruct l as [u d|u|u|u]; cbn beta iota delta [i_step im_who im_starts] in S, X, Pt, HR |- *; destruct (i_thr (t_st y) u) as [|d'|d'|d'| | | | |r] eqn:Q; try discriminate; try contradiction;
      repeat match type of S with context [match ?x with _ => _ end] => destruct x eqn:?; try discriminate end; injection S as <- <-; cbn; rewrite fupd_same; try tauto; try discriminate.
      + exfalso. assert (G := HR _ (or_introl eq_refl)). cbn in G. rewrite Nat.eqb_refl in G. discriminate.
      + destruct Pt as (-> & IL & SI). intros _. unfold im_expiry in X. rewrite Q in X. rewrite SI in X.
        match goal with h : (_ || _)%bool = false |- _ => apply orb_false_elim in h; destruct h as (W & _) end.
        destruct c as [| |ms|]; cbn in W, IL; try discriminate.
        * exists 0. split; [reflexivity|]. specialize (X 0 eq_refl). unfold wait_ms. lia.
        * exists ms. cbn. unfold of_ms. rewrite W. split; [reflexivity|]. specialize (X ms eq_refl). unfold wait_ms. lia.
    - intros y y' es' t t0 c _ (T0 & Pt) S. apply t_tick_inv in S. destruct S as (_ & _ & ->). unfold iE. cbn [t_st t_now t_since]. split; [lia|].
      destruct (i_thr (t_st y) t); auto. intros R. destruct (Pt R) as (m & A & B). exists m. split; [exact A|lia].
    - intros y l y' t t0 c r _ _ (T0 & Pt) S. apply t_act_inv in S. destruct S as (_ & X & s' & e & S & EQ & ->).
      destruct e as [|e [|? ?]]; try discriminate. injection EQ as <-. rewrite (im_ret _ _ _ _ _ S) in Pt. exact Pt.
    - auto.
    - intros a b y e _ _. exact I.
    - exact E.
    - exact H.
  Qed.
End IM.

Section Urgent.
  Variable n : nat.
  Notation tstep := (im_timed n (im_urgent n)).
  Notation x0 := (t_init i_init).

  Definition im_rest_idle (x : tst ist) : Prop := forall t, (n <= t)%nat -> i_idle (t_st x) t.
  Lemma im_rest ls x es : exec tstep x0 ls = Some (x, es) -> im_rest_idle x.
  Proof.
    apply (exec_inv_st _ _ _ tstep im_rest_idle); [|intros t _; reflexivity]. intros y l y' es' H S t Lt. unfold im_timed in S. destruct l as [l|].
    - apply t_act_inv in S. destruct S as (W & _ & s' & e & S & _ & ->). unfold i_idle. cbn [t_st]. rewrite (im_other _ _ _ _ t S) by lia. exact (H t Lt).
    - apply t_tick_inv in S. destruct S as (_ & _ & ->). exact (H t Lt).
  Qed.
  Lemma im_tick_shape x : im_rest_idle x -> im_urgent n x = true ->
    forall t, i_idle (t_st x) t \/ exists c, i_thr (t_st x) t = IAcq c /\ forall m, mutex_limit c = Some m -> t_now x < t_since x t + m.
  Proof.
    intros ID U. unfold im_urgent, urgent in U. pose proof (forallb_seq _ _ U) as U'. cbn beta in U'. clear U.
    assert (ST : forall t, i_step (t_st x) (KStep t) = None).
    { intros t. destruct (le_lt_dec n t) as [G|G]; [cbn; now rewrite (ID t G)|]. specialize (U' t G). destruct (i_step (t_st x) (KStep t)); [discriminate|reflexivity]. }
    intros t. destruct (le_lt_dec n t) as [G|G]; [left; now apply ID|].
    destruct (itron_blocked (t_st x) ST t) as [B|(c & u & R & O & N & _)]; [now left|right].
    unfold i_running in R. destruct (i_thr (t_st x) t) as [|d|d|d| | | | |r] eqn:A; try discriminate. injection R as ->. exists c. split; [reflexivity|]. intros m Lm.
    specialize (U' t G). rewrite ST in U'. cbn [andb i_step] in U'. rewrite A, O in U'. destruct (Nat.eqb_spec u t) as [|_]; [contradiction|].
    rewrite orb_false_r in U'. unfold due, im_expiry in U'. rewrite A in U'. cbn [im_who] in U'. destruct c as [| |ms|]; cbn in Lm, U'; try discriminate.
    - injection Lm as <-. apply negb_true_iff in U'. apply Z.leb_gt in U'. lia.
    - unfold of_ms in Lm. destruct (ms =? -1); [discriminate|]. injection Lm as <-. apply negb_true_iff in U'. apply Z.leb_gt in U'. lia.
  Qed.

  Definition iL (x : tst ist) (t : nat) (t0 : Z) (c : mcall) : Prop :=
    t0 <= t_now x /\
    match i_thr (t_st x) t with
    | IIdle => False
    | IAcq d => d = c /\ t_since x t = t0
    | _ => True
    end /\ forall m, mutex_limit c = Some m -> t_now x <= t0 + wait_ms m.
  Theorem im_not_late ls x es : exec tstep x0 ls = Some (x, es) -> not_late mutex_limit 1 (t_now x) es.
  Proof.
    intros E.
    destruct (timed_calls ist ilab mcall err i_step im_who n im_starts im_expiry (im_urgent n) (fun _ => True) im_rest_idle iL
      (fun t t0 c t1 r => forall m, mutex_limit c = Some m -> t0 <= t1 <= t0 + wait_ms m)) with (x0 := @t_init ist i_init) (ls := ls) (x := x) (es := es) as (HP & H).
    - exact im_shape.
    - intros y l y' t c _ _ S. apply t_act_inv in S. destruct S as (_ & _ & s' & e & S & EQ & ->).
      destruct e as [|e [|? ?]]; try discriminate. injection EQ as <-. unfold iL. cbn [t_st t_now t_since]. split; [lia|].
      split; [|intros m _; unfold wait_ms; lia].
      pose proof (im_call _ _ _ _ _ S) as ->. cbn beta iota delta [i_step im_who im_starts] in S |- *. destruct (i_thr (t_st y) t); try discriminate.
      injection S as <-. cbn [i_go i_thr]. rewrite fupd_same. destruct (is_lock c) eqn:K; [|exact I]. split; [reflexivity|apply fupd_same].
    - intros y l y' es' t t0 c NL _ (T0 & Pt & Pl) S HR. apply t_act_inv in S. destruct S as (_ & X & s' & e & S & -> & ->).
      unfold iL. cbn [t_st t_now t_since]. split; [exact T0|]. split; [|exact Pl].
      destruct (Nat.eq_dec t (im_who l)) as [->|N].
      2:{ rewrite (im_other _ _ _ _ _ S N), (im_since_other y l t N). exact Pt. }
      destruct l as [u d|u|u|u]; cbn beta iota delta [i_step im_who im_starts] in S, X, Pt, HR |- *; destruct (i_thr (t_st y) u) as [|d'|d'|d'| | | | |r] eqn:Q; try discriminate; try contradiction;
      repeat match type of S with context [match ?x with _ => _ end] => destruct x eqn:?; try discriminate end; injection S as <- <-; cbn; rewrite fupd_same; try exact I.
      exfalso. assert (G := HR _ (or_introl eq_refl)). cbn in G. rewrite Nat.eqb_refl in G. discriminate.
    - intros y y' es' t t0 c ID (T0 & Pt & Pl) S. apply t_tick_inv in S. destruct S as (U & _ & ->). unfold iL. cbn [t_st t_now t_since]. split; [lia|]. split; [exact Pt|].
      intros m Lm. destruct (im_tick_shape y ID U t) as [Y|(d & Y & B)]; [unfold i_idle in Y|]; rewrite Y in Pt; [contradiction|]. destruct Pt as (-> & SI). specialize (B m Lm). unfold wait_ms. lia.
    - intros y l y' t t0 c r _ _ (T0 & Pt & Pl) _ m Lm. specialize (Pl m Lm). lia.
    - auto.
    - intros ls1 ls2 x1 e1 _ E1. exact (im_rest ls1 x1 e1 E1).
    - exact E.
    - split; [intros t t0 c m t1 r T Lm; specialize (H _ _ _ _ _ T m Lm); lia|].
      intros t t0 c m T Lm. destruct (HP _ _ _ T) as (A & _ & B). specialize (B m Lm). lia.
  Qed.

  (** the clock never stops *)
  Theorem im_time_goes_on ls0 x es0 : exec tstep x0 ls0 = Some (x, es0) ->
    exists ls x1 es1, (length ls <= 4 * n)%nat /\ exec tstep x ls = Some (x1, es1) /\ t_now x1 = t_now x /\
      tstep x1 TTick = Some (mkT (t_st x1) (t_now x + 1) (t_since x1), []).
  Proof.
    intros E. pose proof (im_rest ls0 x es0 E) as ID.
    apply (clock_advances ist ilab mcall err i_step im_who n im_starts im_expiry KStep KTimeout (fun _ => eq_refl) (fun _ => eq_refl) (fun _ _ => eq_refl) (4 * n) x).
    intros ls s' es O X. apply (itron_calls_end n (t_st x) ls s' es); [exact ID| |exact X].
    intros l Hl. destruct (O l Hl) as (t & [-> | ->]); exact I.
  Qed.
End Urgent.
