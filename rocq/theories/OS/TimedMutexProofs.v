(** How long the calls of StdCppMutex take. *)
From Coq Require Import List ZArith Bool Arith Lia.
Import ListNotations.
From Verif Require Import Spec.OSError Spec.Linear Spec.MutexSpec Spec.TimedSpec OS.Sched OS.MutexModel OS.MutexProofs OS.TimedModel OS.TimedProofs.
Open Scope Z_scope.

Section MX.
  Variables (M n : nat) (may_tick : tst mst -> bool).
  Notation tstep := (mx_timed M n may_tick).
  Notation x0 := (t_init m_init).

  Lemma mx_shape s l s' e : m_step M s l = Some (s', e) -> one_event (mx_who l) e.
  Proof.
    intros E. destruct l as [t c|t|t|t]; cbn beta iota delta [m_step mx_who] in E |- *; destruct (x_thr s t) as [|d| | | | |r]; try discriminate;
    repeat match type of E with context [match ?x with _ => _ end] => destruct x; try discriminate end;
    injection E as <- <-; constructor.
  Qed.
  Lemma mx_other s l s' e u : m_step M s l = Some (s', e) -> u <> mx_who l -> x_thr s' u = x_thr s u.
  Proof.
    intros E N. destruct l as [t c|t|t|t]; cbn beta iota delta [m_step mx_who] in E, N; destruct (x_thr s t) as [|d| | | | |r]; try discriminate;
    repeat match type of E with context [match ?x with _ => _ end] => destruct x; try discriminate end;
    injection E as <- <-; cbn; now rewrite fupd_other.
  Qed.
  Lemma since_other (x : tst mst) l u : u <> mx_who l -> (if mx_starts (t_st x) l then fupd (t_since x) (mx_who l) (t_now x) else t_since x) u = t_since x u.
  Proof. intros N. destruct (mx_starts (t_st x) l); [now rewrite fupd_other|reflexivity]. Qed.

  (** ** not early *)
  Definition mE (x : tst mst) (t : nat) (t0 : Z) (c : mcall) : Prop :=
    t0 <= t_now x /\
    match x_thr (t_st x) t with
    | MIdle => False
    | MAcq d => d = c /\ is_lock c = true /\ t_since x t = t0
    | MRet r => r = TimedOut -> exists m, mutex_limit c = Some m /\ t0 + wait_ms m <= t_now x
    | _ => True
    end.
  Definition nesting_ok (x : tst mst) : Prop := forall u k, x_owner (t_st x) = Some (u, k) -> (k < M)%nat.
  Theorem mx_not_early ls x es : exec tstep x0 ls = Some (x, es) ->
    (forall ls1 ls2 x1 e1, ls = ls1 ++ ls2 -> exec tstep x0 ls1 = Some (x1, e1) -> nesting_ok x1) ->
    not_early mutex_limit mutex_timed_out es.
  Proof.
    intros E HN.
    destruct (timed_calls mst mlab mcall err (m_step M) mx_who n mx_starts mx_expiry may_tick (fun _ => True) nesting_ok mE
      (fun t t0 c t1 r => r = TimedOut -> exists m, mutex_limit c = Some m /\ t0 + wait_ms m <= t1)) with (x0 := @t_init mst m_init) (ls := ls) (x := x) (es := es) as (_ & H).
    - exact mx_shape.
    - intros y l y' t c _ _ S. apply t_act_inv in S. destruct S as (_ & _ & s' & e & S & EQ & ->).
      destruct e as [|e [|? ?]]; try discriminate. injection EQ as <-. unfold mE. cbn [t_st t_now t_since]. split; [lia|].
      destruct l as [u d|u|u|u].
      { cbn beta iota delta [m_step mx_who mx_starts] in S |- *. destruct (x_thr (t_st y) u) as [|d'| | | | |r]; try discriminate.
        injection S as <- -> ->. cbn [m_go x_thr]. rewrite fupd_same. destruct (is_lock c) eqn:K; [|exact I].
        split; [reflexivity|]. split; [reflexivity|apply fupd_same]. }
      all: exfalso; cbn beta iota delta [m_step] in S; destruct (x_thr (t_st y) u) as [|d'| | | | |r]; try discriminate;
        repeat match type of S with context [match ?x with _ => _ end] => destruct x; try discriminate end.
    - intros y l y' es' t t0 c NL _ (T0 & Pt) S HR. apply t_act_inv in S. destruct S as (_ & X & s' & e & S & -> & ->).
      unfold mE. cbn [t_st t_now t_since]. split; [exact T0|].
      destruct (Nat.eq_dec t (mx_who l)) as [->|N].
      2:{ rewrite (mx_other _ _ _ _ _ S N), (since_other y l t N). exact Pt. }
      destruct l as [u d|u|u|u]; cbn beta iota delta [m_step mx_who mx_starts] in S, X, Pt, HR |- *; destruct (x_thr (t_st y) u) as [|d'| | | | |r] eqn:Q; try discriminate; try contradiction;
      repeat match type of S with context [match ?x with _ => _ end] => destruct x eqn:?; try discriminate end; injection S as <- <-; cbn; rewrite fupd_same; try tauto; try discriminate.
      + (* owner at the nesting limit *) exfalso. specialize (NL n0 n1 ltac:(assumption)). match goal with h : (n1 <? M)%nat = false |- _ => apply Nat.ltb_ge in h end. lia.
      + exfalso. assert (G := HR _ (or_introl eq_refl)). cbn in G. rewrite Nat.eqb_refl in G. discriminate.
      + destruct Pt as (-> & IL & SI). intros _. unfold mx_expiry in X. rewrite Q in X. rewrite SI in X.
        match goal with h : (_ || _)%bool = false |- _ => apply orb_false_elim in h; destruct h as (W & _) end.
        destruct c as [| |ms|]; cbn in W, IL; try discriminate.
        * exists 0. split; [reflexivity|]. specialize (X 0 eq_refl). unfold wait_ms. lia.
        * exists ms. cbn. unfold of_ms. rewrite W. split; [reflexivity|]. specialize (X ms eq_refl). unfold wait_ms. lia.
    - intros y y' es' t t0 c _ (T0 & Pt) S. apply t_tick_inv in S. destruct S as (_ & _ & ->). unfold mE. cbn [t_st t_now t_since]. split; [lia|].
      destruct (x_thr (t_st y) t); auto. intros R. destruct (Pt R) as (m & A & B). exists m. split; [exact A|lia].
    - intros y l y' t t0 c r _ _ (T0 & Pt) S. apply t_act_inv in S. destruct S as (_ & X & s' & e & S & EQ & ->).
      destruct e as [|e [|? ?]]; try discriminate. injection EQ as <-.
      destruct l as [u d|u|u|u]; cbn beta iota delta [m_step] in S; destruct (x_thr (t_st y) u) as [|d'| | | | |r'] eqn:Q; try discriminate;
      repeat match type of S with context [match ?x with _ => _ end] => destruct x; try discriminate end; injection S; intros; try discriminate; subst.
      rewrite Q in Pt. auto.
    - auto.
    - exact HN.
    - exact E.
    - exact H.
  Qed.
End MX.

Section Urgent.
  Variables (M n : nat).
  Notation tstep := (mx_timed M n (mx_urgent M n)).
  Notation x0 := (t_init m_init).

  (** threads beyond the first [n] stay idle *)
  Definition rest_idle (x : tst mst) : Prop := forall t, (n <= t)%nat -> m_idle (t_st x) t.
  Lemma mx_rest ls x es : exec tstep x0 ls = Some (x, es) -> rest_idle x.
  Proof.
    apply (exec_inv_st _ _ _ tstep rest_idle); [|intros t _; reflexivity]. intros y l y' es' H S t Lt. unfold mx_timed in S. destruct l as [l|].
    - apply t_act_inv in S. destruct S as (W & _ & s' & e & S & _ & ->). unfold m_idle. cbn [t_st]. rewrite (mx_other M _ _ _ _ t S) by lia. exact (H t Lt).
    - apply t_tick_inv in S. destruct S as (_ & _ & ->). exact (H t Lt).
  Qed.
  Lemma mx_tick_shape x : rest_idle x -> mx_urgent M n x = true ->
    forall t, m_idle (t_st x) t \/ exists c, x_thr (t_st x) t = MAcq c /\ forall m, mutex_limit c = Some m -> t_now x < t_since x t + m.
  Proof.
    intros ID U. unfold mx_urgent, urgent in U. pose proof (forallb_seq _ _ U) as U'. cbn beta in U'. clear U.
    assert (ST : forall t, m_step M (t_st x) (MStep t) = None).
    { intros t. destruct (le_lt_dec n t) as [G|G]; [cbn; now rewrite (ID t G)|]. specialize (U' t G). destruct (m_step M (t_st x) (MStep t)); [discriminate|reflexivity]. }
    intros t. destruct (le_lt_dec n t) as [G|G]; [left; now apply ID|].
    assert (B : m_idle (t_st x) t \/ exists c u k, x_thr (t_st x) t = MAcq c /\ x_owner (t_st x) = Some (u, k) /\ u <> t).
    { specialize (ST t). unfold m_idle. cbn [m_step] in ST. destruct (x_thr (t_st x) t) as [|c| | | | |r]; try discriminate.
      - now left.
      - right. destruct (x_owner (t_st x)) as [[u k]|]; [|discriminate]. destruct (Nat.eqb_spec u t) as [|N]; [|eauto 6].
        destruct (Nat.ltb k M); [discriminate|]. destruct (waits_forever c); discriminate.
      - destruct (x_count (t_st x) =? 0); discriminate.
      - destruct (x_owner (t_st x)) as [[u k]|]; [|discriminate]. destruct (Nat.eqb u t); discriminate. }
    destruct B as [B|(c & u & k & A & O & N)]; [now left|right]. exists c. split; [exact A|]. intros m Lm.
    specialize (U' t G). rewrite ST in U'. cbn [andb m_step] in U'. rewrite A, O in U'. destruct (Nat.eqb_spec u t) as [|_]; [contradiction|].
    rewrite orb_false_r in U'. unfold due, mx_expiry in U'. rewrite A in U'. cbn [mx_who] in U'. destruct c as [| |ms|]; cbn in Lm, U'; try discriminate.
    - injection Lm as <-. apply negb_true_iff in U'. apply Z.leb_gt in U'. lia.
    - unfold of_ms in Lm. destruct (ms =? -1); [discriminate|]. injection Lm as <-. apply negb_true_iff in U'. apply Z.leb_gt in U'. lia.
  Qed.

  Definition mL (x : tst mst) (t : nat) (t0 : Z) (c : mcall) : Prop :=
    t0 <= t_now x /\
    match x_thr (t_st x) t with
    | MIdle => False
    | MAcq d => d = c /\ t_since x t = t0
    | _ => True
    end /\ forall m, mutex_limit c = Some m -> t_now x <= t0 + wait_ms m.
  Theorem mx_not_late ls x es : exec tstep x0 ls = Some (x, es) -> not_late mutex_limit 1 (t_now x) es.
  Proof.
    intros E.
    destruct (timed_calls mst mlab mcall err (m_step M) mx_who n mx_starts mx_expiry (mx_urgent M n) (fun _ => True) rest_idle mL
      (fun t t0 c t1 r => forall m, mutex_limit c = Some m -> t0 <= t1 <= t0 + wait_ms m)) with (x0 := @t_init mst m_init) (ls := ls) (x := x) (es := es) as (HP & H).
    - exact (mx_shape M).
    - intros y l y' t c _ _ S. apply t_act_inv in S. destruct S as (_ & _ & s' & e & S & EQ & ->).
      destruct e as [|e [|? ?]]; try discriminate. injection EQ as <-. unfold mL. cbn [t_st t_now t_since]. split; [lia|].
      split; [|intros m _; unfold wait_ms; lia].
      destruct l as [u d|u|u|u].
      { cbn beta iota delta [m_step mx_who mx_starts] in S |- *. destruct (x_thr (t_st y) u) as [|d'| | | | |r]; try discriminate.
        injection S as <- -> ->. cbn [m_go x_thr]. rewrite fupd_same. destruct (is_lock c) eqn:K; [|exact I].
        split; [reflexivity|apply fupd_same]. }
      all: exfalso; cbn beta iota delta [m_step] in S; destruct (x_thr (t_st y) u) as [|d'| | | | |r]; try discriminate;
        repeat match type of S with context [match ?x with _ => _ end] => destruct x; try discriminate end.
    - intros y l y' es' t t0 c NL _ (T0 & Pt & Pl) S HR. apply t_act_inv in S. destruct S as (_ & X & s' & e & S & -> & ->).
      unfold mL. cbn [t_st t_now t_since]. split; [exact T0|]. split; [|exact Pl].
      destruct (Nat.eq_dec t (mx_who l)) as [->|N].
      2:{ rewrite (mx_other M _ _ _ _ _ S N), (since_other y l t N). exact Pt. }
      destruct l as [u d|u|u|u]; cbn beta iota delta [m_step mx_who mx_starts] in S, X, Pt, HR |- *; destruct (x_thr (t_st y) u) as [|d'| | | | |r] eqn:Q; try discriminate; try contradiction;
      repeat match type of S with context [match ?x with _ => _ end] => destruct x eqn:?; try discriminate end; injection S as <- <-; cbn; rewrite fupd_same; try exact I.
      exfalso. assert (G := HR _ (or_introl eq_refl)). cbn in G. rewrite Nat.eqb_refl in G. discriminate.
    - intros y y' es' t t0 c ID (T0 & Pt & Pl) S. apply t_tick_inv in S. destruct S as (U & _ & ->). unfold mL. cbn [t_st t_now t_since]. split; [lia|]. split; [exact Pt|].
      intros m Lm. destruct (mx_tick_shape y ID U t) as [Y|(d & Y & B)]; [unfold m_idle in Y|]; rewrite Y in Pt; [contradiction|]. destruct Pt as (-> & SI). specialize (B m Lm). unfold wait_ms. lia.
    - intros y l y' t t0 c r _ _ (T0 & Pt & Pl) _ m Lm. specialize (Pl m Lm). lia.
    - auto.
    - intros ls1 ls2 x1 e1 _ E1. exact (mx_rest ls1 x1 e1 E1).
    - exact E.
    - split; [intros t t0 c m t1 r T Lm; specialize (H _ _ _ _ _ T m Lm); lia|].
      intros t t0 c m T Lm. destruct (HP _ _ _ T) as (A & _ & B). specialize (B m Lm). lia.
  Qed.

  (** the clock never stops *)
  Theorem mx_time_goes_on ls0 x es0 : exec tstep x0 ls0 = Some (x, es0) ->
    exists ls x1 es1, (length ls <= 4 * n)%nat /\ exec tstep x ls = Some (x1, es1) /\ t_now x1 = t_now x /\
      tstep x1 TTick = Some (mkT (t_st x1) (t_now x + 1) (t_since x1), []).
  Proof.
    intros E. pose proof (mx_rest ls0 x es0 E) as ID.
    apply (clock_advances mst mlab mcall err (m_step M) mx_who n mx_starts mx_expiry MStep MTimeout (fun _ => eq_refl) (fun _ => eq_refl) (fun _ _ => eq_refl) (4 * n) x).
    intros ls s' es O X. apply (mutex_calls_end M n (t_st x) ls s' es); [exact ID| |exact X].
    intros l Hl. destruct (O l Hl) as (t & [-> | ->]); exact I.
  Qed.
End Urgent.
