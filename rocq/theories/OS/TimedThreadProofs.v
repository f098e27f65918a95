(** How long the calls of StdCppThread take. *)
From Coq Require Import List ZArith Bool Arith Lia.
Import ListNotations.
From Verif Require Import Spec.OSError Spec.Linear Spec.TimedSpec Spec.TimedMoreSpec Spec.ThreadSpec OS.Sched OS.ThreadModel OS.ThreadProofs OS.TimedModel OS.TimedProofs OS.TimedCalls
  OS.TimedThreadModel.
Open Scope Z_scope.
Notation hst := ThreadModel.tst.
Notation hlab := ThreadModel.tlab.
Notation hstep := ThreadModel.t_step.

Ltac th_cases E := cbn beta iota delta [ThreadModel.t_step] in E;
  repeat match type of E with context [match ?x with _ => _ end] => destruct x eqn:?; try discriminate E end; injection E as <- <-.

Lemma th_shape s l s' e : hstep s l = Some (s', e) -> seen (th_who l) (filter visible e).
Proof. intros E. destruct l; th_cases E; cbn; constructor. Qed.

(** ** not early *)
Definition tpassed (c : tcall) (t0 now : Z) : Prop := exists m, thread_limit c = Some m /\ t0 + wait_ms m <= now.
(** a client, asleep or about to check, has recorded the time of its call *)
Definition hE (x : tst hst) (t : nat) (t0 : Z) (c : tcall) : Prop :=
  t = 0%nat \/ t0 <= t_now x /\
  match t_thr (t_st x) t with
  | TIdle => False
  | TAt d | TAsleep d => d = c /\ t_since x t = t0
  | TReq | TJoin => True
  | TRet r => r = RErr TimedOut -> tpassed c t0 (t_now x)
  end.
Section TH.
  Variable n : nat.

  Lemma wake_eq q : (t_wake q = q /\ forall c, q <> TAsleep c) \/ exists c, q = TAsleep c /\ t_wake q = TAt c.
  Proof. destruct q; cbn; eauto; left; split; auto; discriminate. Qed.
  (** what a step does to the client [u] that does not move *)
  Lemma th_other s l s' e u : hstep s l = Some (s', e) -> u <> th_who l \/ l = NStep \/ l = NSpurious -> t_thr s' u = t_thr s u \/ t_thr s' u = t_wake (t_thr s u).
  Proof.
    intros E N. destruct l; th_cases E; cbn [th_who] in N; cbn; auto;
    destruct N as [N|[N|N]]; try discriminate N; rewrite ?fupd_other by congruence; auto.
  Qed.
  Lemma th_since (x : tst hst) l u : u <> th_who l -> (if th_starts (t_st x) l then fupd (t_since x) (th_who l) (t_now x) else t_since x) u = t_since x u.
  Proof. intros N. destruct (th_starts (t_st x) l); [now rewrite fupd_other|reflexivity]. Qed.

  Definition zero (x : tst hst) : Prop := t_thr (t_st x) 0 = TIdle.
  Lemma th_zero may_tick ls x es : exec (th_timed n may_tick) (t_init ThreadModel.t_init) ls = Some (x, es) -> zero x.
  Proof.
    apply (exec_inv_st _ _ _ (th_timed n may_tick) zero); [|reflexivity]. intros y l y' es' H S. unfold th_timed in S. unfold zero in *. destruct l as [l|].
    - apply t_act_inv in S. destruct S as (_ & _ & s' & e & S & _ & ->). cbn [t_st].
      destruct l; th_cases S; cbn; rewrite ?fupd_eq; try (match goal with |- context [Nat.eqb 0 ?t] => destruct t end; cbn in *; rewrite ?andb_false_r in *; congruence); try exact H; now rewrite H.
    - apply t_tick_inv in S. destruct S as (_ & _ & ->). exact H.
  Qed.

  Theorem th_not_early may_tick ls x es : exec (th_timed n may_tick) (t_init ThreadModel.t_init) ls = Some (x, es) ->
    not_early thread_limit thread_timed_out es.
  Proof.
    intros E. 
    destruct (vtimed_calls hst hlab tcall tres hstep th_who n th_starts th_expiry may_tick (fun _ => True) zero hE
      (fun t t0 c t1 r => r = RErr TimedOut -> tpassed c t0 t1)) with (x0 := @t_init hst ThreadModel.t_init) (ls := ls) (x := x) (es := es) as (_ & H).
    - exact th_shape.
    - intros y l y' es' t c _ _ S F. apply t_act_inv in S. destruct S as (_ & _ & s' & e & S & -> & ->).
      rewrite filter_stamp in F. unfold hE. cbn [t_st t_now t_since].
      destruct l; th_cases S; cbn in F; try discriminate F; injection F as <- <-; [|now left].
      right. split; [lia|]. cbn. rewrite !fupd_same. auto.
    - intros y l y' es' t t0 c _ _ [->|(T0 & Pt)] S HR; [now left|]. destruct (Nat.eq_dec t 0) as [->|TN]; [now left|right].
      apply t_act_inv in S. destruct S as (_ & X & s' & e & S & -> & ->). cbn [t_st t_now t_since]. split; [exact T0|].
      destruct (Nat.eq_dec t (th_who l)) as [->|N].
      2:{ rewrite (th_since y l t N). destruct (th_other _ _ _ _ t S (or_introl N)) as [-> | ->]; [exact Pt|].
          destruct (wake_eq (t_thr (t_st y) t)) as [(-> & _)|(d & Q & ->)]; [exact Pt|]. rewrite Q in Pt. exact Pt. }
      assert (HR' : forall z, In z e -> about (th_who l) z = false) by (intros z Z; apply (HR (t_now y, z)); apply in_map_iff; eauto). clear HR.
      destruct l; cbn [th_who] in *; try congruence; th_cases S; cbn [th_starts];
        repeat match goal with h : t_thr _ _ = _ |- _ => rewrite h in Pt end; try contradiction;
        try (exfalso; specialize (HR' _ (or_introl eq_refl)); cbn in HR'; rewrite Nat.eqb_refl in HR'; discriminate);
        cbn; rewrite fupd_same; try exact Logic.I; try discriminate; try exact Pt.
      intros _. destruct Pt as (<- & SI). unfold th_expiry in X. match goal with h : t_thr _ _ = TAsleep (TWait _) |- _ => rewrite h in X end. specialize (X ms eq_refl). exists ms.
      unfold thread_limit, of_ms. match goal with h : (ms =? -1) = false |- _ => rewrite h end. split; [reflexivity|]. unfold wait_ms. lia.
    - intros y y' es' t t0 c _ [->|(T0 & Pt)] S; [now left|right]. apply t_tick_inv in S. destruct S as (_ & _ & ->). cbn [t_st t_now t_since]. split; [lia|].
      destruct (t_thr (t_st y) t); auto. intros R. destruct (Pt R) as (m & A & B). exists m. split; [exact A|lia].
    - intros y l y' es' t t0 c r J _ P S F. apply t_act_inv in S. destruct S as (_ & X & s' & e & S & -> & ->). rewrite filter_stamp in F.
      destruct l; th_cases S; cbn in F; try discriminate F; injection F as <- <-.
      + destruct P as [->|(_ & P)]; [unfold zero in J; congruence|]. match goal with h : t_thr _ _ = TRet _ |- _ => rewrite h in P end. exact P.
      + discriminate.
    - intros y l y' es' t c r _ _ S F. apply t_act_inv in S. destruct S as (_ & X & s' & e & S & -> & ->). rewrite filter_stamp in F.
      destruct l; th_cases S; cbn in F; try discriminate F; injection F as <- <- _ <-; discriminate.
    - auto.
    - intros ls1 ls2 x1 e1 _ E1. exact (th_zero may_tick ls1 x1 e1 E1).
    - exact E.
    - intros t t0 c t1 r T TO. exact (H t t0 c t1 r T TO).
  Qed.

  (** ** not late *)
  Notation ustep := (th_timed n (th_urgent n)).
  Notation x0 := (t_init ThreadModel.t_init).
  Definition asleep_ok (s : hst) : Prop := forall t c, (t_thr s t = TAsleep c -> c = TDestroy \/ exists ms, c = TWait ms) /\ (t_thr s t = TAt c -> client_call c = true).
  Definition hgood (x : tst hst) : Prop := zero x /\ asleep_ok (t_st x) /\ forall t, (n <= t)%nat -> t_idle (t_st x) t.
  Lemma th_good ls x es : exec ustep x0 ls = Some (x, es) -> hgood x.
  Proof.
    intros E. split; [exact (th_zero _ _ _ _ E)|]. split.
    { revert E. apply (exec_inv_st _ _ _ ustep (fun x => asleep_ok (t_st x))); [|intros t c; split; discriminate].
      intros y l y' es' H S. unfold th_timed in S. destruct l as [l|].
      - apply t_act_inv in S. destruct S as (W & _ & s' & e & S & _ & ->). cbn [t_st]. intros t c.
        destruct (H t c) as (H1 & H2). destruct l; th_cases S; cbn; rewrite ?fupd_eq; try (split; [exact H1|exact H2]);
          try (match goal with |- context [Nat.eqb t ?u] => destruct (Nat.eqb_spec t u) as [->|] end; [|split; [exact H1|exact H2]]; split; intros X; try discriminate X; injection X as <-; eauto; fail).
        + destruct (Nat.eqb_spec t t0) as [->|]; [|split; [exact H1|exact H2]]. split; intros X; [discriminate|]. injection X as <-. apply andb_prop in Heqb. tauto.
        + destruct (Nat.eqb_spec t t0) as [->|]; [|split; [exact H1|exact H2]]. split; intros X; [discriminate|]. injection X as <-.
          destruct (proj1 (H t0 c0) ltac:(assumption)) as [->|(ms & ->)]; reflexivity.
        + split; intros X; destruct (t_thr (t_st y) t) as [|d|d| | |r] eqn:Q; cbn in X; try discriminate X.
          * injection X as <-. now apply H2.
          * injection X as <-. destruct (H1 eq_refl) as [->|(ms & ->)]; reflexivity.
      - apply t_tick_inv in S. destruct S as (_ & _ & ->). exact H. }
    revert E. apply (exec_inv_st _ _ _ ustep (fun x => forall t, (n <= t)%nat -> t_idle (t_st x) t)); [|intros t _; reflexivity].
    intros y l y' es' H S t Lt. unfold th_timed in S. unfold t_idle in *. destruct l as [l|].
    - apply t_act_inv in S. destruct S as (W & _ & s' & e & S & _ & ->). cbn [t_st].
      destruct (th_other _ _ _ _ t S) as [-> | ->]; [left; lia|now apply H|]. now rewrite (H t Lt).
    - apply t_tick_inv in S. destruct S as (_ & _ & ->). now apply H.
  Qed.
  (** when time passes, a client waits in timedWait before its limit, or in the destructor, or has no call; the thread is not about to take note of
      the end of its run *)
  Lemma th_tick_shape x : hgood x -> th_urgent n x = true ->
    (forall t, t_idle (t_st x) t \/ t_thr (t_st x) t = TAsleep TDestroy \/ t_thr (t_st x) t = TJoin \/
      (exists ms, t_thr (t_st x) t = TAsleep (TWait ms) /\ (ms <> -1 -> t_now x < t_since x t + ms))) /\
    ((0 < n)%nat -> t_nat (t_st x) <> NClear).
  Proof.
    intros (Z0 & AO & ID) U. unfold th_urgent, urgent in U. pose proof (forallb_seq _ _ U) as U'. cbn beta in U'. clear U. split.
    - intros t. destruct (le_lt_dec n t) as [G|G]; [left; now apply ID|]. destruct t as [|t]; [left; exact Z0|]. specialize (U' (S t) G).
      apply andb_prop in U'. destruct U' as (U1 & U2). cbn [th_go th_prompt] in U1. unfold th_prompt in U1, U2. cbn beta iota delta [ThreadModel.t_step] in U1, U2.
      unfold t_idle. destruct (t_thr (t_st x) (S t)) as [|c|c| | |r] eqn:Q; [now left| | |discriminate|auto|discriminate].
      + exfalso. pose proof (proj2 (AO _ _) Q) as CC. destruct c; try discriminate; destruct (t_active (t_st x)); discriminate.
      + destruct (proj1 (AO _ _) Q) as [->|(ms & ->)]; [auto|]. right; right; right. exists ms. split; [reflexivity|]. intros N.
        destruct (Z.eqb_spec ms (-1)) as [|_]; [contradiction|]. unfold due, th_expiry in U2. rewrite Q in U2. cbn [th_who] in U2.
        destruct (t_active (t_st x)); apply negb_true_iff, Z.leb_gt in U2; exact U2.
    - intros G N. specialize (U' 0%nat G). apply andb_prop in U'. destruct U' as (U1 & _). cbn [th_go] in U1. unfold th_prompt in U1. cbn beta iota delta [ThreadModel.t_step] in U1.
      rewrite N in U1. discriminate.
  Qed.

  Definition hL (x : tst hst) (t : nat) (t0 : Z) (c : tcall) : Prop :=
    t0 <= t_now x /\ (t < n)%nat /\
    (t = 0%nat -> c = TEnd /\ t_nat (t_st x) = NClear /\ t_now x = t0) /\
    (t <> 0%nat ->
      match t_thr (t_st x) t with
      | TIdle => False
      | TAt d | TAsleep d => d = c /\ t_since x t = t0
      | TReq | TJoin => c = TDestroy
      | TRet _ => True
      end /\ forall m, thread_limit c = Some m -> t_now x <= t0 + wait_ms m).
  Theorem th_not_late ls x es : exec ustep x0 ls = Some (x, es) -> not_late thread_limit 1 (t_now x) es.
  Proof.
    intros E.
    assert (WN : forall m, 0 <= wait_ms m) by (intros m; unfold wait_ms; lia).
    destruct (vtimed_calls hst hlab tcall tres hstep th_who n th_starts th_expiry (th_urgent n) (fun _ => True) hgood hL
      (fun t t0 c t1 r => forall m, thread_limit c = Some m -> t0 <= t1 <= t0 + wait_ms m)) with (x0 := @t_init hst ThreadModel.t_init) (ls := ls) (x := x) (es := es) as (HP & H).
    - exact th_shape.
    - intros y l y' es' t c _ _ S F. apply t_act_inv in S. destruct S as (W & _ & s' & e & S & -> & ->).
      rewrite filter_stamp in F. unfold hL. cbn [t_st t_now t_since].
      destruct l; cbn [th_who] in W; th_cases S; cbn in F; try discriminate F; injection F as <- <-; (split; [lia|]; split; [exact W|]; split; intros TZ).
      + exfalso. subst. cbn in Heqb. rewrite andb_false_r in Heqb. discriminate.
      + cbn. rewrite !fupd_same. split; [auto|]. intros m _. specialize (WN m). lia.
      + auto.
      + now elim TZ.
    - intros y l y' es' t t0 c G _ (T0 & Tn & Pz & Pt) S HR.
      apply t_act_inv in S. destruct S as (_ & X & s' & e & S & -> & ->). unfold hL. cbn [t_st t_now t_since]. split; [exact T0|]. split; [exact Tn|].
      assert (HR' : forall z, In z e -> about t z = false) by (intros z Z; apply (HR (t_now y, z)); apply in_map_iff; eauto). clear HR. split; intros TZ.
      + specialize (Pz TZ). destruct Pz as (A & B & D). split; [exact A|]. split; [|exact D].
        subst t. destruct l; th_cases S; cbn; try congruence; try (rewrite B; reflexivity); try exact B;
          exfalso; specialize (HR' _ (or_intror (or_introl eq_refl))); discriminate.
      + specialize (Pt TZ). destruct Pt as (Pt & Pl). split; [|exact Pl].
        destruct (Nat.eq_dec t (th_who l)) as [->|N].
        2:{ rewrite (th_since y l t N). destruct (th_other _ _ _ _ t S (or_introl N)) as [-> | ->]; [exact Pt|].
            destruct (wake_eq (t_thr (t_st y) t)) as [(-> & _)|(d & Q & ->)]; [exact Pt|]. rewrite Q in Pt. exact Pt. }
        destruct l; cbn [th_who] in *; try congruence; th_cases S; cbn [th_starts];
          repeat match goal with h : t_thr _ _ = _ |- _ => rewrite h in Pt end; try contradiction;
          try (exfalso; specialize (HR' _ (or_introl eq_refl)); cbn in HR'; rewrite Nat.eqb_refl in HR'; discriminate);
          cbn; rewrite fupd_same; try exact Logic.I; try discriminate; try exact Pt; try (destruct Pt; congruence).
    - intros y y' es' t t0 c G (T0 & Tn & Pz & Pt) S. apply t_tick_inv in S. destruct S as (U & _ & ->). unfold hL. cbn [t_st t_now t_since].
      split; [lia|]. split; [exact Tn|]. destruct (th_tick_shape y G U) as (A & B). split; intros TZ.
      + exfalso. specialize (Pz TZ). destruct Pz as (_ & N & _). apply B; [lia|exact N].
      + specialize (Pt TZ). destruct Pt as (Pt & Pl). split; [exact Pt|]. intros m Lm. unfold t_idle in A.
        destruct (A t) as [Q|[Q|[Q|(ms & Q & D)]]]; rewrite Q in Pt; [contradiction|destruct Pt as (<- & _); discriminate|subst c; discriminate|].
        destruct Pt as (<- & SI). cbn in Lm. unfold of_ms in Lm. destruct (Z.eqb_spec ms (-1)) as [|NE]; [discriminate|]. injection Lm as <-.
        specialize (D NE). unfold wait_ms. lia.
    - intros y l y' es' t t0 c r _ _ (T0 & Tn & Pz & Pt) S F m Lm. split; [exact T0|]. specialize (WN m). destruct (Nat.eq_dec t 0) as [TZ|TZ].
      + destruct (Pz TZ) as (_ & _ & D). lia.
      + destruct (Pt TZ) as (_ & D). exact (D m Lm).
    - intros y l y' es' t c r _ _ S F m Lm. specialize (WN m). lia.
    - auto.
    - intros ls1 ls2 x1 e1 _ E1. exact (th_good ls1 x1 e1 E1).
    - exact E.
    - split; [intros t t0 c m t1 r T Lm; specialize (H _ _ _ _ _ T m Lm); lia|].
      intros t t0 c m T Lm. destruct (HP _ _ _ T) as (T0 & Tn & Pz & Pt). specialize (WN m). destruct (Nat.eq_dec t 0) as [TZ|TZ].
      + destruct (Pz TZ) as (_ & _ & D). lia.
      + destruct (Pt TZ) as (_ & D). specialize (D m Lm). lia.
  Qed.

  (** the clock never stops *)
  Theorem th_time_goes_on ls0 x es0 : exec ustep x0 ls0 = Some (x, es0) ->
    exists ls x1 es1, (length ls <= n * (2 * n + 8) + 2 * n + 6)%nat /\ exec ustep x ls = Some (x1, es1) /\ t_now x1 = t_now x /\
      ustep x1 TTick = Some (mkT (t_st x1) (t_now x + 1) (t_since x1), []).
  Proof.
    intros E. destruct (th_good ls0 x es0 E) as (_ & _ & ID).
    apply (clock_goes_on hst hlab tcall tres hstep th_who n th_starts th_expiry (th_urgent n) t_own_step).
    - clear. intros x U. unfold th_urgent, urgent in U.
      assert (X : exists t, (t < n)%nat /\ (match th_prompt (t_st x) (th_go t) with Some _ => false | None => true end &&
              match th_prompt (t_st x) (TTimeout t) with Some _ => negb (due hst hlab th_who th_expiry x (TTimeout t)) | None => true end) = false).
      { revert U. match goal with |- forallb ?g _ = false -> _ => set (f := g) end. intros U.
        assert (G : forall l, forallb f l = false -> exists t, In t l /\ f t = false).
        { induction l as [|a l IH]; cbn; [discriminate|]. destruct (f a) eqn:F; [|eauto]. intros H. destruct (IH H) as (t & A & B). eauto. }
        destruct (G _ U) as (t & A & B). exists t. apply in_seq in A. split; [lia|exact B]. }
      assert (PR : forall l r, th_prompt (t_st x) l = Some r -> hstep (t_st x) l = Some r).
      { intros l r. unfold th_prompt. destruct l; auto. destruct (t_nat (t_st x)); auto. discriminate. }
      destruct X as (t & Lt & X). assert (Ltb : Nat.ltb t n = true) by now apply Nat.ltb_lt.
      destruct (th_prompt (t_st x) (th_go t)) as [[s' e]|] eqn:G.
      + apply PR in G. exists (th_go t). unfold t_step, due. assert (W : th_who (th_go t) = t) by now destruct t. rewrite W, Ltb, G.
        assert (XE : th_expiry (t_st x) (th_go t) = None) by now destruct t. rewrite XE. cbn [andb]. eexists _, _. split; [now destruct t|reflexivity].
      + cbn [andb] in X. destruct (th_prompt (t_st x) (TTimeout t)) as [[s' e]|] eqn:G'; [|discriminate]. apply PR in G'.
        apply negb_false_iff in X. exists (TTimeout t). unfold t_step. cbn [th_who]. rewrite X, Ltb, G'. cbn [andb]. eexists _, _. split; [exact I|reflexivity].
    - intros ls s' es O X. apply (thread_calls_end n (acts hlab ls0) (t_st x) (map snd es0) ls s' es); [exact (timed_exec _ _ _ _ _ _ _ _ _ _ _ _ _ _ E)|exact ID|exact O|exact X].
  Qed.
End TH.
