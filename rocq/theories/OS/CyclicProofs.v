(** The Itron periodic timer fires on time. *)
From Coq Require Import List ZArith Bool Arith Lia.
Import ListNotations.
From Verif Require Import Spec.Linear Spec.CyclicSpec OS.Sched OS.CyclicModel.
Open Scope Z_scope.

(** every event of a history satisfies [Q], given what came before it *)
Definition hist (Q : yevents -> Z * event ycall yres -> Prop) (es : yevents) : Prop := forall a e d, es = a ++ e :: d -> Q a e.
Lemma hist_nil Q : hist Q [].
Proof. intros a e d H. destruct a; discriminate. Qed.
Lemma hist_snoc Q es e : hist Q es -> Q es e -> hist Q (es ++ [e]).
Proof.
  intros H P a y d E. destruct d as [|z d] using rev_ind.
  - apply app_inj_tail in E. destruct E as (-> & ->). exact P.
  - rewrite app_comm_cons, app_assoc in E. apply app_inj_tail in E. destruct E as (-> & _). exact (H a y d eq_refl).
Qed.
Lemma hist_app Q es es2 : hist Q es -> (forall a e d, es2 = a ++ e :: d -> Q (es ++ a) e) -> hist Q (es ++ es2).
Proof.
  revert es. induction es2 as [|e es2 IH]; intros es H P; [now rewrite app_nil_r|].
  replace (es ++ e :: es2) with ((es ++ [e]) ++ es2) by (now rewrite <- app_assoc). apply IH.
  - apply hist_snoc; [exact H|]. specialize (P [] e es2 eq_refl). now rewrite app_nil_r in P.
  - intros a y d ->. rewrite <- app_assoc. exact (P (e :: a) y d eq_refl).
Qed.

Section Cyc.
  Variable ms : Z.
  Hypothesis Hms : 0 < ms.

  Record yinv (s : yst) (es : yevents) : Prop := {
    yi_on : y_on s = match running es with Some _ => true | None => false end;
    yi_due : forall t0 k, running es = Some (t0, k) -> y_due s = t0 + (k + 1) * ms;
    yi_cb : y_cb s = in_callback es;
    yi_end : last_end es <= y_now s;
    yi_k : forall t0 k, running es = Some (t0, k) -> 0 <= k /\ t0 + k * ms <= y_now s }.
  Lemma yinv_init : yinv y_init [].
  Proof. constructor; cbn; auto; try discriminate; try lia. Qed.
  Lemma folds es e : running (es ++ e) = fold_left running1 e (running es) /\ last_end (es ++ e) = fold_left last_end1 e (last_end es) /\
    in_callback (es ++ e) = fold_left in_callback1 e (in_callback es).
  Proof. unfold running, last_end, in_callback. rewrite !fold_left_app. auto. Qed.
  Lemma yinv_step may_tick s l s' e es : yinv s es -> y_step ms may_tick s l = Some (s', e) -> yinv s' (es ++ e).
  Proof.
    intros [A B C D F] E. destruct (folds es e) as (X & Y & Z). unfold y_step, y_act, y_at in E.
    repeat match type of E with context [match ?x with _ => _ end] => destruct x eqn:?; try discriminate E end; injection E as <- <-;
      cbn [map fold_left running1 last_end1 in_callback1 snd fst] in X, Y, Z;
      constructor; cbn [y_on y_due y_cb y_now]; rewrite ?X, ?Y, ?Z; try assumption; try discriminate; try lia; try congruence.
    all: try (intros ? ? H; injection H as <- <-; try lia).
    all: try (intros ? ? H; specialize (F _ _ H); lia).
    all: repeat match goal with h : _ && _ = true |- _ => apply andb_prop in h; destruct h end.
    - match goal with h : y_on s = true |- _ => rewrite h in A end. destruct (running es) as [[]|]; congruence.
    - intros t0 k RX. destruct (running es) as [[t1 j]|] eqn:R; [|discriminate]. injection RX as <- <-. rewrite (B _ _ eq_refl). lia.
    - intros t0 k RX. destruct (running es) as [[t1 j]|] eqn:R; [|discriminate]. injection RX as <- <-. specialize (F _ _ eq_refl). specialize (B _ _ eq_refl).
      match goal with h : (_ <=? _) = true |- _ => apply Z.leb_le in h end. lia.
  Qed.

  (** ** for every clock *)
  Definition Qearly (a : yevents) (e : Z * event ycall yres) : Prop :=
    match snd e with
    | Eff _ YBegin _ => in_callback a = false /\ exists t0 k, running a = Some (t0, k) /\ t0 + (k + 1) * ms <= fst e
    | Eff _ YIsStarted (YBool b) => b = match running a with Some _ => true | None => false end
    | _ => True
    end.
  Lemma run_hist may_tick ls : forall s es, exec (y_step ms may_tick) y_init ls = Some (s, es) -> yinv s es /\ hist Qearly es.
  Proof.
    induction ls as [|l ls IH] using rev_ind; intros s es E.
    - injection E as <- <-. split; [exact yinv_init|apply hist_nil].
    - rewrite exec_app in E. destruct (exec (y_step ms may_tick) y_init ls) as [[s1 e1]|]; [|discriminate]. specialize (IH _ _ eq_refl). destruct IH as (I & H).
      cbn [exec] in E. destruct (y_step ms may_tick s1 l) as [[s2 e2]|] eqn:S; [|discriminate]. injection E as <- <-. rewrite app_nil_r.
      split; [exact (yinv_step _ _ _ _ _ _ I S)|]. apply hist_app; [exact H|]. clear H. destruct I as [A B C D F]. unfold y_step, y_act, y_at in S.
      repeat match type of S with context [match ?x with _ => _ end] => destruct x eqn:?; try discriminate S end; injection S as <- <-;
        intros a e d EQ; cbn [map] in EQ;
        repeat (destruct a as [|? a]; [injection EQ as <- EQ; subst; unfold Qearly; cbn [snd fst]; try exact Logic.I|injection EQ as <- EQ]);
        try (destruct a; discriminate EQ); rewrite ?app_nil_r.
      + exact A.
      + destruct (folds e1 [(y_now s1, Call 0%nat YBegin)]) as (X & _ & Z). cbn in X, Z. rewrite X, Z.
        repeat match goal with h : _ && _ = true |- _ => apply andb_prop in h; destruct h end. split; [rewrite <- C; now apply negb_true_iff|].
        match goal with h : y_on s1 = true |- _ => rewrite h in A end. destruct (running e1) as [[t0 k]|] eqn:R; [|discriminate].
        exists t0, k. split; [reflexivity|]. rewrite <- (B _ _ eq_refl). now apply Z.leb_le.
  Qed.
  Theorem cyc_never_early may_tick ls s es : exec (y_step ms may_tick) y_init ls = Some (s, es) -> never_early ms es /\ one_at_a_time es /\ told_truly es.
  Proof.
    intros E. destruct (run_hist _ _ _ _ E) as (_ & H). repeat split.
    - intros a t1 t r d EQ. specialize (H _ _ _ EQ). exact (proj2 H).
    - intros a z t r d EQ. specialize (H _ _ _ EQ). exact (proj1 H).
    - intros a z t b d EQ. specialize (H _ _ _ EQ). exact H.
  Qed.

  (** ** what is returned *)
  Definition Qret (a : yevents) (e : Z * event ycall yres) : Prop := match snd e with Ret t r => fold_left (given1 t) a None = Some r | _ => True end.
  Definition pending_given (s : yst) (es : yevents) : Prop := y_thr s 0%nat = YIdle /\ forall t r, y_thr s t = YRet r -> fold_left (given1 t) es None = Some r.
  Lemma run_returned may_tick ls : forall s es, exec (y_step ms may_tick) y_init ls = Some (s, es) -> pending_given s es /\ hist Qret es.
  Proof.
    induction ls as [|l ls IH] using rev_ind; intros s es E.
    - injection E as <- <-. split; [split; [reflexivity|discriminate]|apply hist_nil].
    - rewrite exec_app in E. destruct (exec (y_step ms may_tick) y_init ls) as [[s1 e1]|]; [|discriminate]. specialize (IH _ _ eq_refl). destruct IH as ((Z & G) & H).
      cbn [exec] in E. destruct (y_step ms may_tick s1 l) as [[s2 e2]|] eqn:S; [|discriminate]. injection E as <- <-. rewrite app_nil_r. unfold y_step, y_act, y_at in S.
      repeat match type of S with context [match ?x with _ => _ end] => destruct x eqn:?; try discriminate S end; injection S as <- <-; (split; [split|]).
      all: try (apply hist_app; [exact H|]; intros a e d EQ; cbn [map] in EQ; repeat (destruct a as [|? a]; [injection EQ as <- EQ; subst; unfold Qret; cbn [snd]; try exact Logic.I|injection EQ as <- EQ]); try (destruct a; discriminate EQ)).
      all: rewrite ?app_nil_r; try (now apply G); try (rewrite fold_left_app; reflexivity).
      all: cbn [y_thr map]; try exact Z; try (rewrite fupd_eq; match goal with |- context [Nat.eqb 0 ?t] => destruct (Nat.eqb_spec 0 t) as [Q|Q]; [subst t; cbn in *; congruence|exact Z] end).
      all: intros ? ? HQ; rewrite ?fold_left_app; cbn [fold_left given1 snd]; try (now apply G).
      all: try (rewrite fupd_eq in HQ; match type of HQ with context [Nat.eqb ?v ?w] => rewrite ?(Nat.eqb_sym w v); destruct (Nat.eqb v w); [congruence|now apply G] end).
      all: match type of HQ with _ ?v = _ => destruct v as [|v']; [congruence|cbn; now apply G] end.
  Qed.
  Theorem cyc_returned may_tick ls s es : exec (y_step ms may_tick) y_init ls = Some (s, es) -> returned_as_given es.
  Proof. intros E a z t r d EQ. exact (proj2 (run_returned _ _ _ _ E) _ _ _ EQ). Qed.

  (** ** when time passes only as in y_urgent *)
  Variable n : nat.
  Notation ustep := (y_step ms (y_urgent n)).
  Definition soon (s : yst) (es : yevents) : Prop := y_cb s = false -> y_on s = true -> y_now s <= Z.max (y_due s) (last_end es).
  Definition Qtime (a : yevents) (e : Z * event ycall yres) : Prop :=
    match snd e with Eff _ YBegin _ => exists t0 k, running a = Some (t0, k) /\ fst e = Z.max (t0 + (k + 1) * ms) (last_end a) | _ => True end.
  Lemma run_time ls : forall s es, exec ustep y_init ls = Some (s, es) -> soon s es /\ hist Qtime es.
  Proof.
    induction ls as [|l ls IH] using rev_ind; intros s es E.
    - injection E as <- <-. split; [intros _; discriminate|apply hist_nil].
    - rewrite exec_app in E. destruct (exec ustep y_init ls) as [[s1 e1]|] eqn:E1; [|discriminate]. destruct (IH _ _ eq_refl) as (SO & H). clear IH.
      destruct (run_hist _ _ _ _ E1) as ([A B C D F] & _).
      cbn [exec] in E. destruct (ustep s1 l) as [[s2 e2]|] eqn:S; [|discriminate]. injection E as <- <-. rewrite app_nil_r. unfold soon in *.
      destruct (folds e1 e2) as (X & Y & Z). split.
      + rewrite Y. destruct l as [t c|t| |b|].
        * cbn beta iota delta [y_step y_act y_at] in S. destruct (y_thr s1 t), c; try discriminate; destruct ((0 <? t)%nat && negb (y_cb s1)); try discriminate; injection S as <- <-; exact SO.
        * cbn beta iota delta [y_step y_act y_at] in S. destruct (y_cb s1); [discriminate|]. destruct (y_thr s1 t) as [|c|r]; [discriminate|destruct c; try discriminate|]; injection S as <- <-; cbn; auto; [lia|discriminate].
        * cbn beta iota delta [y_step y_act y_at] in S. destruct (y_on s1 && negb (y_cb s1) && (y_due s1 <=? y_now s1)); [|discriminate]. injection S as <- <-. discriminate.
        * cbn beta iota delta [y_step y_act y_at] in S. destruct (y_cb s1); [|discriminate]. injection S as <- <-. destruct b; cbn; lia.
        * cbn beta iota delta [y_step] in S. destruct (y_urgent n s1) eqn:U; [|discriminate]. injection S as <- <-. cbn. intros CB ON. specialize (SO CB ON). unfold y_urgent in U. rewrite CB, ON in U.
          cbn in U. apply andb_prop in U. destruct U as (_ & U). apply negb_true_iff, Z.leb_gt in U. lia.
      + apply hist_app; [exact H|]. intros a e d EQ. unfold Qtime. destruct (snd e) as [u c|u c r|u r] eqn:SE; auto. destruct c; auto.
        unfold y_step, y_act, y_at in S.
        repeat match type of S with context [match ?x with _ => _ end] => destruct x eqn:?; try discriminate S end; injection S as <- <-;
          cbn [map] in EQ; repeat (destruct a as [|? a]; [injection EQ as <- EQ; cbn in SE; try discriminate SE|injection EQ as <- EQ]);
          try (destruct a; discriminate EQ).
        destruct (folds e1 [(y_now s1, Call 0%nat YBegin)]) as (X' & Y' & Z'). cbn in X', Y', Z'. rewrite X', Y'.
        repeat match goal with h : _ && _ = true |- _ => apply andb_prop in h; destruct h end.
        match goal with h : negb _ = true |- _ => apply negb_true_iff in h end. specialize (SO ltac:(assumption) ltac:(assumption)).
        match goal with h : y_on s1 = true |- _ => rewrite h in A end. destruct (running e1) as [[t0 k]|] eqn:R; [|discriminate].
        exists t0, k. split; [reflexivity|]. cbn [fst]. rewrite <- (B _ _ eq_refl). match goal with h : (_ <=? _) = true |- _ => apply Z.leb_le in h end. lia.
  Qed.
  Theorem cyc_on_time ls s es : exec ustep y_init ls = Some (s, es) -> on_time ms es /\ never_overdue ms (y_now s) es.
  Proof.
    intros E. destruct (run_time _ _ _ E) as (SO & H). destruct (run_hist _ _ _ _ E) as ([A B C D F] & _). split.
    - intros a t1 t r d EQ. exact (H _ _ _ EQ).
    - intros t0 k R CB. rewrite <- (B _ _ R). apply SO; [now rewrite C|]. now rewrite A, R.
  Qed.
  (** as long as callbacks end before the next is due, the number of callbacks is the number of periods since the start *)
  Theorem cyc_count ls s es t0 k : exec ustep y_init ls = Some (s, es) -> running es = Some (t0, k) -> in_callback es = false -> last_end es <= t0 + (k + 1) * ms ->
    t0 + k * ms <= y_now s <= t0 + (k + 1) * ms.
  Proof.
    intros E R CB LE. destruct (cyc_on_time _ _ _ E) as (_ & O). specialize (O _ _ R CB). destruct (run_hist _ _ _ _ E) as ([A B C D F] & _). specialize (F _ _ R). lia.
  Qed.

  (** the clock never stops *)
  Definition yw (q : ypc) : nat := match q with YIdle => 0 | YAt _ => 2 | YRet _ => 1 end.
  Definition y_rest (s : yst) : Prop := forall t c, y_thr s t = YAt c -> c = YStart \/ c = YStop \/ c = YIsStarted.
  Lemma y_rest_step may_tick s l s' e : y_rest s -> y_step ms may_tick s l = Some (s', e) -> y_rest s'.
  Proof.
    intros H E t c Q. unfold y_step in E.
    repeat match type of E with context [match ?x with _ => _ end] => destruct x eqn:?; try discriminate E end; injection E as <- <-; cbn in Q;
      try exact (H t c Q); rewrite fupd_eq in Q; destruct (Nat.eqb t t0); try exact (H t c Q); try discriminate Q; injection Q as <-; auto.
  Qed.
  Lemma y_busy s : y_rest s -> y_urgent n s = false -> exists l s' e, y_own l /\ ustep s l = Some (s', e) /\ y_now s' = y_now s /\
    (y_urgent n s' = true \/ (sumn (fun t => yw (y_thr s' t)) n < sumn (fun t => yw (y_thr s t)) n)%nat).
  Proof.
    intros HR U. unfold y_urgent in U. apply orb_false_iff in U. destruct U as (CB & U). destruct (y_on s && (y_due s <=? y_now s)) eqn:D.
    - exists LFire. cbn. apply andb_prop in D. destruct D as (D1 & D2). rewrite D1, D2, CB. cbn. eexists _, _. split; [exact I|]. split; [reflexivity|]. cbn. auto.
    - rewrite andb_true_r in U. assert (X : exists t, (t < n)%nat /\ y_thr s t <> YIdle).
      { revert U. generalize n. induction n0 as [|m IH]; [discriminate|]. rewrite seq_S, forallb_app. cbn. rewrite andb_true_r. intros U. apply andb_false_iff in U. destruct U as [U|U].
        - destruct (IH U) as (t & A & B). exists t. split; [lia|exact B].
        - exists m. split; [lia|]. destruct (y_thr s m); congruence. }
      destruct X as (t & Lt & NI). exists (LStep t). cbn. rewrite CB.
      assert (L : forall q, (yw q < yw (y_thr s t))%nat -> (sumn (fun u => yw (fupd (y_thr s) t q u)) n < sumn (fun u => yw (y_thr s u)) n)%nat).
      { intros q W. pose proof (sumn_change n (fun u => yw (y_thr s u)) (fun u => yw (fupd (y_thr s) t q u)) t Lt) as SC. cbn beta in SC. rewrite fupd_same in SC.
        specialize (SC ltac:(intros u N; now rewrite fupd_other)). lia. }
      destruct (y_thr s t) as [|c|r] eqn:Q; [congruence| |].
      + destruct (HR t c Q) as [-> |[-> | ->]]; (eexists _, _; split; [exact I|]; split; [reflexivity|]; cbn; split; [reflexivity|]; right; apply L; cbn; lia).
      + eexists _, _; split; [exact I|]; split; [reflexivity|]; cbn; split; [reflexivity|]; right; apply L; cbn; lia.
  Qed.
  Theorem cyc_clock_goes_on ls0 s es0 : exec ustep y_init ls0 = Some (s, es0) ->
    exists ls s1 es1 s2, (length ls <= 2 * n + 1)%nat /\ (forall l, In l ls -> y_own l) /\ exec ustep s ls = Some (s1, es1) /\ y_now s1 = y_now s /\
      ustep s1 LTick = Some (s2, []) /\ y_now s2 = y_now s + 1.
  Proof.
    intros E. assert (HR : y_rest s).
    { revert E. apply (exec_inv_st _ _ _ ustep y_rest); [|intros t c Q; discriminate]. intros y l y' e' H S. exact (y_rest_step _ _ _ _ _ H S). }
    clear E. assert (G : forall m s, y_rest s -> (sumn (fun t => yw (y_thr s t)) n <= m)%nat ->
      exists ls s1 es1, (length ls <= m + 1)%nat /\ (forall l, In l ls -> y_own l) /\ exec ustep s ls = Some (s1, es1) /\ y_now s1 = y_now s /\ y_urgent n s1 = true).
    { clear s HR. induction m as [|m IH]; intros s HR B; destruct (y_urgent n s) eqn:U.
      - exists [], s, []. cbn. repeat split; auto; try lia; try (intros l []).
      - destruct (y_busy s HR U) as (l & s' & e & O & S & T & [V|V]); [|lia]. exists [l], s', (e ++ []). cbn [exec]. rewrite S. repeat split; auto; try (intros z [<-|[]]; exact O).
      - exists [], s, []. cbn. repeat split; auto; try lia; try (intros l []).
      - destruct (y_busy s HR U) as (l & s' & e & O & S & T & [V|V]).
        + exists [l], s', (e ++ []). cbn [exec length]. rewrite S. repeat split; auto; try lia; try (intros z [<-|[]]; exact O).
        + destruct (IH s' (y_rest_step _ _ _ _ _ HR S)) as (ls & s1 & es1 & L & OL & X & T1 & U1); [lia|]. exists (l :: ls), s1, (e ++ es1). cbn [exec length]. rewrite S, X.
          repeat split; auto; try lia; try (intros z [<-|Hz]; auto). }
    destruct (G (2 * n)%nat s HR) as (ls & s1 & es1 & L & OL & X & T & U).
    { pose proof (sumn_bound n (fun t => yw (y_thr s t)) 2%nat) as SB. specialize (SB ltac:(intros t _; cbn beta; destruct (y_thr s t); cbn; lia)). lia. }
    exists ls, s1, es1, (mkY (y_now s1 + 1) (y_on s1) (y_due s1) (y_cb s1) (y_thr s1)). cbn [y_step]. rewrite U. cbn [y_now]. repeat split; auto; lia.
  Qed.
End Cyc.

(** a timer that is started again and again never fires *)
Section Starve.
  Variable ms : Z.
  Hypothesis Hms : 2 <= ms.
  Variable n : nat.
  Hypothesis Hn : (1 < n)%nat.
  Notation ustep := (y_step ms (y_urgent n)).
  Definition free (s : yst) : Prop := y_cb s = false /\ forall t, y_thr s t = YIdle.
  Definition quiet_events (es : yevents) : Prop := forall z t c r, In (z, Eff t c r) es -> c = YStart.
  Lemma ticks m : forall s, free s -> y_now s + Z.of_nat m <= y_due s -> exists s', exec ustep s (repeat LTick m) = Some (s', []) /\ free s' /\ y_now s' = y_now s + Z.of_nat m.
  Proof.
    induction m as [|m IH]; intros s (CB & ID) D.
    - exists s. cbn. repeat split; auto. lia.
    - cbn [repeat exec]. assert (U : y_urgent n s = true).
      { unfold y_urgent. rewrite CB. cbn [orb]. apply andb_true_intro. split.
        - apply forallb_forall. intros t _. now rewrite ID.
        - replace (y_due s <=? y_now s) with false by (symmetry; apply Z.leb_gt; lia). now rewrite andb_false_r. }
      cbn [y_step]. rewrite U. destruct (IH (mkY (y_now s + 1) (y_on s) (y_due s) (y_cb s) (y_thr s))) as (s' & E & F & T).
      + split; assumption.
      + cbn [y_now y_due]. lia.
      + rewrite E. exists s'. split; [reflexivity|]. split; [exact F|]. cbn [y_now] in T. lia.
  Qed.
  Definition one_round : list ylab := [LCall 1 YStart; LStep 1; LStep 1] ++ repeat LTick (Z.to_nat (ms - 1)).
  Lemma round s : free s -> exists s' es, exec ustep s one_round = Some (s', es) /\ free s' /\ y_now s' = y_now s + (ms - 1) /\ quiet_events es /\ In (y_now s, Eff 1%nat YStart YVoid) es.
  Proof.
    intros (CB & ID). unfold one_round. cbn [app exec]. unfold y_step at 1. rewrite ID, CB. cbn [Nat.ltb Nat.leb andb negb].
    unfold y_step at 1. cbn [y_cb y_thr]. rewrite fupd_same. cbn iota. unfold y_step at 1. cbn [y_cb y_thr]. rewrite fupd_same. cbn iota.
    match goal with |- exists s' es, match match match exec _ ?s2 _ with _ => _ end with _ => _ end with _ => _ end = _ /\ _ => destruct (ticks (Z.to_nat (ms - 1)) s2) as (s' & E & F & T) end.
    - split; [reflexivity|]. cbn [y_thr]. intros t. rewrite !fupd_eq. destruct (Nat.eqb t 1); auto.
    - cbn [y_now y_due]. lia.
    - rewrite E. eexists _, _. split; [reflexivity|]. split; [exact F|]. split; [cbn [y_now] in T; lia|]. split.
      + intros z t c r H. cbn in H. repeat (destruct H as [H|H]; [congruence|]). destruct H.
      + cbn. auto.
  Qed.
  Theorem cyc_starved N : exists ls s es, exec ustep y_init ls = Some (s, es) /\ y_now s = Z.of_nat N * (ms - 1) /\ quiet_events es /\
    (forall k, (k < N)%nat -> In (Z.of_nat k * (ms - 1), Eff 1%nat YStart YVoid) es).
  Proof.
    enough (G : exists ls s es, exec ustep y_init ls = Some (s, es) /\ free s /\ y_now s = Z.of_nat N * (ms - 1) /\ quiet_events es /\
      (forall k, (k < N)%nat -> In (Z.of_nat k * (ms - 1), Eff 1%nat YStart YVoid) es)).
    { destruct G as (ls & s & es & A & _ & B & C & D). exists ls, s, es. auto. }
    induction N as [|N (ls & s & es & A & F & B & C & D)].
    - exists [], y_init, []. cbn. split; [reflexivity|]. split; [split; auto|]. split; [reflexivity|]. split; [intros z t c r []|intros k H; lia].
    - destruct (round s F) as (s' & es' & A' & F' & B' & C' & D'). exists (ls ++ one_round), s', (es ++ es'). rewrite exec_app, A, A'.
      split; [reflexivity|]. split; [exact F'|]. split; [rewrite B', B; lia|]. split.
      + intros z t c r H. apply in_app_or in H. destruct H; [eapply C|eapply C']; eassumption.
      + intros k Hk. apply in_or_app. destruct (Nat.eq_dec k N) as [->|NE]; [right; now rewrite <- B|left; apply D; lia].
  Qed.
End Starve.
