(** The Windows timers fire on time. *)
From Coq Require Import List ZArith Bool Arith Lia.
Import ListNotations.
From Verif Require Import Spec.Linear Spec.WinTimerSpec Spec.WinTimeSpec OS.Sched OS.WinTimerModel OS.WinTimerProofs OS.WinTimerMore OS.WinTimeModel.
Open Scope Z_scope.

(** every event of a history satisfies [Q], given what came before it *)
Definition whist (Q : stamped -> Z * event wcall wres -> Prop) (es : stamped) : Prop := forall a e d, es = a ++ e :: d -> Q a e.
Lemma whist_nil Q : whist Q [].
Proof. intros a e d H. destruct a; discriminate. Qed.
Lemma whist_snoc Q es e : whist Q es -> Q es e -> whist Q (es ++ [e]).
Proof.
  intros H P a y d E. destruct d as [|z d] using rev_ind.
  - apply app_inj_tail in E. destruct E as (-> & ->). exact P.
  - rewrite app_comm_cons, app_assoc in E. apply app_inj_tail in E. destruct E as (-> & _). exact (H a y d eq_refl).
Qed.
Lemma whist_app Q es es2 : whist Q es -> (forall a e d, es2 = a ++ e :: d -> Q (es ++ a) e) -> whist Q (es ++ es2).
Proof.
  revert es. induction es2 as [|e es2 IH]; intros es H P; [now rewrite app_nil_r|].
  replace (es ++ e :: es2) with ((es ++ [e]) ++ es2) by (now rewrite <- app_assoc). apply IH.
  - apply whist_snoc; [exact H|]. specialize (P [] e es2 eq_refl). now rewrite app_nil_r in P.
  - intros a y d ->. rewrite <- app_assoc. exact (P (e :: a) y d eq_refl).
Qed.
Lemma whist_pre Q es es2 : whist Q (es ++ es2) -> whist Q es.
Proof. intros H a e d ->. apply (H a e (d ++ es2)). now rewrite <- app_assoc. Qed.
Lemma untimed_app es es2 : untimed (es ++ es2) = untimed es ++ untimed es2.
Proof. apply map_app. Qed.
Lemma untimed_stamp z (e : wevents) : untimed (map (fun x => (z, x)) e) = e.
Proof. unfold untimed. rewrite map_map. cbn. now rewrite map_id. Qed.
Lemma start_cases s ok s1 r : w_start s ok = (s1, r) ->
  (r = RDone /\ w_on s = false /\ s1 = mkW true (w_next s) (S (w_next s)) (w_next s :: w_armed s) (w_wk s) (w_ev s) (w_freed s) (w_thr s)) \/ (r <> RDone /\ s1 = s).
Proof. unfold w_start. destruct (w_on s); [|destruct ok]; intros [= <- <-]; auto; right; split; (discriminate || reflexivity). Qed.
Lemma stop_cases s ok s1 r : w_stop s ok = (s1, r) ->
  (r = RDone /\ s1 = w_off s (w_del (w_id s) (w_armed s))) \/ (r <> RDone /\ (s1 = s \/ (s1 = w_off s (w_armed s) /\ w_mem (w_id s) (w_armed s) = false))).
Proof.
  unfold w_stop. destruct (w_on s); cbn [negb]; [|intros [= <- <-]; right; split; [discriminate|auto]].
  destruct (w_mem (w_id s) (w_armed s)); [intros [= <- <-]; auto|]. destruct ok; intros [= <- <-]; right; (split; [discriminate|auto]).
Qed.

Section Win.
  Variable p : bool.
  Variable ms : Z.
  Variable may_tick : vst -> bool.
  Notation step := (v_step p ms may_tick).
  Definition calm (es : stamped) : Prop := p = false -> never_restarted_early (effects (untimed es)).
  Lemma calm_pre es es2 : calm (es ++ es2) -> calm es.
  Proof. intros H P. specialize (H P). rewrite untimed_app, effects_app in H. exact (early_pre _ _ H). Qed.

  (** a run with a clock is a run without *)
  Lemma v_project ls : forall s s' es, exec step s ls = Some (s', es) -> exists ls', exec (w_step p) (v_w s) ls' = Some (v_w s', untimed es).
  Proof.
    induction ls as [|l ls IH]; intros s s' es E.
    - injection E as <- <-. now exists [].
    - cbn [exec] in E. destruct (step s l) as [[s1 e1]|] eqn:E1; [|discriminate]. destruct (exec step s1 ls) as [[s2 e2]|] eqn:E2; [|discriminate]. injection E as <- <-.
      destruct (IH _ _ _ E2) as (ls' & E'). destruct l as [l|]; unfold v_step in E1.
      + destruct (v_may s l); [|discriminate]. destruct (w_step p (v_w s) l) as [[w e]|] eqn:W; [|discriminate]. injection E1 as <- <-. exists (l :: ls'). cbn [exec].
        rewrite W. cbn [v_w] in E'. rewrite E'. rewrite untimed_app, untimed_stamp. reflexivity.
      + destruct (may_tick s); [|discriminate]. injection E1 as <- <-. exists ls'. exact E'.
  Qed.

  Record vinv (s : vst) (es : stamped) : Prop := {
    vi_none : timing p es = None -> w_armed (v_w s) = [];
    vi_some : forall t0 k, timing p es = Some (t0, k) -> w_armed (v_w s) = [w_id (v_w s)] /\ w_on (v_w s) = true /\ v_due s (w_id (v_w s)) = t0 + (k + 1) * ms /\
      (p = false -> k = 0 /\ last_start es = Some t0 /\ last_end es <= t0);
    vi_busy : p = false -> w_armed (v_w s) <> [] -> w_wk (v_w s) = KFree \/ w_wk (v_w s) = KUnlock;
    vi_end : last_end es <= v_now s;
    vi_disp : forall i, w_wk (v_w s) = KDisp i \/ w_wk (v_w s) = KReset i -> exists d, last_due es = Some d /\ d <= v_now s /\ (p = false -> exists t0, last_start es = Some t0 /\ t0 + ms <= d);
    vi_cnt : w_dues (effects (untimed es)) = (w_ends (effects (untimed es)) + match w_wk (v_w s) with KFree | KUnlock => 0 | KTail _ => if p then 0 else 1 | _ => 1 end)%nat }.
  Lemma vinv_init : vinv v_init [].
  Proof. constructor; cbn; auto; try discriminate; try lia. intros i [H|H]; discriminate. Qed.
  Lemma folds es e : timing p (es ++ e) = fold_left (timing1 p) e (timing p es) /\ last_end (es ++ e) = fold_left last_end1 e (last_end es) /\
    last_due (es ++ e) = fold_left last_due1 e (last_due es) /\ last_start (es ++ e) = fold_left last_start1 e (last_start es) /\
    effects (untimed (es ++ e)) = effects (untimed es) ++ effects (untimed e).
  Proof. unfold timing, last_end, last_due, last_start. rewrite !fold_left_app, untimed_app, effects_app. auto. Qed.
  (** a step after which nothing that matters has changed *)
  Lemma vinv_same s es s' e : vinv s es ->
    w_armed (v_w s') = w_armed (v_w s) -> (w_armed (v_w s) <> [] -> w_id (v_w s') = w_id (v_w s) /\ w_on (v_w s') = w_on (v_w s)) -> w_wk (v_w s') = w_wk (v_w s) ->
    v_now s <= v_now s' -> v_due s' = v_due s ->
    timing p (es ++ e) = timing p es -> last_end (es ++ e) = last_end es -> last_due (es ++ e) = last_due es -> last_start (es ++ e) = last_start es ->
    w_dues (effects (untimed (es ++ e))) = w_dues (effects (untimed es)) -> w_ends (effects (untimed (es ++ e))) = w_ends (effects (untimed es)) ->
    vinv s' (es ++ e).
  Proof.
    intros [A B C D F G] E1 E2 E3 E4 E5 F1 F2 F3 F4 F5 F6. constructor.
    - rewrite F1, E1. exact A.
    - rewrite F1, F4, F2, E1, E5. intros t0 k T. destruct (B _ _ T) as (X & Y & Z & W). destruct E2 as (-> & ->); [rewrite X; discriminate|]. auto.
    - rewrite E1, E3. exact C.
    - rewrite F2. lia.
    - rewrite E3, F3, F4. intros i H. destruct (F i H) as (d & X & Y & Z). exists d. split; [exact X|]. split; [lia|exact Z].
    - rewrite F5, F6, E3. exact G.
  Qed.
  Ltac same_folds := match goal with |- context [?es ++ ?e] => destruct (folds es e) as (X1 & X2 & X3 & X4 & X5); rewrite ?X1, ?X2, ?X3, ?X4, ?X5, ?dues_app, ?ends_app end; unfold w_dues, w_ends, wcount.
  (** the effect of a call of thread t that gave [r] without changing the timer *)
  Lemma vinv_step s l s' e es : winv p (v_w s) -> vinv s es -> calm (es ++ e) -> step s l = Some (s', e) -> vinv s' (es ++ e).
  Proof.
    intros W I CA E. pose proof I as [A B C D F G]. assert (PC : p = true \/ p = false) by (destruct p; auto). destruct l as [l|].
    2:{ cbn beta iota delta [v_step] in E. destruct (may_tick s); [|discriminate]. injection E as <- <-. rewrite app_nil_r.
      constructor; cbn [v_w v_now v_due]; auto; [lia|]. intros i H. destruct (F i H) as (d & X & Y & Z). exists d. split; [exact X|]. split; [lia|exact Z]. }
    cbn beta iota delta [v_step] in E. destruct (v_may s l) eqn:MAY; [|discriminate]. destruct (w_step p (v_w s) l) as [[w e0]|] eqn:ST; [|discriminate]. injection E as <- <-.
    destruct l as [t c|t ok|i|]; cbn beta iota delta [w_step] in ST.
    - (* a call *)
      destruct (w_thr (v_w s) t); try discriminate. destruct (w_callable t (w_wk (v_w s)) c && negb (w_freed (v_w s))); [|discriminate].
      destruct c; injection ST as <- <-; (apply (vinv_same s); [exact I|..]; cbn [v_w v_now v_due w_go w_armed w_id w_on w_wk w_next]; auto; try lia; try (same_folds; cbn; (lia || reflexivity));
        cbn [v_sched w_go w_next]; now rewrite Nat.eqb_refl).
    - (* a step of a caller *)
      assert (SAME : forall w1 e1, w_armed w1 = w_armed (v_w s) -> (w_armed (v_w s) <> [] -> w_id w1 = w_id (v_w s) /\ w_on w1 = w_on (v_w s)) -> w_wk w1 = w_wk (v_w s) -> w_next w1 = w_next (v_w s) ->
        (e1 = [] \/ (exists r, e1 = [Ret t r]) \/ (exists c r, e1 = [Eff t c r] /\ (c = WIsStarted \/ c = WDestroy \/ r <> RDone) /\ c <> WDue /\ c <> WEnd) \/ (exists r, r <> RDone /\ e1 = [Eff t WStop r; Ret t r; Call t WDestroy])) ->
        vinv (mkV w1 (v_now s) (v_sched p ms s (YStep t ok) w1)) (es ++ map (fun x => (v_now s, x)) e1)).
      { intros w1 e1 Q1 Q2 Q3 Q4 QE. apply (vinv_same s); [exact I|..]; cbn [v_w v_now v_due]; auto; try lia.
        { cbn [v_sched]. now rewrite Q4, Nat.eqb_refl. }
        all: same_folds; destruct QE as [-> |[(r & ->)|[(c & r & -> & [-> |[-> |NR]] & ND & NE)|(r & NR & ->)]]]; cbn; try lia; try reflexivity; try (destruct r; (lia || reflexivity || congruence));
          try (destruct c; try congruence; cbn; lia); try (destruct c; try congruence; destruct r; (lia || reflexivity || congruence)). }
      assert (START : forall ok1 s1 r q, w_locked (v_w s) = false -> w_start (v_w s) ok1 = (s1, r) -> calm (es ++ map (fun x => (v_now s, x)) [Eff t WStart r]) ->
        vinv (mkV (w_go s1 t q) (v_now s) (v_sched p ms s (YStep t ok) (w_go s1 t q))) (es ++ map (fun x => (v_now s, x)) [Eff t WStart r])).
      { intros ok1 s1 r q LK E1 CA1. destruct (start_cases _ _ _ _ E1) as [(-> & ON & ->)|(NR & ->)].
        - cbn [map] in *. destruct (folds es [(v_now s, Eff t WStart RDone)]) as (X1 & X2 & X3 & X4 & X5).
          assert (T0 : w_armed (v_w s) = []). { destruct (timing p es) as [[t0 k]|] eqn:T; [|auto]. destruct (B _ _ eq_refl) as (_ & Y & _). congruence. }
          assert (FREE : p = false -> w_wk (v_w s) = KFree \/ w_wk (v_w s) = KUnlock).
          { intros P. specialize (CA1 P). rewrite X5 in CA1. specialize (CA1 (effects (untimed es)) t [] eq_refl). rewrite G, P in CA1. destruct (w_wk (v_w s)); auto; lia. }
          constructor; cbn [v_w v_now v_due w_go w_armed w_id w_on w_wk].
          + rewrite X1. discriminate.
          + rewrite X1. intros t0 k H. cbn in H. injection H as <- <-. rewrite T0. split; [reflexivity|]. split; [reflexivity|]. split.
            * cbn [v_sched w_go w_next]. replace (Nat.eqb (S (w_next (v_w s))) (w_next (v_w s))) with false by (symmetry; apply Nat.eqb_neq; lia). rewrite fupd_same. lia.
            * intros _. rewrite X4, X2. cbn. auto.
          + intros P _. auto.
          + rewrite X2. cbn. exact D.
          + rewrite X3, X4. cbn. intros i H. destruct (F i H) as (d & Y1 & Y2 & Y3). exists d. split; [exact Y1|]. split; [exact Y2|]. intros P. destruct (FREE P) as [Z|Z]; rewrite Z in H; destruct H; discriminate.
          + rewrite X5, dues_app, ends_app. unfold w_dues, w_ends in *. cbn. lia.
        - apply SAME; cbn [w_go w_armed w_id w_on w_wk w_next]; auto. right. right. left. exists WStart, r. repeat split; auto; discriminate. }
      assert (STOP : forall ok1 s1 r q e1, w_stop (v_w s) ok1 = (s1, r) -> e1 = [Eff t WStop r] \/ e1 = [Eff t WStop r; Ret t r; Call t WDestroy] ->
        vinv (mkV (w_go s1 t q) (v_now s) (v_sched p ms s (YStep t ok) (w_go s1 t q))) (es ++ map (fun x => (v_now s, x)) e1)).
      { intros ok1 s1 r q e1 E1 He. destruct (stop_cases _ _ _ _ E1) as [(-> & ->)|(NR & [-> |(-> & NM)])].
        - destruct (folds es (map (fun x => (v_now s, x)) e1)) as (X1 & X2 & X3 & X4 & X5).
          assert (T1 : w_del (w_id (v_w s)) (w_armed (v_w s)) = []).
          { destruct (timing p es) as [[t0 k]|] eqn:T; [destruct (B _ _ eq_refl) as (Y & _); rewrite Y; cbn; now rewrite Nat.eqb_refl|now rewrite A]. }
          constructor; cbn [v_w v_now v_due w_go w_off w_armed w_id w_on w_wk]; rewrite ?T1.
          + reflexivity.
          + rewrite X1. destruct He as [-> | ->]; cbn; discriminate.
          + congruence.
          + rewrite X2. destruct He as [-> | ->]; cbn; exact D.
          + rewrite X3, X4. destruct He as [-> | ->]; cbn; exact F.
          + rewrite X5, dues_app, ends_app. unfold w_dues, w_ends in *. destruct He as [-> | ->]; cbn; lia.
        - apply SAME; cbn [w_go w_armed w_id w_on w_wk w_next]; auto. destruct He as [-> | ->]; right; right; [left; exists WStop, r|right; exists r]; repeat split; auto; discriminate.
        - apply SAME; cbn [w_go w_off w_armed w_id w_on w_wk w_next]; auto.
          + intros NE. exfalso. destruct (timing p es) as [[t0 k]|] eqn:T; [|auto]. destruct (B _ _ eq_refl) as (Y & _). rewrite Y in NM. cbn in NM. rewrite Nat.eqb_refl in NM. discriminate.
          + destruct He as [-> | ->]; right; right; [left; exists WStop, r|right; exists r]; repeat split; auto; discriminate. }
      pose proof (wi_thr _ _ W t) as MT. destruct (w_thr (v_w s) t) as [|c| | | |r] eqn:ET; try discriminate ST.
      + destruct (w_freed (v_w s)); [discriminate|]. destruct MT as [-> |[-> | ->]].
        * destruct (w_locked (v_w s)) eqn:LK; [discriminate|]. destruct (w_start (v_w s) ok) as [s1 r] eqn:E1. injection ST as <- <-. eapply START; eauto.
        * destruct (w_locked (v_w s)) eqn:LK; [discriminate|]. destruct (w_stop (v_w s) ok) as [s1 r] eqn:E1. injection ST as <- <-. eapply STOP; eauto.
        * destruct (w_locked (v_w s)) eqn:LK; [discriminate|]. injection ST as <- <-. apply SAME; cbn [w_go w_armed w_id w_on w_wk w_next]; auto.
          right. right. left. eexists WIsStarted, _. repeat split; auto; discriminate.
      + destruct (w_freed (v_w s)); [discriminate|]. destruct (w_locked (v_w s)) eqn:LK; [discriminate|]. destruct (w_stop (v_w s) ok) as [s1 r] eqn:E1. injection ST as <- <-. eapply STOP; eauto.
      + destruct (w_freed (v_w s)); [discriminate|]. destruct (w_ev (v_w s)); [|discriminate]. injection ST as <- <-. apply SAME; cbn [w_go w_armed w_id w_on w_wk w_next]; auto.
      + destruct (w_freed (v_w s)); [discriminate|]. injection ST as <- <-. apply SAME; cbn [w_armed w_id w_on w_wk w_next]; auto.
        right. right. left. eexists WDestroy, _. repeat split; auto; discriminate.
      + injection ST as <- <-. apply SAME; cbn [w_go w_armed w_id w_on w_wk w_next]; auto. right. left. eauto.
    - (* the time expires *)
      destruct (w_wk (v_w s)) eqn:EK; try discriminate. destruct (w_mem i (w_armed (v_w s)) && negb (w_freed (v_w s))) eqn:M; [|discriminate]. injection ST as <- <-.
      apply andb_prop in M. destruct M as (M & _). destruct (timing p es) as [[t0 k]|] eqn:T; [|rewrite (A eq_refl) in M; discriminate M]. destruct (B _ _ eq_refl) as (Y1 & Y2 & Y3 & Y4).
      rewrite Y1 in M. cbn in M. rewrite orb_false_r in M. apply Nat.eqb_eq in M. subst i. cbn [v_may] in MAY. apply Z.leb_le in MAY.
      unfold w_act; cbn [map]; match goal with |- vinv _ (es ++ ?e) => destruct (folds es e) as (X1 & X2 & X3 & X4 & X5) end. cbn in X1, X2, X3, X4. rewrite T in X1.
      constructor; cbn [v_w v_now v_due w_armed w_id w_on w_wk].
      + rewrite X1. destruct p; [discriminate|]. intros _. rewrite Y1. cbn. now rewrite Nat.eqb_refl.
      + rewrite X1. destruct p; [|discriminate]. intros t1 j [= <- <-]. split; [exact Y1|]. split; [exact Y2|]. split; [|discriminate]. cbn [v_sched]. rewrite fupd_same, Y3. lia.
      + intros ->. rewrite Y1. cbn. rewrite Nat.eqb_refl. cbn. congruence.
      + rewrite X2. exact D.
      + rewrite X3, X4. intros j _. exists (v_now s). split; [reflexivity|]. split; [lia|]. intros P. destruct (Y4 P) as (-> & Z1 & _). exists t0. split; [exact Z1|lia].
      + rewrite X5, dues_app, ends_app. unfold w_dues, w_ends in *. cbn. lia.
    - (* the worker *)
      destruct (w_freed (v_w s)); [discriminate|]. destruct (w_wk (v_w s)) as [|i|i|i|i|] eqn:EK; try discriminate.
      + injection ST as <- <-. cbn [map]. rewrite app_nil_r. constructor; cbn [v_w v_now v_due w_kto w_armed w_id w_on w_wk v_sched w_next]; auto.
        * cbn [v_sched w_kto w_next]. rewrite Nat.eqb_refl. exact B.
        * intros P N. destruct (C P N); discriminate.
        * intros j _. apply (F i). auto.
      + injection ST as <- <-. unfold w_act; cbn [map]; match goal with |- vinv _ (es ++ ?e) => destruct (folds es e) as (X1 & X2 & X3 & X4 & X5) end. cbn in X1, X2, X3, X4.
        constructor; cbn [v_w v_now v_due w_kto w_armed w_id w_on w_wk]; rewrite ?X1, ?X2, ?X3, ?X4; auto.
        * cbn [v_sched w_kto w_next]. rewrite Nat.eqb_refl. exact B.
        * intros P N. destruct (C P N); discriminate.
        * intros j [H|H]; discriminate.
        * rewrite X5, dues_app, ends_app. unfold w_dues, w_ends in *. cbn. lia.
      + destruct (w_thr (v_w s) 0); try discriminate. destruct PC as [P|P]; rewrite P in ST; injection ST as <- <-.
        * unfold w_act; cbn [map]; match goal with |- vinv _ (es ++ ?e) => destruct (folds es e) as (X1 & X2 & X3 & X4 & X5) end. cbn in X1, X2, X3, X4.
          constructor; cbn [v_w v_now v_due w_kto w_armed w_id w_on w_wk]; rewrite ?X1, ?X2, ?X3, ?X4; auto.
          -- cbn [v_sched w_kto w_next]. rewrite Nat.eqb_refl. intros t0 k T. destruct (B _ _ T) as (Y1 & Y2 & Y3 & _). repeat split; auto; congruence.
          -- congruence.
          -- lia.
          -- intros j [H|H]; discriminate.
          -- rewrite X5, dues_app, ends_app. rewrite ?P. unfold w_dues, w_ends in *. cbn. lia.
        * unfold w_act; cbn [map]; match goal with |- vinv _ (es ++ ?e) => destruct (folds es e) as (X1 & X2 & X3 & X4 & X5) end. cbn in X1, X2, X3, X4.
          constructor; cbn [v_w v_now v_due w_kto w_armed w_id w_on w_wk]; rewrite ?X1, ?X2, ?X3, ?X4; auto.
          -- cbn [v_sched w_kto w_next]. rewrite Nat.eqb_refl. exact B.
          -- intros P0 N. destruct (C P0 N); discriminate.
          -- intros j [H|H]; discriminate.
          -- rewrite X5, dues_app, ends_app. rewrite ?P. unfold w_dues, w_ends in *. cbn. lia.
      + destruct PC as [P|P]; rewrite P in ST, G; injection ST as <- <-.
        * cbn [map]. rewrite app_nil_r. constructor; cbn [v_w v_now v_due w_kto w_armed w_id w_on w_wk]; auto.
          -- cbn [v_sched w_kto w_next]. rewrite Nat.eqb_refl. exact B.
          -- intros j [H|H]; discriminate.
        * assert (T0 : w_armed (v_w s) = []) by (destruct (w_armed (v_w s)); [reflexivity|]; destruct C as [H|H]; auto; discriminate).
          assert (TN : timing p es = None) by (destruct (timing p es) as [[t0 k]|] eqn:T; [|reflexivity]; destruct (B _ _ eq_refl) as (Y & _); congruence).
          unfold w_act; cbn [map]; match goal with |- vinv _ (es ++ ?e) => destruct (folds es e) as (X1 & X2 & X3 & X4 & X5) end. cbn in X1, X2, X3, X4.
          constructor; cbn [v_w v_now v_due w_kto w_armed w_id w_on w_wk]; rewrite ?X2, ?X3, ?X4; auto.
          -- rewrite X1, TN. discriminate.
          -- lia.
          -- intros j [H|H]; discriminate.
          -- rewrite X5, dues_app, ends_app. unfold w_dues, w_ends in *. cbn. lia.
      + injection ST as <- <-. cbn [map]. rewrite app_nil_r. constructor; cbn [v_w v_now v_due w_kto w_armed w_id w_on w_wk]; auto.
        * cbn [v_sched w_kto w_next]. rewrite Nat.eqb_refl. exact B.
        * intros j [H|H]; discriminate.
  Qed.

  (** ** the events of a step *)
  Lemma w_emits w l w' e a t c r d : winv p w -> w_step p w l = Some (w', e) -> e = a ++ Eff t c r :: d -> c = WDue \/ c = WBegin ->
    a = [Call 0%nat c] /\ ((c = WDue /\ exists i, l = YDue i) \/ (c = WBegin /\ l = YWork /\ exists i, w_wk w = KReset i)).
  Proof.
    intros W ST EQ HC. destruct l as [u c0|u ok|i|]; cbn beta iota delta [w_step] in ST.
    - destruct (w_thr w u); try discriminate. destruct (w_callable u (w_wk w) c0 && negb (w_freed w)); [|discriminate].
      destruct c0; injection ST as <- <-; destruct a as [|x [|y a]]; discriminate EQ.
    - pose proof (wi_thr _ _ W u) as MT. destruct (w_thr w u) as [|c0| | | |r0]; try discriminate ST.
      + destruct (w_freed w); [discriminate|]. destruct (w_locked w); [destruct MT as [-> |[-> | ->]]; discriminate|].
        destruct MT as [-> |[-> | ->]]; [destruct (w_start w ok)|destruct (w_stop w ok)|]; injection ST as <- <-; (destruct a as [|x [|y a]]; [|discriminate EQ..]); injection EQ as <- <- _; destruct HC; discriminate.
      + destruct (w_freed w); [discriminate|]. destruct (w_locked w); [discriminate|]. destruct (w_stop w ok) as [s1 r1]. injection ST as <- <-.
        destruct a as [|x [|y [|z [|v a]]]]; try discriminate EQ. injection EQ as <- <- _. destruct HC; discriminate.
      + destruct (w_freed w); [discriminate|]. destruct (w_ev w); [|discriminate]. injection ST as <- <-. destruct a; discriminate EQ.
      + destruct (w_freed w); [discriminate|]. injection ST as <- <-. destruct a as [|x [|y a]]; try discriminate EQ. injection EQ as <- <- _. destruct HC; discriminate.
      + injection ST as <- <-. destruct a as [|x [|y a]]; discriminate EQ.
    - destruct (w_wk w); try discriminate. destruct (w_mem i (w_armed w) && negb (w_freed w)); [|discriminate]. injection ST as <- <-.
      destruct a as [|x [|y [|z [|v a]]]]; try discriminate EQ. injection EQ as <- <- <- _. split; [reflexivity|]. left. eauto.
    - destruct (w_freed w); [discriminate|]. destruct (w_wk w) as [|i|i|i|i|]; try discriminate.
      + injection ST as <- <-. destruct a; discriminate EQ.
      + injection ST as <- <-. destruct a as [|x [|y [|z [|v a]]]]; try discriminate EQ. injection EQ as <- <- <- _. split; [reflexivity|]. right. eauto.
      + destruct (w_thr w 0); try discriminate. destruct p; injection ST as <- <-; destruct a as [|x [|y [|z [|v a]]]]; try discriminate EQ. injection EQ as <- <- <- _. destruct HC; discriminate.
      + destruct p; injection ST as <- <-; destruct a as [|x [|y [|z a]]]; try discriminate EQ. injection EQ as <- <- _. destruct HC; discriminate.
      + injection ST as <- <-. destruct a; discriminate EQ.
  Qed.
  (** a history stays good when every expiry and every begin of a callback is *)
  Lemma whist_step (Q : stamped -> Z * event wcall wres -> Prop) s l s' e es : winv p (v_w s) -> step s l = Some (s', e) -> whist Q es ->
    (forall a x, (forall t r, snd x <> Eff t WDue r) -> (forall t r, snd x <> Eff t WBegin r) -> Q a x) ->
    (forall i z t r, l = VL (YDue i) -> v_due s i <= v_now s -> w_mem i (w_armed (v_w s)) = true -> w_wk (v_w s) = KFree -> Q (es ++ [(z, Call 0%nat WDue)]) (v_now s, Eff t WDue r)) ->
    (forall i z t r, l = VL YWork -> w_wk (v_w s) = KReset i -> Q (es ++ [(z, Call 0%nat WBegin)]) (v_now s, Eff t WBegin r)) ->
    whist Q (es ++ e).
  Proof.
    intros W E H Q0 Q1 Q2. apply whist_app; [exact H|]. intros a x d EQ. destruct l as [l|]; cbn beta iota delta [v_step] in E.
    2:{ destruct (may_tick s); [|discriminate]. injection E as <- <-. destruct a; discriminate EQ. }
    destruct (v_may s l) eqn:MAY; [|discriminate]. destruct (w_step p (v_w s) l) as [[w e0]|] eqn:ST; [|discriminate]. injection E as <- <-.
    assert (TX : fst x = v_now s).
    { assert (IX : In x (map (fun y => (v_now s, y)) e0)) by (rewrite EQ; apply in_or_app; right; now left). apply in_map_iff in IX. destruct IX as (y & <- & _). reflexivity. }
    apply (f_equal untimed) in EQ. rewrite untimed_stamp, untimed_app in EQ. cbn [untimed map] in EQ. destruct x as [z [t c|t c r|t r]]; cbn [fst snd] in *; subst z.
    - apply Q0; intros t0 r; discriminate.
    - destruct c; try (apply Q0; intros t0 r0; discriminate).
      + destruct (w_emits _ _ _ _ _ _ _ _ _ W ST EQ (or_introl eq_refl)) as (A & [(_ & i & ->)|(X & _)]); [|discriminate X].
        destruct a as [|[z y] [|? ?]]; try discriminate A. injection A as ->. cbn [v_may] in MAY. apply Z.leb_le in MAY.
        cbn beta iota delta [w_step] in ST. destruct (w_wk (v_w s)); try discriminate. destruct (w_mem i (w_armed (v_w s))) eqn:M; [|discriminate]. eapply Q1; eauto.
      + destruct (w_emits _ _ _ _ _ _ _ _ _ W ST EQ (or_intror eq_refl)) as (A & [(X & _)|(_ & -> & i & K)]); [discriminate X|].
        destruct a as [|[z y] [|? ?]]; try discriminate A. injection A as ->. eapply Q2; eauto.
    - apply Q0; intros t0 r0; discriminate.
  Qed.

  (** ** for every clock *)
  Definition Qearly (a : stamped) (e : Z * event wcall wres) : Prop :=
    match snd e with
    | Eff _ WDue _ => exists t0 k, timing p a = Some (t0, k) /\ t0 + (k + 1) * ms <= fst e
    | Eff _ WBegin _ => exists d, last_due a = Some d /\ d <= fst e /\ (p = false -> exists t0, last_start a = Some t0 /\ t0 + ms <= d)
    | _ => True
    end.
  Lemma timing_due s es i : vinv s es -> w_mem i (w_armed (v_w s)) = true -> exists t0 k, timing p es = Some (t0, k) /\ v_due s i = t0 + (k + 1) * ms /\ i = w_id (v_w s).
  Proof.
    intros [A B _ _ _ _] M. destruct (timing p es) as [[t0 k]|]; [|rewrite (A eq_refl) in M; discriminate M]. destruct (B _ _ eq_refl) as (Y1 & Y2 & Y3 & _).
    rewrite Y1 in M. cbn in M. rewrite orb_false_r in M. apply Nat.eqb_eq in M. subst i. eauto.
  Qed.
  Lemma q_other (Q : stamped -> Z * event wcall wres -> Prop) (P1 P2 : stamped -> Z -> Prop) :
    (forall a x, Q a x <-> match snd x with Eff _ WDue _ => P1 a (fst x) | Eff _ WBegin _ => P2 a (fst x) | _ => True end) ->
    forall a x, (forall t r, snd x <> Eff t WDue r) -> (forall t r, snd x <> Eff t WBegin r) -> Q a x.
  Proof.
    intros H a [z y] N1 N2. apply H. cbn in *. destruct y as [t c|t c r|t r]; try exact Logic.I. destruct c; try exact Logic.I; [elim (N1 t r)|elim (N2 t r)]; reflexivity.
  Qed.
  Lemma v_winv ls s es : exec step v_init ls = Some (s, es) -> winv p (v_w s).
  Proof. intros E. destruct (v_project _ _ _ _ E) as (ls' & E'). exact (winv_exec _ _ _ _ E'). Qed.
  Lemma run_hist ls : forall s es, exec step v_init ls = Some (s, es) -> calm es -> vinv s es /\ whist Qearly es.
  Proof.
    induction ls as [|l ls IH] using rev_ind; intros s es E CA.
    - injection E as <- <-. split; [exact vinv_init|apply whist_nil].
    - rewrite exec_app in E. destruct (exec step v_init ls) as [[s1 e1]|] eqn:E1; [|discriminate]. specialize (IH _ _ eq_refl).
      cbn [exec] in E. destruct (step s1 l) as [[s2 e2]|] eqn:S; [|discriminate]. injection E as <- <-. rewrite app_nil_r in *.
      destruct (IH (calm_pre _ _ CA)) as (I & H). pose proof (v_winv _ _ _ E1) as W. split; [exact (vinv_step _ _ _ _ _ W I CA S)|].
      eapply whist_step; [exact W|exact S|exact H|eapply (q_other _ (fun a z => exists t0 k, timing p a = Some (t0, k) /\ t0 + (k + 1) * ms <= z)
        (fun a z => exists d, last_due a = Some d /\ d <= z /\ (p = false -> exists t0, last_start a = Some t0 /\ t0 + ms <= d))); intros a x; reflexivity| |].
      + intros i z t r -> D M _. destruct (timing_due _ _ _ I M) as (t0 & k & T & X & _). unfold Qearly. cbn [snd fst].
        destruct (folds e1 [(z, Call 0%nat WDue)]) as (F1 & _). cbn in F1. rewrite F1. exists t0, k. split; [exact T|lia].
      + intros i z t r -> K. unfold Qearly. cbn [snd fst]. destruct (folds e1 [(z, Call 0%nat WBegin)]) as (_ & _ & F3 & F4 & _). cbn in F3, F4. rewrite F3, F4. exact (vi_disp _ _ I i (or_intror K)).
  Qed.
  Theorem win_never_early ls s es : exec step v_init ls = Some (s, es) -> calm es -> never_early p ms es /\ (p = false -> after_last_start ms es).
  Proof.
    intros E CA. destruct (run_hist _ _ _ E CA) as (_ & H). repeat split.
    - intros a t1 t r d EQ. exact (H _ _ _ EQ).
    - intros a t1 t r d EQ. destruct (H _ _ _ EQ) as (z & A & B & _). eauto.
    - intros P a t1 t r d EQ. destruct (H _ _ _ EQ) as (z & A & B & C). destruct (C P) as (t0 & X & Y). exists t0. cbn [fst] in B. split; [exact X|lia].
  Qed.
End Win.
