(** More on the Windows timers and time: one-shot timers that are restarted at any moment; exact times; the clock goes on. *)
From Coq Require Import List ZArith Bool Arith Lia.
Import ListNotations.
From Verif Require Import Spec.Linear Spec.WinTimerSpec Spec.WinTimeSpec OS.Sched OS.WinTimerModel OS.WinTimerProofs OS.WinTimerMore OS.WinTimeModel OS.WinTimeProofs.
Open Scope Z_scope.

(** * one-shot timers, started and stopped at any moment, for every clock *)
Section Count.
  Variable ms : Z.
  Variable may_tick : vst -> bool.
  Notation step := (v_step false ms may_tick).
  Lemma until_app z es e : starts_until z (es ++ e) = (starts_until z es + starts_until z e)%nat.
  Proof. unfold starts_until. now rewrite filter_app, untimed_app, effects_app, starts_app. Qed.
  Lemma until_stamp z z1 e : starts_until z (map (fun x => (z1, x)) e) = if z1 <=? z then w_starts (effects e) else 0%nat.
  Proof.
    unfold starts_until. destruct (z1 <=? z) eqn:L.
    - replace (filter _ _) with (map (fun x : event wcall wres => (z1, x)) e); [now rewrite untimed_stamp|]. induction e as [|x e IH]; [reflexivity|]. cbn. rewrite L. now rewrite <- IH.
    - replace (filter _ _) with (@nil (Z * event wcall wres)); [reflexivity|]. induction e as [|x e IH]; [reflexivity|]. cbn. rewrite L. exact IH.
  Qed.
  Definition expiring (s : vst) (z : Z) (l : list nat) : nat := length (filter (fun i => v_due s i <=? z) l).
  Definition cinv (s : vst) (es : stamped) : Prop :=
    forall z, v_now s <= z -> (w_dues (effects (untimed es)) + expiring s z (w_armed (v_w s)) <= starts_until (z - ms)%Z es)%nat.
  Lemma expiring_del s z i l : (expiring s z (w_del i l) <= expiring s z l)%nat.
  Proof.
    unfold expiring, w_del. induction l as [|j l IH]; cbn; [lia|]. destruct (Nat.eqb i j); cbn; destruct (v_due s j <=? z); cbn; lia.
  Qed.
  Lemma expiring_del_in s z i l : NoDup l -> In i l -> v_due s i <= z -> (S (expiring s z (w_del i l)) <= expiring s z l)%nat.
  Proof.
    intros ND H D. induction l as [|j l IH]; [destruct H|]. inversion ND; subst. unfold expiring, w_del. cbn [filter].
    destruct (Nat.eqb_spec i j) as [->|N]; cbn [negb].
    - replace (v_due s j <=? z) with true by (symmetry; now apply Z.leb_le). cbn [length]. pose proof (expiring_del s z j l) as X. unfold expiring, w_del in X. lia.
    - destruct H as [H|H]; [congruence|]. specialize (IH ltac:(assumption) H). unfold expiring, w_del in IH. cbn [filter]. destruct (v_due s j <=? z); cbn [length]; lia.
  Qed.
  Lemma expiring_ext s s' z l : (forall i, In i l -> v_due s' i = v_due s i) -> expiring s' z l = expiring s z l.
  Proof. unfold expiring. induction l as [|j l IH]; intros H; [reflexivity|]. cbn. rewrite (H j) by now left. destruct (v_due s j <=? z); cbn; rewrite IH; auto; intros i Hi; apply H; now right. Qed.
  Lemma cinv_step s l s' e es : winv false (v_w s) -> cinv s es -> step s l = Some (s', e) -> cinv s' (es ++ e).
  Proof.
    intros W I E z Hz. destruct l as [l|]; cbn beta iota delta [v_step] in E.
    2:{ destruct (may_tick s); [|discriminate]. injection E as <- <-. rewrite app_nil_r. cbn [v_w v_now] in *. specialize (I z ltac:(lia)). exact I. }
    destruct (v_may s l) eqn:MAY; [|discriminate]. destruct (w_step false (v_w s) l) as [[w e0]|] eqn:ST; [|discriminate]. injection E as <- <-. cbn [v_now v_w] in *.
    specialize (I z Hz). rewrite untimed_app, untimed_stamp, effects_app, dues_app, until_app, until_stamp.
    (* nothing starts, nothing expires, timers may be unregistered *)
    assert (SAME : forall due, w_next w = w_next (v_w s) -> due = v_due s -> w_dues (effects e0) = 0%nat -> (w_armed w = w_armed (v_w s) \/ exists i, w_armed w = w_del i (w_armed (v_w s))) ->
      (w_dues (effects (untimed es)) + w_dues (effects e0) + expiring (mkV w (v_now s) due) z (w_armed w) <= starts_until (z - ms)%Z es + (if (v_now s <=? z - ms)%Z then w_starts (effects e0) else 0))%nat).
    { intros due _ -> -> [-> |(i & ->)]; (rewrite (expiring_ext s) by reflexivity); [lia|]. pose proof (expiring_del s z i (w_armed (v_w s))). lia. }
    destruct l as [t c|t ok|i|]; cbn beta iota delta [w_step] in ST.
    - destruct (w_thr (v_w s) t); try discriminate. destruct (w_callable t (w_wk (v_w s)) c && negb (w_freed (v_w s))); [|discriminate].
      destruct c; injection ST as <- <-; (apply SAME; [reflexivity|cbn [v_sched w_go w_next]; now rewrite Nat.eqb_refl|reflexivity|now left]).
    - assert (START : forall s1 r q, w_start (v_w s) ok = (s1, r) -> w = w_go s1 t q -> e0 = [Eff t WStart r] ->
        (w_dues (effects (untimed es)) + w_dues (effects e0) + expiring (mkV w (v_now s) (v_sched false ms s (YStep t ok) w)) z (w_armed w) <= starts_until (z - ms)%Z es + (if (v_now s <=? z - ms)%Z then w_starts (effects e0) else 0))%nat).
      { intros s1 r q E1 -> ->. destruct (start_cases _ _ _ _ E1) as [(-> & ON & ->)|(NR & ->)].
        - cbn [w_go w_armed]. unfold expiring at 1. cbn [filter v_due v_sched w_go w_next]. replace (Nat.eqb (S (w_next (v_w s))) (w_next (v_w s))) with false by (symmetry; apply Nat.eqb_neq; lia).
          rewrite fupd_same. replace (v_now s + ms <=? z) with (v_now s <=? z - ms) by (destruct (Z.leb_spec (v_now s) (z - ms)), (Z.leb_spec (v_now s + ms) z); auto; lia).
          match goal with |- context [filter ?f (w_armed (v_w s))] => assert (X : length (filter f (w_armed (v_w s))) = expiring s z (w_armed (v_w s))) end.
          { change (expiring (mkV (v_w s) (v_now s) (fupd (v_due s) (w_next (v_w s)) (v_now s + ms))) z (w_armed (v_w s)) = expiring s z (w_armed (v_w s))).
            apply expiring_ext. intros i Hi. cbn. apply fupd_other. pose proof (wi_lt _ _ W i Hi). lia. }
          unfold w_dues, w_starts in *. cbn. destruct (v_now s <=? z - ms); cbn [length] in *; lia.
        - apply SAME; [reflexivity|cbn [v_sched w_go w_next]; now rewrite Nat.eqb_refl|reflexivity|now left]. }
      assert (STOP : forall s1 r q, w_stop (v_w s) ok = (s1, r) -> w = w_go s1 t q -> w_dues (effects e0) = 0%nat ->
        (w_dues (effects (untimed es)) + w_dues (effects e0) + expiring (mkV w (v_now s) (v_sched false ms s (YStep t ok) w)) z (w_armed w) <= starts_until (z - ms)%Z es + (if (v_now s <=? z - ms)%Z then w_starts (effects e0) else 0))%nat).
      { intros s1 r q E1 -> D0. destruct (stop_cases _ _ _ _ E1) as [(-> & ->)|(NR & [-> |(-> & NM)])]; (apply SAME; [reflexivity|cbn [v_sched w_go w_off w_next]; now rewrite Nat.eqb_refl|exact D0|]); cbn; eauto. }
      pose proof (wi_thr _ _ W t) as MT. destruct (w_thr (v_w s) t) as [|c| | | |r] eqn:ET; try discriminate ST.
      + destruct (w_freed (v_w s)); [discriminate|]. destruct MT as [-> |[-> | ->]]; (destruct (w_locked (v_w s)); [discriminate|]).
        * destruct (w_start (v_w s) ok) as [s1 r] eqn:E1. injection ST as <- <-. eapply START; eauto.
        * destruct (w_stop (v_w s) ok) as [s1 r] eqn:E1. injection ST as <- <-. eapply STOP; eauto.
        * injection ST as <- <-. apply SAME; [reflexivity|cbn [v_sched w_go w_next]; now rewrite Nat.eqb_refl|reflexivity|now left].
      + destruct (w_freed (v_w s)); [discriminate|]. destruct (w_locked (v_w s)); [discriminate|]. destruct (w_stop (v_w s) ok) as [s1 r] eqn:E1. injection ST as <- <-. eapply STOP; eauto.
      + destruct (w_freed (v_w s)); [discriminate|]. destruct (w_ev (v_w s)); [|discriminate]. injection ST as <- <-. apply SAME; [reflexivity|cbn [v_sched w_go w_next]; now rewrite Nat.eqb_refl|reflexivity|now left].
      + destruct (w_freed (v_w s)); [discriminate|]. injection ST as <- <-. apply SAME; [reflexivity|cbn [v_sched w_next]; now rewrite Nat.eqb_refl|reflexivity|now left].
      + injection ST as <- <-. apply SAME; [reflexivity|cbn [v_sched w_go w_next]; now rewrite Nat.eqb_refl|reflexivity|now left].
    - destruct (w_wk (v_w s)); try discriminate. destruct (w_mem i (w_armed (v_w s)) && negb (w_freed (v_w s))) eqn:M; [|discriminate]. injection ST as <- <-.
      apply andb_prop in M. destruct M as (M & _). apply mem_in in M. cbn [v_may] in MAY. apply Z.leb_le in MAY. cbn [w_armed v_sched].
      rewrite (expiring_ext s) by reflexivity. pose proof (expiring_del_in s z i _ (wi_nd _ _ W) M ltac:(lia)) as X. unfold w_dues, w_starts in *. cbn. destruct (v_now s <=? z - ms); lia.
    - destruct (w_freed (v_w s)); [discriminate|]. destruct (w_wk (v_w s)) as [|i|i|i|i|]; try discriminate.
      1,2,4,5: injection ST as <- <-; (apply SAME; [reflexivity|cbn [v_sched w_kto w_next]; now rewrite Nat.eqb_refl|reflexivity|now left]).
      destruct (w_thr (v_w s) 0); try discriminate. injection ST as <- <-. apply SAME; [reflexivity|cbn [v_sched w_kto w_next]; now rewrite Nat.eqb_refl|reflexivity|now left].
  Qed.
  (** by the time a callback begins there have been as many effective starts, at least [ms] ago, as callbacks *)
  Definition Qcount (a : stamped) (e : Z * event wcall wres) : Prop :=
    match snd e with
    | Eff _ WDue _ => True
    | Eff _ WBegin _ => (S (w_begins (effects (untimed a))) <= starts_until (fst e - ms)%Z a)%nat
    | _ => True
    end.
  Lemma run_count ls : forall s es, exec step v_init ls = Some (s, es) -> cinv s es /\ whist Qcount es.
  Proof.
    induction ls as [|l ls IH] using rev_ind; intros s es E.
    - injection E as <- <-. split; [intros z _; exact (le_n 0)|apply whist_nil].
    - rewrite exec_app in E. destruct (exec step v_init ls) as [[s1 e1]|] eqn:E1; [|discriminate]. specialize (IH _ _ eq_refl). destruct IH as (I & H).
      cbn [exec] in E. destruct (step s1 l) as [[s2 e2]|] eqn:S; [|discriminate]. injection E as <- <-. rewrite app_nil_r in *.
      pose proof (v_winv _ _ _ _ _ _ E1) as W. split; [exact (cinv_step _ _ _ _ _ W I S)|].
      eapply (whist_step false ms); [exact W|exact S|exact H|eapply (q_other _ (fun a z => True) (fun a z => (Datatypes.S (w_begins (effects (untimed a))) <= starts_until (z - ms) a)%nat)); intros a x; reflexivity| |].
      + intros i z t r -> D M _. exact Logic.I.
      + intros i z t r -> K. unfold Qcount. cbn [snd fst]. rewrite until_app, untimed_app, effects_app, begins_app. specialize (I (v_now s1) ltac:(lia)).
        destruct (v_project _ _ _ _ _ _ _ E1) as (ls' & E'). destruct (reach _ _ _ _ E') as (_ & (f & L & _)). destruct (win_timer_atomic _ _ _ _ E') as (_ & R).
        pose proof (wf_due _ _ _ (wspec_facts _ _ _ R)) as D. unfold abs in D. cbn [p_fl] in D. rewrite K in D. cbn [fl_of is_due b2n] in D. unfold w_begins, w_dues in *. cbn in *. lia.
  Qed.
  Theorem win_as_many_starts ls s es : exec step v_init ls = Some (s, es) ->
    forall a t1 t r d, es = a ++ (t1, Eff t WBegin r) :: d -> (S (w_begins (effects (untimed a))) <= starts_until (t1 - ms)%Z a)%nat.
  Proof. intros E a t1 t r d EQ. exact (proj2 (run_count _ _ _ E) _ _ _ EQ). Qed.
End Count.

(** * when time passes only as in v_urgent *)
Section Urgent.
  Variable p : bool.
  Variable ms : Z.
  Hypothesis Hms : 0 <= ms.
  Variable n : nat.
  Notation ustep := (v_step p ms (v_urgent n)).
  Record uinv (s : vst) (es : stamped) : Prop := {
    ui_free : w_wk (v_w s) = KFree -> forall t0 k, timing p es = Some (t0, k) -> v_now s <= Z.max (t0 + (k + 1) * ms) (last_end es);
    ui_tail : (p = true /\ exists i, w_wk (v_w s) = KTail i) \/ w_wk (v_w s) = KUnlock -> last_end es = v_now s;
    ui_disp : forall i, w_wk (v_w s) = KDisp i \/ w_wk (v_w s) = KReset i -> last_due es = Some (v_now s) /\ (p = false -> exists t0, last_start es = Some t0 /\ t0 + ms = v_now s) }.
  (** what a caller does to the history *)
  Lemma caller_folds w t ok w' e z es : winv p w -> w_step p w (YStep t ok) = Some (w', e) ->
    w_wk w' = w_wk w /\ last_end (es ++ map (fun x => (z, x)) e) = last_end es /\ last_due (es ++ map (fun x => (z, x)) e) = last_due es /\
    ((timing p (es ++ map (fun x => (z, x)) e) = Some (z, 0) /\ e = [Eff t WStart RDone]) \/
     (last_start (es ++ map (fun x => (z, x)) e) = last_start es /\ (timing p (es ++ map (fun x => (z, x)) e) = None \/ timing p (es ++ map (fun x => (z, x)) e) = timing p es))).
  Proof.
    intros W ST. destruct (folds p es (map (fun x => (z, x)) e)) as (X1 & X2 & X3 & X4 & _). rewrite X1, X2, X3, X4. clear X1 X2 X3 X4.
    pose proof (wi_thr _ _ W t) as MT. cbn beta iota delta [w_step] in ST. destruct (w_thr w t) as [|c| | | |r] eqn:ET; try discriminate ST.
    - destruct (w_freed w); [discriminate|]. destruct MT as [-> |[-> | ->]]; (destruct (w_locked w); [discriminate|]).
      + destruct (w_start w ok) as [s1 r] eqn:E1. injection ST as <- <-. destruct (start_thr _ _ _ _ E1) as (_ & K & _). split; [exact K|]. cbn. split; [reflexivity|]. split; [reflexivity|]. destruct r; cbn; auto.
      + destruct (w_stop w ok) as [s1 r] eqn:E1. injection ST as <- <-. destruct (stop_thr _ _ _ _ E1) as (_ & K & _). split; [exact K|]. cbn. split; [reflexivity|]. split; [reflexivity|]. destruct r; cbn; auto.
      + injection ST as <- <-. cbn. auto 10.
    - destruct (w_freed w); [discriminate|]. destruct (w_locked w); [discriminate|]. destruct (w_stop w ok) as [s1 r] eqn:E1. injection ST as <- <-. destruct (stop_thr _ _ _ _ E1) as (_ & K & _).
      split; [exact K|]. cbn. split; [reflexivity|]. split; [reflexivity|]. destruct r; cbn; auto.
    - destruct (w_freed w); [discriminate|]. destruct (w_ev w); [|discriminate]. injection ST as <- <-. cbn. auto 10.
    - destruct (w_freed w); [discriminate|]. injection ST as <- <-. cbn. auto 10.
    - injection ST as <- <-. cbn. auto 10.
  Qed.
  Lemma uinv_step s l s' e es : winv p (v_w s) -> vinv p ms s es -> uinv s es -> calm p (es ++ e) -> ustep s l = Some (s', e) -> uinv s' (es ++ e).
  Proof.
    intros W I [A B C] CA E. destruct l as [l|]; cbn beta iota delta [v_step] in E.
    2:{ destruct (v_urgent n s) eqn:U; [|discriminate]. injection E as <- <-. rewrite app_nil_r. unfold v_urgent in U. apply andb_prop in U. destruct U as (U & _).
      apply andb_prop in U. destruct U as (_ & U). unfold v_worker_rests in U. constructor; cbn [v_w v_now].
      - intros K t0 k T. rewrite K in U. destruct (vi_some _ _ _ _ I _ _ T) as (Y1 & _ & Y3 & _). rewrite Y1 in U. cbn in U. rewrite orb_false_r, Y3 in U. apply negb_true_iff, Z.leb_gt in U. lia.
      - intros [(_ & i & K)|K]; rewrite K in U; discriminate.
      - intros i [K|K]; rewrite K in U; discriminate. }
    destruct (v_may s l) eqn:MAY; [|discriminate]. destruct (w_step p (v_w s) l) as [[w e0]|] eqn:ST; [|discriminate]. injection E as <- <-.
    destruct (folds p es (map (fun x => (v_now s, x)) e0)) as (X1 & X2 & X3 & X4 & X5).
    destruct l as [t c|t ok|i|].
    - cbn beta iota delta [w_step] in ST. destruct (w_thr (v_w s) t); try discriminate. destruct (w_callable t (w_wk (v_w s)) c && negb (w_freed (v_w s))); [|discriminate].
      destruct c; injection ST as <- <-; cbn in X1, X2, X3, X4; constructor; cbn [v_w v_now w_go w_wk map]; rewrite ?X1, ?X2, ?X3, ?X4; assumption.
    - destruct (caller_folds _ _ _ _ _ (v_now s) es W ST) as (K & F1 & F2 & F3). constructor; cbn [v_w v_now]; rewrite ?K, ?F1, ?F2.
      + intros KF t0 k T. destruct F3 as [(F3 & _)|(_ & [F3|F3])]; rewrite F3 in T; [injection T as <- <-; lia|discriminate|auto].
      + exact B.
      + intros i H. destruct (C i H) as (H1 & H2). split; [exact H1|]. intros P. destruct F3 as [(_ & ->)|(F3 & _)]; [|rewrite F3; auto].
        exfalso. specialize (CA P). cbn [map] in CA. rewrite untimed_app, effects_app in CA. specialize (CA (effects (untimed es)) t [] eq_refl). rewrite (vi_cnt _ _ _ _ I) in CA. destruct H as [H|H]; rewrite H in CA; lia.
    - pose proof ST as ST'. cbn beta iota delta [w_step] in ST. destruct (w_wk (v_w s)) eqn:EK; try discriminate. destruct (w_mem i (w_armed (v_w s)) && negb (w_freed (v_w s))) eqn:M; [|discriminate]. injection ST as <- <-.
      apply andb_prop in M. destruct M as (M & _). destruct (timing_due _ _ _ _ _ I M) as (t0 & k & T & D & _). cbn [v_may] in MAY. apply Z.leb_le in MAY.
      constructor; cbn [v_w v_now w_wk]; [discriminate|intros [(_ & j & H)|H]; discriminate|]. intros j _. rewrite X3, X4. cbn. split; [reflexivity|]. intros P.
      destruct (vi_some _ _ _ _ I _ _ T) as (_ & _ & _ & Y). destruct (Y P) as (-> & Z1 & Z2). exists t0. split; [exact Z1|]. specialize (A eq_refl _ _ T). lia.
    - cbn beta iota delta [w_step] in ST. destruct (w_freed (v_w s)); [discriminate|]. destruct (w_wk (v_w s)) as [|i|i|i|i|] eqn:EK; try discriminate.
      + injection ST as <- <-. constructor; cbn [v_w v_now w_kto w_wk]; [discriminate|intros [(_ & j & H)|H]; discriminate|]. intros j _. rewrite X3, X4. cbn. apply (C i). auto.
      + injection ST as <- <-. constructor; cbn [v_w v_now w_kto w_wk]; [discriminate|intros [(_ & j & H)|H]; discriminate|intros j [H|H]; discriminate].
      + destruct (w_thr (v_w s) 0); try discriminate. assert (PC : p = true \/ p = false) by (destruct p; auto). destruct PC as [P|P]; rewrite P in ST; injection ST as <- <-.
        * constructor; cbn [v_w v_now w_kto w_wk]; [discriminate|intros _; rewrite X2; reflexivity|intros j [H|H]; discriminate].
        * constructor; cbn [v_w v_now w_kto w_wk]; [discriminate|intros [(Q & _)|H]; congruence|intros j [H|H]; discriminate].
      + assert (PC : p = true \/ p = false) by (destruct p; auto). destruct PC as [P|P]; rewrite P in ST; injection ST as <- <-.
        * constructor; cbn [v_w v_now w_kto w_wk map]; [|intros [(_ & j & H)|H]; discriminate|intros j [H|H]; discriminate]. rewrite app_nil_r. intros _ t0 k T.
          rewrite B; [lia|]. left. eauto.
        * constructor; cbn [v_w v_now w_kto w_wk]; [discriminate|intros _; rewrite X2; reflexivity|intros j [H|H]; discriminate].
      + injection ST as <- <-. constructor; cbn [v_w v_now w_kto w_wk map]; [|intros [(_ & j & H)|H]; discriminate|intros j [H|H]; discriminate]. rewrite app_nil_r. intros _ t0 k T.
        rewrite B; [lia|]. now right.
  Qed.
  Definition Qtime (a : stamped) (e : Z * event wcall wres) : Prop :=
    match snd e with
    | Eff _ WDue _ => exists t0 k, timing p a = Some (t0, k) /\ fst e = Z.max (t0 + (k + 1) * ms) (last_end a)
    | Eff _ WBegin _ => last_due a = Some (fst e) /\ (p = false -> exists t0, last_start a = Some t0 /\ t0 + ms = fst e)
    | _ => True
    end.
  Lemma run_time ls : forall s es, exec ustep v_init ls = Some (s, es) -> calm p es -> uinv s es /\ whist Qtime es.
  Proof.
    induction ls as [|l ls IH] using rev_ind; intros s es E CA.
    - injection E as <- <-. split; [|apply whist_nil]. constructor; cbn; try discriminate; [intros [(_ & i & H)|H]; discriminate|intros i [H|H]; discriminate].
    - rewrite exec_app in E. destruct (exec ustep v_init ls) as [[s1 e1]|] eqn:E1; [|discriminate]. specialize (IH _ _ eq_refl).
      cbn [exec] in E. destruct (ustep s1 l) as [[s2 e2]|] eqn:S; [|discriminate]. injection E as <- <-. rewrite app_nil_r in *.
      destruct (IH (calm_pre _ _ _ CA)) as (U & H). pose proof (v_winv _ _ _ _ _ _ E1) as W. destruct (run_hist _ _ _ _ _ _ E1 (calm_pre _ _ _ CA)) as (I & _).
      split; [exact (uinv_step _ _ _ _ _ W I U CA S)|].
      eapply (whist_step p ms); [exact W|exact S|exact H|eapply (q_other _ (fun a z => exists t0 k, timing p a = Some (t0, k) /\ z = Z.max (t0 + (k + 1) * ms) (last_end a))
        (fun a z => last_due a = Some z /\ (p = false -> exists t0, last_start a = Some t0 /\ t0 + ms = z))); intros a x; reflexivity| |].
      + intros i z t r -> D M K. destruct (timing_due _ _ _ _ _ I M) as (t0 & k & T & X & _). unfold Qtime. cbn [snd fst].
        destruct (folds p e1 [(z, Call 0%nat WDue)]) as (F1 & F2 & _). cbn in F1, F2. rewrite F1, F2. exists t0, k. split; [exact T|]. pose proof (ui_free _ _ U K _ _ T). pose proof (vi_end _ _ _ _ I). lia.
      + intros i z t r -> K. unfold Qtime. cbn [snd fst]. destruct (folds p e1 [(z, Call 0%nat WBegin)]) as (_ & _ & F3 & F4 & _). cbn in F3, F4. rewrite F3, F4. exact (ui_disp _ _ U i (or_intror K)).
  Qed.
  Theorem win_on_time ls s es : exec ustep v_init ls = Some (s, es) -> calm p es -> on_time p ms es /\ never_overdue p ms (v_now s) es /\ (p = false -> exactly_after_last_start ms es).
  Proof.
    intros E CA. destruct (run_time _ _ _ E CA) as (U & H). destruct (run_hist _ _ _ _ _ _ E CA) as (I & _). split; [split|split].
    - intros a t1 t r d EQ. exact (H _ _ _ EQ).
    - intros a t1 t r d EQ. exact (proj1 (H _ _ _ EQ)).
    - intros t0 k T DE. rewrite (vi_cnt _ _ _ _ I) in DE. destruct (w_wk (v_w s)) as [|i|i|i|i|] eqn:K; try lia.
      + exact (ui_free _ _ U K _ _ T).
      + rewrite (ui_tail _ _ U); [lia|]. left. split; [destruct p; [reflexivity|lia]|eauto].
      + rewrite (ui_tail _ _ U); [lia|]. now right.
    - intros P a t1 t r d EQ. destruct (H _ _ _ EQ) as (_ & X). destruct (X P) as (t0 & Y & Z). exists t0. cbn [fst] in Z. auto.
  Qed.

  (** the clock goes on, until the object is deleted *)
  Definition kpw (k : wpc) : nat := match k with KTail _ => 5 | KUnlock => 4 | KFree => 3 | KDisp _ => 2 | KReset _ => 1 | KRun _ => 0 end.
  Definition cpw (q : cpc) : nat := match q with CIdle => 0 | CAtD => 4 | CWait => 3 | CFree => 2 | CAt _ => 2 | CRet _ => 1 end.
  Definition vmeasure (s : vst) : nat := (sumn (fun t => cpw (w_thr (v_w s) t)) n + kpw (w_wk (v_w s)))%nat.
  Lemma sum_dec w t q : (t < n)%nat -> (cpw q < cpw (w_thr w t))%nat -> (sumn (fun u => cpw (fupd (w_thr w) t q u)) n < sumn (fun u => cpw (w_thr w u)) n)%nat.
  Proof.
    intros Lt D. pose proof (sumn_change n (fun u => cpw (w_thr w u)) (fun u => cpw (fupd (w_thr w) t q u)) t Lt) as SC. cbn beta in SC. rewrite fupd_same in SC.
    specialize (SC ltac:(intros u N; now rewrite fupd_other)). lia.
  Qed.
  Lemma v_busy s : winv p (v_w s) -> w_freed (v_w s) = false -> v_urgent n s = false ->
    exists l s' e, v_own l /\ ustep s l = Some (s', e) /\ v_now s' = v_now s /\ (vmeasure s' < vmeasure s)%nat.
  Proof.
    intros W NF U. unfold v_urgent in U. rewrite NF in U. cbn [negb andb] in U. destruct (v_worker_rests s) eqn:WR.
    - (* a thread *)
      assert (X : exists t, (t < n)%nat /\ v_thread_rests s t = false).
      { revert U. generalize n. induction n0 as [|m IH]; [discriminate|]. rewrite seq_S, forallb_app. cbn. rewrite andb_true_r. intros U. apply andb_false_iff in U. destruct U as [U|U].
        - destruct (IH U) as (t & A & B). exists t. split; [lia|exact B].
        - exists m. split; [lia|exact U]. }
      destruct X as (t & Lt & NR). exists (VL (YStep t true)). unfold v_thread_rests in NR.
      assert (LK : w_locked (v_w s) = false) by (unfold w_locked; unfold v_worker_rests in WR; destruct (w_wk (v_w s)); auto; discriminate).
      cbn [v_step v_may]. unfold w_step. rewrite NF. pose proof (wi_thr _ _ W t) as MT. pose proof (fun q => sum_dec (v_w s) t q Lt) as SD. destruct (w_thr (v_w s) t) as [|c| | | |r] eqn:ET; try discriminate NR.
      + destruct MT as [-> |[-> | ->]]; rewrite ?LK.
        * destruct (w_start (v_w s) true) as [s1 r] eqn:E1. destruct (start_thr _ _ _ _ E1) as (T1 & K1 & _). eexists _, _. split; [exact Logic.I|]. split; [reflexivity|]. split; [reflexivity|].
          unfold vmeasure. cbn [v_w w_go w_thr w_wk]. rewrite T1, K1. specialize (SD (CRet r)). cbn [cpw] in SD. specialize (SD ltac:(lia)). lia.
        * destruct (w_stop (v_w s) true) as [s1 r] eqn:E1. destruct (stop_thr _ _ _ _ E1) as (T1 & K1 & _). eexists _, _. split; [exact Logic.I|]. split; [reflexivity|]. split; [reflexivity|].
          unfold vmeasure. cbn [v_w w_go w_thr w_wk]. rewrite T1, K1. specialize (SD (CRet r)). cbn [cpw] in SD. specialize (SD ltac:(lia)). lia.
        * eexists _, _. split; [exact Logic.I|]. split; [reflexivity|]. split; [reflexivity|].
          unfold vmeasure. cbn [v_w w_go w_thr w_wk]. specialize (SD (CRet (RBool (w_on (v_w s))))). cbn [cpw] in SD. specialize (SD ltac:(lia)). lia.
      + rewrite LK. destruct (w_stop (v_w s) true) as [s1 r] eqn:E1. destruct (stop_thr _ _ _ _ E1) as (T1 & K1 & _). eexists _, _. split; [exact Logic.I|]. split; [reflexivity|]. split; [reflexivity|].
        unfold vmeasure. cbn [v_w w_go w_thr w_wk]. rewrite T1, K1. specialize (SD CWait). cbn [cpw] in SD. specialize (SD ltac:(lia)). lia.
      + apply negb_false_iff in NR. rewrite NR. eexists _, _. split; [exact Logic.I|]. split; [reflexivity|]. split; [reflexivity|].
        unfold vmeasure. cbn [v_w w_go w_thr w_wk]. specialize (SD CFree). cbn [cpw] in SD. specialize (SD ltac:(lia)). lia.
      + eexists _, _. split; [exact Logic.I|]. split; [reflexivity|]. split; [reflexivity|].
        unfold vmeasure. cbn [v_w w_thr w_wk]. specialize (SD (CRet RDone)). cbn [cpw] in SD. specialize (SD ltac:(lia)). lia.
      + eexists _, _. split; [exact Logic.I|]. split; [reflexivity|]. split; [reflexivity|].
        unfold vmeasure. cbn [v_w w_go w_thr w_wk]. specialize (SD CIdle). cbn [cpw] in SD. specialize (SD ltac:(lia)). lia.
    - unfold v_worker_rests in WR. destruct (w_wk (v_w s)) as [|i|i|i|i|] eqn:EK; try discriminate WR.
      + apply negb_false_iff, existsb_exists in WR. destruct WR as (i & HI & D). exists (VL (YDue i)). cbn [v_step v_may]. rewrite D. unfold w_step. rewrite EK, NF.
        replace (w_mem i (w_armed (v_w s))) with true by (symmetry; now apply mem_in). cbn [negb andb]. eexists _, _. split; [exact Logic.I|]. split; [reflexivity|]. split; [reflexivity|].
        unfold vmeasure. cbn [v_w w_thr w_wk]. rewrite EK. cbn [kpw]. lia.
      + exists (VL YWork). cbn [v_step v_may]. unfold w_step. rewrite NF, EK. eexists _, _. split; [exact Logic.I|]. split; [reflexivity|]. split; [reflexivity|].
        unfold vmeasure. cbn [v_w w_kto w_thr w_wk]. rewrite EK. cbn [kpw]. lia.
      + exists (VL YWork). cbn [v_step v_may]. unfold w_step. rewrite NF, EK. eexists _, _. split; [exact Logic.I|]. split; [reflexivity|]. split; [reflexivity|].
        unfold vmeasure. cbn [v_w w_kto w_thr w_wk]. rewrite EK. cbn [kpw]. lia.
      + exists (VL YWork). cbn [v_step v_may]. unfold w_step. rewrite NF, EK. destruct p; eexists _, _; (split; [exact Logic.I|]; split; [reflexivity|]; split; [reflexivity|]);
        unfold vmeasure; cbn [v_w w_kto w_thr w_wk]; rewrite EK; cbn [kpw]; lia.
      + exists (VL YWork). cbn [v_step v_may]. unfold w_step. rewrite NF, EK. eexists _, _. split; [exact Logic.I|]. split; [reflexivity|]. split; [reflexivity|].
        unfold vmeasure. cbn [v_w w_kto w_thr w_wk]. rewrite EK. cbn [kpw]. lia.
  Qed.
  Theorem win_clock_goes_on ls0 s es0 : exec ustep v_init ls0 = Some (s, es0) ->
    exists ls s1 es1, (length ls <= 4 * n + 5)%nat /\ (forall l, In l ls -> v_own l) /\ exec ustep s ls = Some (s1, es1) /\ v_now s1 = v_now s /\
      (w_freed (v_w s1) = true \/ exists s2, ustep s1 VTick = Some (s2, []) /\ v_now s2 = v_now s + 1).
  Proof.
    intros E. pose proof (v_winv _ _ _ _ _ _ E) as W. clear E.
    assert (G : forall m s, winv p (v_w s) -> (vmeasure s <= m)%nat ->
      exists ls s1 es1, (length ls <= m)%nat /\ (forall l, In l ls -> v_own l) /\ exec ustep s ls = Some (s1, es1) /\ v_now s1 = v_now s /\ (w_freed (v_w s1) = true \/ v_urgent n s1 = true)).
    { clear s W. induction m as [|m IH]; intros s W B.
      all: assert (DONE : w_freed (v_w s) = true \/ v_urgent n s = true \/ (w_freed (v_w s) = false /\ v_urgent n s = false)) by (destruct (w_freed (v_w s)), (v_urgent n s); auto).
      all: destruct DONE as [DN|[DN|(NF & U)]]; [exists [], s, []; cbn; repeat split; auto; try lia; intros l []..|]; destruct (v_busy s W NF U) as (l & s' & e & O & S & T & M).
      { lia. }
      assert (W' : winv p (v_w s')).
      { destruct l as [l|]; [|destruct O]. cbn beta iota delta [v_step] in S. destruct (v_may s l); [|discriminate]. destruct (w_step p (v_w s) l) as [[w e0]|] eqn:ST; [|discriminate]. injection S as <- <-. exact (winv_step _ _ _ _ _ W ST). }
      destruct (IH s' W') as (ls & s1 & es1 & L & OL & X & T1 & U1); [lia|]. exists (l :: ls), s1, (e ++ es1). cbn [exec length]. rewrite S, X.
      repeat split; auto; try lia; try (intros z [<-|Hz]; auto). }
    destruct (G (4 * n + 5)%nat s W) as (ls & s1 & es1 & L & OL & X & T & U).
    { unfold vmeasure. pose proof (sumn_bound n (fun t => cpw (w_thr (v_w s) t)) 4%nat) as SB. specialize (SB ltac:(intros t _; cbn beta; destruct (w_thr (v_w s) t); cbn; lia)).
      assert (kpw (w_wk (v_w s)) <= 5)%nat by (destruct (w_wk (v_w s)); cbn; lia). lia. }
    exists ls, s1, es1. repeat split; auto. destruct U as [U|U]; [now left|]. right. cbn [v_step]. rewrite U. eexists. split; [reflexivity|]. cbn. lia.
  Qed.
End Urgent.

(** a one-shot timer that was stopped and started again while its callback ran, and started once more after it: the time of the start in
    between runs on, and its callback comes [ms] after that start, too early for the last one *)
Definition sch_early : list vlab :=
  map VL [YCall 1 WStart; YStep 1 true; YStep 1 true] ++ repeat VTick 10 ++
  map VL [YDue 1; YWork; YWork; YCall 1 WStop; YStep 1 true; YStep 1 true; YCall 1 WStart; YStep 1 true; YStep 1 true; YWork; YWork; YWork] ++ repeat VTick 5 ++
  map VL [YCall 1 WStart; YStep 1 true; YStep 1 true] ++ repeat VTick 5 ++ map VL [YDue 2; YWork; YWork].
Theorem win_early_when_restarted : ~ (forall ms n ls s es, exec (v_step false ms (v_urgent n)) v_init ls = Some (s, es) -> w_only_client 1 (untimed es) -> after_last_start ms es).
Proof.
  intros H. specialize (H 10 2%nat sch_early). destruct (exec (v_step false 10 (v_urgent 2)) v_init sch_early) as [[s es]|] eqn:E; [|vm_compute in E; discriminate].
  specialize (H s es eq_refl). vm_compute in E. injection E as <- <-. specialize (H ltac:(apply one_client_sound; reflexivity)).
  match type of H with after_last_start _ ?es => assert (X : exists a d, es = a ++ (20, Eff 0%nat WBegin RDone) :: d /\ last_start a = Some 15) end.
  { match goal with |- exists a d, ?es = _ /\ _ => exists (firstn (length es - 2) es), (skipn (length es - 1) es) end. vm_compute. split; reflexivity. }
  destruct X as (a & d & EQ & L). destruct (H a 20 0%nat RDone d EQ) as (t0 & L0 & C). rewrite L in L0. injection L0 as <-. lia.
Qed.

(** * a periodic timer calls back once per period *)
Lemma v_stamps p ms mt ls : forall s es, exec (v_step p ms mt) v_init ls = Some (s, es) -> forall x, In x es -> fst x <= v_now s.
Proof.
  induction ls as [|l ls IH] using rev_ind; intros s es E x HX.
  - injection E as <- <-. destruct HX.
  - rewrite exec_app in E. destruct (exec (v_step p ms mt) v_init ls) as [[s1 e1]|] eqn:E1; [|discriminate]. specialize (IH _ _ eq_refl).
    cbn [exec] in E. destruct (v_step p ms mt s1 l) as [[s2 e2]|] eqn:S; [|discriminate]. injection E as <- <-. rewrite app_nil_r in HX. apply in_app_iff in HX.
    destruct l as [l|]; cbn beta iota delta [v_step] in S.
    + destruct (v_may s1 l); [|discriminate]. destruct (w_step p (v_w s1) l) as [[w e0]|]; [|discriminate]. injection S as <- <-. cbn [v_now].
      destruct HX as [HX|HX]; [auto|]. apply in_map_iff in HX. destruct HX as (y & <- & _). cbn. lia.
    + destruct (mt s1); [|discriminate]. injection S as <- <-. cbn [v_now]. destruct HX as [HX|[]]. specialize (IH x HX). lia.
Qed.
Lemma periods_past ms es : whist (Qearly true ms) es -> forall z, (forall x, In x es -> fst x <= z) -> forall t0 k, timing true es = Some (t0, k) -> 0 <= k /\ t0 + k * ms <= z.
Proof.
  induction es as [|e es IH] using rev_ind; intros H z Z t0 k T; [discriminate|].
  assert (IH1 := IH (whist_pre _ _ _ H) z). assert (Z1 : forall x, In x es -> fst x <= z) by (intros x HX; apply Z; apply in_app_iff; now left).
  specialize (IH1 Z1). assert (ZE : fst e <= z) by (apply Z; apply in_app_iff; right; now left). specialize (H es e [] eq_refl). unfold Qearly in H.
  destruct (folds true es [e]) as (F & _). rewrite F in T. cbn [fold_left] in T. unfold timing1 in T.
  destruct e as [ze [t c|t c r|t r]]; cbn [fst snd] in *; [now apply IH1| |now apply IH1].
  destruct c; try (now apply IH1).
  - destruct r; try (now apply IH1). injection T as <- <-. lia.
  - destruct r; try (now apply IH1).
  - destruct H as (u & j & T0 & B). rewrite T0 in T. injection T as <- <-. destruct (IH1 _ _ T0) as (A & _). lia.
Qed.
Theorem win_one_per_period ms n ls s es : 0 <= ms -> exec (v_step true ms (v_urgent n)) v_init ls = Some (s, es) ->
  forall t0 k, timing true es = Some (t0, k) -> w_dues (effects (untimed es)) = w_ends (effects (untimed es)) -> last_end es <= t0 + (k + 1) * ms ->
  0 <= k /\ t0 + k * ms <= v_now s <= t0 + (k + 1) * ms.
Proof.
  intros M E t0 k T DE L. assert (CA : calm true es) by (intros P; discriminate). destruct (run_hist _ _ _ _ _ _ E CA) as (_ & H).
  destruct (periods_past _ _ H (v_now s) (v_stamps _ _ _ _ _ _ E) _ _ T) as (A & B). destruct (win_on_time _ _ M _ _ _ _ E CA) as (_ & O & _). specialize (O _ _ T DE). lia.
Qed.
