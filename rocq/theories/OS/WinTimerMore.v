(** What the specification of the Windows timers entails, termination, destruction, and schedules that show the races. *)
From Coq Require Import List Bool Lia Arith.
Import ListNotations.
From Verif Require Import Spec.Linear Spec.WinTimerSpec OS.Sched OS.WinTimerModel OS.WinTimerProofs.

(** * runs of the specification *)
Lemma sp_run_ind_r {C R Sp} (sp : Sp -> nat -> C -> R -> Sp -> Prop) (P : Sp -> list (nat * C * R) -> Prop) s0 :
  P s0 [] -> (forall s l t c r s', sp_run sp s0 l s -> P s l -> sp s t c r s' -> P s' (l ++ [(t, c, r)])) -> forall l s, sp_run sp s0 l s -> P s l.
Proof.
  intros H0 HS l. induction l as [|e l IH] using rev_ind; intros s H.
  - inversion H; subst. exact H0.
  - apply sp_run_app_inv in H. destruct H as (s1 & A & B). destruct e as [[t c] r]. inversion B; subst.
    match goal with h : sp_run _ _ [] _ |- _ => inversion h; subst end. eapply HS; eauto.
Qed.
Lemma wcount_app f l l' : wcount f (l ++ l') = wcount f l + wcount f l'.
Proof. unfold wcount. now rewrite filter_app, app_length. Qed.
Lemma starts_app l l' : w_starts (l ++ l') = w_starts l + w_starts l'. Proof. apply wcount_app. Qed.
Lemma cancels_app l l' : w_cancels (l ++ l') = w_cancels l + w_cancels l'. Proof. apply wcount_app. Qed.
Lemma dues_app l l' : w_dues (l ++ l') = w_dues l + w_dues l'. Proof. apply wcount_app. Qed.
Lemma begins_app l l' : w_begins (l ++ l') = w_begins l + w_begins l'. Proof. apply wcount_app. Qed.
Lemma ends_app l l' : w_ends (l ++ l') = w_ends l + w_ends l'. Proof. apply wcount_app. Qed.
Lemma marks_app l l' : wmarks (l ++ l') = wmarks l ++ wmarks l'. Proof. apply flat_map_app. Qed.
Ltac counts := rewrite ?starts_app, ?cancels_app, ?dues_app, ?begins_app, ?ends_app.
Definition b2n (b : bool) : nat := if b then 1 else 0.
Definition is_due (f : wflight) : bool := match f with FDue => true | _ => false end.
Definition is_running (f : wflight) : bool := match f with FRunning => true | _ => false end.

(** facts of every run *)
Record wfacts (p : bool) (s : wstate) (l : list weff) : Prop := {
  wf_cur : p_cur s = true -> p_on s = true;
  wf_due : w_dues l = w_begins l + b2n (is_due (p_fl s));
  wf_run : w_begins l = w_ends l + b2n (is_running (p_fl s));
  wf_one : p = false -> w_starts l = w_cancels l + w_dues l + b2n (p_cur s) + p_old s;
  wf_per : p = true -> p_cur s = p_on s /\ p_old s = 0;
  wf_fly : p_on s = true -> p_cur s = false -> p_fl s <> FRest
}.
Ltac one_eff := unfold w_starts, w_cancels, w_dues, w_begins, w_ends, wcount in *; cbn [filter fst snd length app] in *.
Lemma wspec_facts p l s : sp_run (wspec p) w_new l s -> wfacts p s l.
Proof.
  revert l s. apply (sp_run_ind_r (wspec p) (wfacts p)).
  - constructor; cbn; auto; try discriminate.
  - intros s l t c r s' _ [C D U O P F] H. destruct c; cbn in H.
    + destruct r; try contradiction; destruct H as (H & ->); constructor; counts; one_eff; cbn; auto; try lia; try discriminate.
      * intros E. specialize (O E). assert (X : p_cur s = false) by (destruct (p_cur s); [rewrite C in H; [discriminate|reflexivity]|reflexivity]).
        rewrite X in O. cbn in O. lia.
      * intros E. destruct (P E). auto.
      * intros E. specialize (O E). lia.
      * intros E. specialize (O E). lia.
    + destruct r; try contradiction.
      * destruct H as (H & H1 & ->). constructor; counts; one_eff; cbn; auto; try lia; try discriminate.
        -- intros E. specialize (O E). rewrite H1 in O. cbn in O. lia.
        -- intros E. destruct (P E). auto.
      * destruct H as (H & ->). constructor; counts; one_eff; cbn; auto; try lia. intros E. specialize (O E). lia.
      * destruct H as (-> & H & H1 & H2 & ->). constructor; counts; one_eff; cbn; auto; try lia; try discriminate.
        intros E. specialize (O E). rewrite H1 in O. cbn in O. lia.
      * destruct H as (-> & H & H1 & H2 & ->). constructor; counts; one_eff; cbn; auto; try lia; try discriminate.
    + destruct H as (-> & ->). constructor; counts; one_eff; cbn; auto; try lia. intros E. specialize (O E). lia.
    + destruct H as (-> & ->). constructor; counts; one_eff; cbn; auto; try lia. intros E. specialize (O E). lia.
    + destruct H as (FR & G & H). rewrite FR in *. cbn in D, U. destruct r as [| | | | |[|]]; try contradiction.
      * destruct H as (H & ->). constructor; counts; one_eff; cbn; auto; try lia; try discriminate.
        -- intros E. specialize (O E). rewrite H in O. subst p. cbn in *. lia.
        -- intros E. destruct (P E) as (X & Y). rewrite H in X. split; congruence.
      * destruct H as (k & H & ->). constructor; counts; one_eff; cbn; auto; try lia; try discriminate.
        -- intros E. specialize (O E). lia.
        -- intros E. destruct (P E). lia.
    + destruct H as (-> & FR & ->). rewrite FR in *. cbn in D, U. constructor; counts; one_eff; cbn; auto; try lia; try discriminate.
      intros E. specialize (O E). lia.
    + destruct H as (-> & FR & ->). rewrite FR in *. cbn in D, U. destruct p; constructor; counts; one_eff; cbn; auto; try lia; try discriminate.
      * intros A B. destruct (P eq_refl). congruence.
      * intros E. specialize (O E). destruct (p_cur s); cbn in *; lia.
Qed.

(** callbacks do not overlap *)
Lemma wspec_alternate p l : forall s s', sp_run (wspec p) s l s' -> alternate (is_running (p_fl s)) (wmarks l).
Proof.
  induction l as [|[[t c] r] l IH]; intros s s' H; [exact Logic.I|]. inversion H as [|? ? ? ? s1 ? ? SP RN]; subst. specialize (IH _ _ RN).
  destruct c; cbn in SP.
  - destruct r; try contradiction; destruct SP as (A & ->); exact IH.
  - destruct r; try contradiction; try (destruct SP as (A & ->); exact IH).
    + destruct SP as (A & B & ->). exact IH.
    + destruct SP as (A & B & C & D & ->). exact IH.
    + destruct SP as (A & B & C & D & ->). exact IH.
  - destruct SP as (-> & ->). exact IH.
  - destruct SP as (-> & ->). exact IH.
  - destruct SP as (F & G & SP). destruct r as [| | | | |[|]]; try contradiction.
    + destruct SP as (A & ->). cbn. rewrite F. exact IH.
    + destruct SP as (k & A & ->). cbn. rewrite F. exact IH.
  - destruct SP as (-> & F & ->). cbn. rewrite F. split; [reflexivity|exact IH].
  - destruct SP as (-> & F & ->). cbn. rewrite F. split; [reflexivity|]. destruct p; exact IH.
Qed.

(** a one-shot timer that is never restarted early *)
Lemma early_app l e : never_restarted_early (l ++ [e]) -> never_restarted_early l.
Proof. intros H l1 t l2 ->. apply (H l1 t (l2 ++ [e])). rewrite <- app_assoc. reflexivity. Qed.
Lemma early_pre l l' : never_restarted_early (l ++ l') -> never_restarted_early l.
Proof. intros H l1 t l2 ->. apply (H l1 t (l2 ++ l')). rewrite <- app_assoc. reflexivity. Qed.
Definition calm_state (s : wstate) : Prop := p_old s = 0 /\ (p_cur s = true -> p_fl s = FRest).
Lemma wspec_calm l s : sp_run (wspec false) w_new l s -> never_restarted_early l -> calm_state s /\ w_history s (wmarks l).
Proof.
  revert l s. apply (sp_run_ind_r (wspec false) (fun s l => never_restarted_early l -> calm_state s /\ w_history s (wmarks l))).
  - intros _. split; [split; [reflexivity|discriminate]|]. exists [], []. split; [reflexivity|]. split; [constructor|reflexivity].
  - intros s l t c r s' RN IH H EA. pose proof (wspec_facts _ _ _ RN) as [C D U O _ F].
    destruct (IH (early_app _ _ EA)) as ((OLD & CUR) & rounds & now & M & RO & NOW). rewrite marks_app, M. clear IH.
    assert (SAME : forall s1, s1 = s -> wmarks [(t, c, r)] = [] ->
              calm_state s1 /\ w_history s1 ((concat rounds ++ now) ++ wmarks [(t, c, r)])).
    { intros s1 -> ->. split; [split; assumption|]. exists rounds, now. rewrite app_nil_r. auto. }
    destruct c; cbn in H.
    + destruct r; try contradiction; destruct H as (H & ->); [|apply SAME; reflexivity|apply SAME; reflexivity].
      assert (FR : p_fl s = FRest).
      { specialize (EA l t [] eq_refl). destruct (p_fl s); cbn in *; [reflexivity|lia|lia]. }
      split; [split; [exact OLD|intros _; exact FR]|]. rewrite FR, H in NOW. subst now. rewrite app_nil_r.
      exists rounds, [VStart]. split; [reflexivity|]. split; [exact RO|]. cbn. rewrite FR. reflexivity.
    + destruct r; try contradiction.
      * destruct H as (H & H1 & ->). rewrite (CUR H1), H in NOW. subst now.
        split; [split; [exact OLD|discriminate]|]. exists (rounds ++ [[VStart; VCancel]]), []. rewrite concat_app. cbn. rewrite <- !app_assoc. cbn.
        rewrite (CUR H1). split; [reflexivity|]. split; [apply Forall_app; split; [exact RO|repeat constructor]|reflexivity].
      * destruct H as (H & ->). apply SAME; reflexivity.
      * destruct H as (_ & H & H1 & H2 & ->). split; [split; [exact OLD|discriminate]|]. exists rounds, now. rewrite app_nil_r. cbn.
        split; [reflexivity|]. split; [exact RO|]. destruct (p_fl s); [now elim H2|exact NOW|exact NOW].
      * destruct H as (_ & H & H1 & H2 & ->). apply SAME; reflexivity.
    + destruct H as (-> & ->). apply SAME; reflexivity.
    + destruct H as (-> & ->). split; [split; assumption|]. exists rounds, now. rewrite app_nil_r. auto.
    + destruct H as (FR & G & H). destruct r as [| | | | |[|]]; try contradiction.
      * destruct H as (H & ->). rewrite FR, (C H) in NOW. subst now. split; [split; [exact OLD|discriminate]|].
        exists rounds, [VStart]. split; [cbn; now rewrite app_nil_r|split; [exact RO|reflexivity]].
      * destruct H as (k & H & ->). congruence.
    + destruct H as (-> & FR & ->). rewrite FR in NOW. subst now. split; [split; [exact OLD|]|].
      * cbn. intros X. rewrite (CUR X) in FR. discriminate.
      * exists rounds, [VStart; VBegin]. cbn. rewrite <- app_assoc. auto.
    + destruct H as (-> & FR & ->). rewrite FR in NOW. subst now. split; [split; [|discriminate]|].
      * cbn. destruct (p_cur s) eqn:X; [rewrite (CUR eq_refl) in FR; discriminate|]. lia.
      * exists (rounds ++ [[VStart; VBegin; VEnd]]), []. rewrite concat_app. cbn. rewrite <- !app_assoc. cbn.
        split; [reflexivity|]. split; [apply Forall_app; split; [exact RO|repeat constructor]|reflexivity].
Qed.

(** a timer that is off, with no time running, stays so until the next effective start *)
Lemma wspec_off p l : forall s s', sp_run (wspec p) s l s' -> p_on s = false -> p_cur s = false -> p_old s = 0 ->
  (forall t, ~ In (t, WStart, RDone) l) ->
  p_on s' = false /\ p_cur s' = false /\ p_old s' = 0 /\ (forall t r, In (t, WIsStarted, r) l -> r = RBool false) /\ w_begins l <= b2n (is_due (p_fl s)).
Proof.
  induction l as [|[[t c] r] l IH]; intros s s' H ON CU OL NS.
  - inversion H; subst. repeat split; auto; try contradiction. unfold w_begins, wcount. cbn. lia.
  - inversion H as [|? ? ? ? s1 ? ? SP RN]; subst. specialize (IH _ _ RN).
    assert (NS' : forall t0, ~ In (t0, WStart, RDone) l) by (intros t0 X; apply (NS t0); now right).
    assert (G : forall fl gone, s1 = mkWS false false 0 fl gone -> (c = WIsStarted -> r = RBool false) ->
              b2n (match c with WBegin => true | _ => false end) + b2n (is_due fl) <= b2n (is_due (p_fl s)) ->
              p_on s' = false /\ p_cur s' = false /\ p_old s' = 0 /\ (forall t0 r0, In (t0, WIsStarted, r0) ((t, c, r) :: l) -> r0 = RBool false) /\
              w_begins ((t, c, r) :: l) <= b2n (is_due (p_fl s))).
    { intros fl gone -> R B. destruct (IH eq_refl eq_refl eq_refl NS') as (A1 & A2 & A3 & A4 & A5). repeat split; auto.
      - intros t0 r0 [E|E]; [|now apply (A4 t0)]. injection E as _ -> ->. auto.
      - change ((t, c, r) :: l) with ([(t, c, r)] ++ l). rewrite begins_app. cbn [p_fl] in A5. destruct c; unfold w_begins at 1, wcount; cbn in *; lia. }
    assert (ES : s = mkWS false false 0 (p_fl s) (p_gone s)) by (destruct s; cbn in *; congruence).
    destruct c; cbn in SP.
    + destruct r; try contradiction; destruct SP as (A & ->).
      * elim (NS t). now left.
      * congruence.
      * apply (G (p_fl s) (p_gone s)); auto; discriminate.
    + destruct r; try contradiction.
      * destruct SP as (A & _). congruence.
      * destruct SP as (A & ->). apply (G (p_fl s) (p_gone s)); auto; discriminate.
      * destruct SP as (_ & A & _). congruence.
      * destruct SP as (_ & A & _). congruence.
    + destruct SP as (-> & ->). apply (G (p_fl s) (p_gone s)); auto. now rewrite ON.
    + destruct SP as (-> & ->). apply (G (p_fl s) true); auto; try discriminate. rewrite ON, CU, OL. reflexivity.
    + destruct SP as (F & Go & SP). destruct r as [| | | | |[|]]; try contradiction.
      * destruct SP as (A & _). congruence.
      * destruct SP as (k & A & _). congruence.
    + destruct SP as (-> & F & ->). apply (G FRunning (p_gone s)); auto; try discriminate; [now rewrite ON, CU, OL|]. rewrite F. cbn. lia.
    + destruct SP as (-> & F & ->). apply (G FRest (p_gone s)); auto; try discriminate; [|cbn; lia]. rewrite ON, CU, OL. destruct p; reflexivity.
Qed.

Lemma effects_app (es es' : wevents) : effects (es ++ es') = effects es ++ effects es'.
Proof. unfold effects. apply flat_map_app. Qed.
Lemma effects_in (es : wevents) t c r : In (t, c, r) (effects es) <-> In (Eff t c r) es.
Proof.
  unfold effects. rewrite in_flat_map. split.
  - intros (e & A & B). destruct e; cbn in B; try contradiction. destruct B as [B|[]]. injection B as -> -> ->. exact A.
  - intros H. exists (Eff t c r). split; [exact H|now left].
Qed.

(** * counting callbacks *)
Theorem win_one_shot_counts ls s es : exec (w_step false) w_init ls = Some (s, es) ->
  let l := effects es in
  w_starts l = w_cancels l + w_dues l + length (w_armed s) /\ w_begins l <= w_dues l /\ w_ends l <= w_begins l <= S (w_ends l) /\ alternate false (wmarks l).
Proof.
  intros E l. destruct (win_timer_atomic _ _ _ _ E) as (_ & R). destruct (wspec_facts _ _ _ R) as [C D U O _ F]. fold l in D, U, O, R.
  specialize (O eq_refl). cbn in O.
  assert (X : b2n (cur s) + (length (w_armed s) - (if cur s then 1 else 0)) = length (w_armed s)).
  { destruct (cur s) eqn:K; cbn; [|lia]. unfold cur in K. apply andb_prop in K. destruct K as (_ & K). apply mem_in in K. destruct (w_armed s); [destruct K|cbn; lia]. }
  split; [cbn in *; lia|]. split; [destruct (is_due (p_fl (abs false s))); cbn in *; lia|]. split; [destruct (is_running (p_fl (abs false s))); cbn in *; lia|].
  exact (wspec_alternate _ _ _ _ R).
Qed.
(** a calm one-shot timer *)
Theorem win_one_shot_calm ls s es : exec (w_step false) w_init ls = Some (s, es) -> never_restarted_early (effects es) ->
  exists st, sp_run (wspec false) w_new (effects es) st /\ p_on st = w_on s /\ p_old st = 0 /\ w_history st (wmarks (effects es)).
Proof.
  intros E EA. destruct (win_timer_atomic _ _ _ _ E) as (_ & R). destruct (wspec_calm _ _ R EA) as ((A & B) & H). exists (abs false s). auto.
Qed.
(** after a stop *)
Theorem win_after_stop p ls s es es1 u r es2 : exec (w_step p) w_init ls = Some (s, es) -> (p = false -> never_restarted_early (effects es)) ->
  es = es1 ++ Eff u WStop r :: es2 -> r <> RMissed -> (forall t, ~ In (Eff t WStart RDone) es2) ->
  w_on s = false /\ w_armed s = [] /\ (forall t r', In (Eff t WIsStarted r') es2 -> r' = RBool false) /\
  w_begins (effects es2) <= 1 /\ (w_dues (effects es1) = w_begins (effects es1) -> w_begins (effects es2) = 0).
Proof.
  intros E EA -> NM NS. destruct (win_timer_atomic _ _ _ _ E) as (_ & R). rewrite effects_app in R, EA. cbn in R, EA.
  change (flat_map _ es2) with (effects es2) in R, EA.
  apply sp_run_app_inv in R. destruct R as (s1 & R1 & R2). inversion R2 as [|? ? ? ? s2 ? ? SP R3]; subst.
  pose proof (wspec_facts _ _ _ R1) as [C D U O P F].
  assert (OLD : p_old s1 = 0).
  { destruct p; [now apply P|]. destruct (wspec_calm _ _ R1 (early_pre _ _ (EA eq_refl))) as ((A & _) & _). exact A. }
  assert (S2 : p_on s2 = false /\ p_cur s2 = false /\ p_old s2 = 0 /\ p_fl s2 = p_fl s1).
  { cbn in SP. destruct r; try contradiction.
    - destruct SP as (_ & _ & ->). cbn. auto.
    - destruct SP as (A & ->). destruct (p_cur s1) eqn:K; [rewrite (C eq_refl) in A; discriminate|]. auto.
    - destruct SP as (_ & _ & _ & _ & ->). cbn. auto. }
  destruct S2 as (A1 & A2 & A3 & A4).
  destruct (wspec_off _ _ _ _ R3 A1 A2 A3) as (B1 & B2 & B3 & B4 & B5).
  { intros t X. apply (NS t). now apply effects_in. }
  cbn in B1, B2, B3. split; [exact B1|]. split; [rewrite B2 in B3; apply length_zero_iff_nil; lia|]. split.
  { intros t r' X. apply (B4 t). now apply effects_in. }
  rewrite A4 in B5. split; [destruct (is_due (p_fl s1)); cbn in B5; lia|]. intros X. destruct (is_due (p_fl s1)); cbn in *; lia.
Qed.
(** a periodic timer: isStarted tells whether the time runs, nothing is left over *)
Theorem win_periodic_exact ls s es : exec (w_step true) w_init ls = Some (s, es) ->
  exists st, sp_run (wspec true) w_new (effects es) st /\ p_on st = w_on s /\ p_cur st = w_on s /\ p_old st = 0 /\
    w_armed s = (if w_on s then [w_id s] else []) /\ alternate false (wmarks (effects es)).
Proof.
  intros E. destruct (win_timer_atomic _ _ _ _ E) as (_ & R). destruct (wspec_facts _ _ _ R) as [C D U O P F]. destruct (P eq_refl) as (P1 & P2).
  exists (abs true s). split; [exact R|]. split; [reflexivity|]. split; [exact P1|]. split; [exact P2|]. split; [|exact (wspec_alternate _ _ _ _ R)].
  exact (proj1 (wi_per _ _ (winv_exec _ _ _ _ E) eq_refl)).
Qed.

(** * progress *)
Theorem win_calls_never_wait p ls s es t c : exec (w_step p) w_init ls = Some (s, es) -> w_thr s t = CAt c -> w_freed s = false ->
  exists ls' s' es', length ls' <= 3 /\ (forall l, In l ls' -> l = YStep t true \/ l = YWork) /\ exec (w_step p) s ls' = Some (s', es') /\ w_idle s' t /\ exists r, In (Ret t r) es'.
Proof.
  intros E AT FR. pose proof (winv_exec _ _ _ _ E) as I. pose proof (wi_thr _ _ I t) as T. rewrite AT in T. cbn in T.
  assert (G : forall s0, w_thr s0 t = CAt c -> w_freed s0 = false -> w_locked s0 = false ->
            exists s' es', exec (w_step p) s0 [YStep t true; YStep t true] = Some (s', es') /\ w_idle s' t /\ exists r, In (Ret t r) es').
  { intros s0 A B L. unfold w_idle. cbn. rewrite A, B, L. destruct T as [-> |[-> | ->]].
    - destruct (w_start s0 true) as [s1 r]. cbn. rewrite fupd_same. do 2 eexists. split; [reflexivity|]. split; [apply fupd_same|]. exists r. cbn. auto.
    - destruct (w_stop s0 true) as [s1 r]. cbn. rewrite fupd_same. do 2 eexists. split; [reflexivity|]. split; [apply fupd_same|]. exists r. cbn. auto.
    - cbn. rewrite fupd_same. do 2 eexists. split; [reflexivity|]. split; [apply fupd_same|]. eexists. cbn. auto. }
  destruct (w_locked s) eqn:L.
  - assert (K : w_wk s = KUnlock) by (unfold w_locked in L; destruct (w_wk s); try discriminate; reflexivity).
    destruct (G (w_kto s KFree (w_ev s)) AT FR eq_refl) as (s' & es' & X & Y & Z).
    exists [YWork; YStep t true; YStep t true], s', es'. split; [cbn; lia|]. split; [cbn; intros l [<-|[<-|[<-|[]]]]; auto|]. split; [|auto].
    change [YWork; YStep t true; YStep t true] with ([YWork] ++ [YStep t true; YStep t true]). rewrite exec_app.
    assert (W : exec (w_step p) s [YWork] = Some (w_kto s KFree (w_ev s), [])) by (cbn; rewrite FR, K; reflexivity). rewrite W, X. reflexivity.
  - destruct (G s AT FR L) as (s' & es' & X & Y & Z). exists [YStep t true; YStep t true], s', es'. split; [cbn; lia|].
    split; [cbn; intros l [<-|[<-|[]]]; auto|]. auto.
Qed.
(** counting the steps of one call *)
Lemma caller_only p s l s' e t : w_step p s l = Some (s', e) -> (forall ok, l <> YStep t ok) -> (forall c, l <> YCall t c) -> w_thr s' t = w_thr s t.
Proof.
  intros E N1 N2. destruct l as [u c|u ok|i|]; cbn in E.
  - destruct (w_thr s u); try discriminate. destruct (w_callable u (w_wk s) c && negb (w_freed s)); [|discriminate].
    assert (t <> u) by (intros ->; now elim (N2 c)).
    destruct c; injection E as <- <-; cbn; apply fupd_other; assumption.
  - assert (t <> u) by (intros ->; now elim (N1 ok)).
    destruct (w_thr s u) as [|c| | | |r]; try discriminate.
    + destruct (w_freed s); [discriminate|]. destruct c; try discriminate; destruct (w_locked s); try discriminate.
      * destruct (w_start s ok) as [s1 r] eqn:E1. injection E as <- <-. cbn. rewrite fupd_other by assumption. now rewrite (proj1 (start_thr _ _ _ _ E1)).
      * destruct (w_stop s ok) as [s1 r] eqn:E1. injection E as <- <-. cbn. rewrite fupd_other by assumption. now rewrite (proj1 (stop_thr _ _ _ _ E1)).
      * injection E as <- <-. cbn. now apply fupd_other.
    + destruct (w_freed s); [discriminate|]. destruct (w_locked s); try discriminate.
      destruct (w_stop s ok) as [s1 r] eqn:E1. injection E as <- <-. cbn. rewrite fupd_other by assumption. now rewrite (proj1 (stop_thr _ _ _ _ E1)).
    + destruct (w_freed s); [discriminate|]. destruct (w_ev s); [|discriminate]. injection E as <- <-. cbn. now apply fupd_other.
    + destruct (w_freed s); [discriminate|]. injection E as <- <-. cbn. now apply fupd_other.
    + injection E as <- <-. cbn. now apply fupd_other.
  - destruct (w_wk s); try discriminate. destruct (w_mem i (w_armed s) && negb (w_freed s)); [|discriminate]. injection E as <- <-. reflexivity.
  - destruct (w_freed s); [discriminate|]. destruct (w_wk s); try discriminate; try (injection E as <- <-; reflexivity).
    + destruct (w_thr s 0); try discriminate. destruct p; injection E as <- <-; reflexivity.
    + destruct p; injection E as <- <-; reflexivity.
Qed.
Theorem win_call_steps p s ls s' es t c : w_thr s t = CAt c -> exec (w_step p) s ls = Some (s', es) -> (forall r, ~ In (Ret t r) es) -> w_steps_of t ls <= 1.
Proof.
  assert (G : forall ls s s' es, exec (w_step p) s ls = Some (s', es) -> (forall r, ~ In (Ret t r) es) ->
            match w_thr s t with CAt _ => w_steps_of t ls <= 1 | CRet _ => w_steps_of t ls = 0 | _ => True end).
  2:{ intros A E N. specialize (G _ _ _ _ E N). now rewrite A in G. }
  clear s ls s' es. induction ls as [|l ls IH]; intros s s' es E N.
  - cbn. destruct (w_thr s t); auto.
  - cbn in E. destruct (w_step p s l) as [[s1 e1]|] eqn:E1; [|discriminate]. destruct (exec (w_step p) s1 ls) as [[s2 e2]|] eqn:E2; [|discriminate]. injection E as <- <-.
    assert (N1 : forall r, ~ In (Ret t r) e1) by (intros r X; apply (N r), in_or_app; auto).
    assert (N2 : forall r, ~ In (Ret t r) e2) by (intros r X; apply (N r), in_or_app; auto).
    specialize (IH _ _ _ E2 N2).
    assert (CASES : (exists ok, l = YStep t ok) \/ (exists c0, l = YCall t c0) \/ ((forall ok, l <> YStep t ok) /\ (forall c0, l <> YCall t c0))).
    { destruct l as [u c0|u ok|i|].
      - destruct (Nat.eq_dec u t) as [->|X]; [right; left; eauto|]. right; right. split; congruence.
      - destruct (Nat.eq_dec u t) as [->|X]; [left; eauto|]. right; right. split; congruence.
      - right; right; split; congruence.
      - right; right; split; congruence. }
    destruct CASES as [(ok & ->)|[(c0 & ->)|(A & B)]].
    + unfold w_steps_of. cbn [filter]. rewrite Nat.eqb_refl. cbn [length]. fold (w_steps_of t ls).
      cbn in E1. destruct (w_thr s t) as [|c1| | | |r] eqn:ET; auto.
      * destruct (w_freed s); [discriminate|]. destruct c1; try discriminate; destruct (w_locked s); try discriminate.
        -- destruct (w_start s ok) as [s3 r]. injection E1 as <- <-. cbn in IH. rewrite fupd_same in IH. lia.
        -- destruct (w_stop s ok) as [s3 r]. injection E1 as <- <-. cbn in IH. rewrite fupd_same in IH. lia.
        -- injection E1 as <- <-. cbn in IH. rewrite fupd_same in IH. lia.
      * injection E1 as <- <-. exfalso. apply (N1 r). now left.
    + cbn in E1. destruct (w_thr s t) as [|c1| | | |r] eqn:ET; auto; discriminate.
    + rewrite (caller_only _ _ _ _ _ _ E1 A B) in IH.
      assert (X : w_steps_of t (l :: ls) = w_steps_of t ls).
      { unfold w_steps_of. cbn [filter]. destruct l as [u c0|u ok|i|]; auto. destruct (Nat.eqb_spec u t) as [UT|]; [|reflexivity]. elim (A ok). now rewrite UT. }
      rewrite X. exact IH.
Qed.
(** when nothing can move *)
Lemma stuck_facts p s : winv p s -> w_stuck p s -> w_freed s = false -> w_idle s 0 -> (forall t, w_idle s t) /\ w_wk s = KFree /\ w_armed s = [] /\ w_on s = false.
Proof.
  intros I (ST & SW & SD) FR I0. pose proof I as [Z T EV ND LT FL ON PE].
  assert (WK : w_wk s = KFree).
  { cbn in SW. rewrite FR in SW. unfold w_idle in I0. rewrite I0 in SW. destruct (w_wk s); auto; try discriminate; destruct p; discriminate. }
  assert (AR : w_armed s = []).
  { destruct (w_armed s) as [|i l] eqn:A; [reflexivity|]. specialize (SD i). cbn in SD. rewrite WK, FR, A in SD. cbn in SD. rewrite Nat.eqb_refl in SD. discriminate. }
  rewrite WK in *. cbn in EV. split; [|split; [reflexivity|split; [exact AR|]]].
  - intros t. specialize (ST t true). unfold w_idle. cbn in ST. pose proof (T t) as TT. unfold w_locked in ST. rewrite FR, WK, EV in ST.
    destruct (w_thr s t) as [|c| | | |r]; auto; try discriminate.
    + cbn in TT. destruct TT as [-> |[-> | ->]]; [destruct (w_start s true)|destruct (w_stop s true)|]; discriminate.
    + destruct (w_stop s true); discriminate.
  - destruct (w_on s) eqn:O; [|reflexivity]. destruct p.
    + destruct (PE eq_refl) as (A & _). rewrite A in AR. discriminate.
    + destruct (ON eq_refl eq_refl) as [H|H]; [rewrite AR in H; destruct H|discriminate].
Qed.
Theorem win_rest p ls s es : exec (w_step p) w_init ls = Some (s, es) -> w_stuck p s -> w_freed s = false -> w_idle s 0 ->
  (forall t, w_idle s t) /\ w_on s = false /\ (p = false -> w_starts (effects es) = w_cancels (effects es) + w_begins (effects es)) /\ w_begins (effects es) = w_ends (effects es).
Proof.
  intros E ST FR I0. destruct (reach _ _ _ _ E) as (I & _). destruct (stuck_facts _ _ I ST FR I0) as (A & B & C & D).
  split; [exact A|]. split; [exact D|]. destruct (win_timer_atomic _ _ _ _ E) as (_ & R). destruct (wspec_facts _ _ _ R) as [F1 F2 F3 F4 F5 F6].
  unfold abs, cur in *. rewrite B, C, D in *. cbn in *. split; [intros P; specialize (F4 P); lia|lia].
Qed.
(** a started timer can always fire, once the worker is free *)
Theorem win_started_fires p ls s es : exec (w_step p) w_init ls = Some (s, es) -> w_on s = true -> w_wk s = KFree -> w_freed s = false -> w_step p s (YDue (w_id s)) <> None.
Proof.
  intros E ON WK FR. pose proof (winv_exec _ _ _ _ E) as I.
  assert (M : w_mem (w_id s) (w_armed s) = true).
  { apply mem_in. destruct p.
    - destruct (wi_per _ _ I eq_refl) as (A & _). rewrite A, ON. now left.
    - destruct (wi_on _ _ I eq_refl ON) as [H|H]; [exact H|]. rewrite WK in H. discriminate. }
  cbn. rewrite WK, M, FR. discriminate.
Qed.

(** * a one-shot timer comes to rest *)
Definition wq (q : cpc) : nat := match q with CIdle => 0 | CRet _ => 1 | CAt WStart => 8 | CAt _ => 2 | CFree => 2 | CWait => 3 | CAtD => 4 end.
Definition wkw (k : wpc) : nat := match k with KFree => 0 | KUnlock => 1 | KTail _ => 2 | KRun _ => 3 | KReset _ => 4 | KDisp _ => 5 end.
Definition wmeasure (n : nat) (s : wst) : nat := sumn (fun t => wq (w_thr s t)) n + wkw (w_wk s) + 6 * length (w_armed s).
Definition wbelow (n : nat) (s : wst) : Prop := winv false s /\ forall t, n <= t -> w_idle s t.
Lemma wm_caller n s s' t q : t < n -> w_thr s' = fupd (w_thr s) t q ->
  wmeasure n s' + wq (w_thr s t) + wkw (w_wk s) + 6 * length (w_armed s) = wmeasure n s + wq q + wkw (w_wk s') + 6 * length (w_armed s').
Proof.
  intros L E. unfold wmeasure. rewrite E.
  pose proof (sumn_change n (fun u => wq (w_thr s u)) (fun u => wq (fupd (w_thr s) t q u)) t L) as H.
  cbn beta in H. rewrite fupd_same in H. specialize (H ltac:(intros u N; now rewrite fupd_other)). lia.
Qed.
Lemma wm_step n s l s' e : wbelow n s -> w_own_step l -> w_step false s l = Some (s', e) -> wbelow n s' /\ wmeasure n s' < wmeasure n s.
Proof.
  intros (I & BE) OW E. pose proof I as [Z T EV ND LT FL ON PE].
  assert (I' : winv false s') by exact (winv_step _ _ _ _ _ I E).
  assert (B' : forall t, n <= t -> w_idle s' t).
  { intros t H. destruct l as [u c|u ok|i|]; try contradiction.
    - destruct (Nat.eq_dec u t) as [->|N].
      + exfalso. specialize (BE t H). unfold w_idle in BE. cbn in E. rewrite BE in E. discriminate.
      + unfold w_idle. rewrite (caller_only _ _ _ _ _ t E); [now apply BE|congruence|congruence].
    - unfold w_idle. rewrite (caller_only _ _ _ _ _ t E); [now apply BE|congruence|congruence].
    - unfold w_idle. rewrite (caller_only _ _ _ _ _ t E); [now apply BE|congruence|congruence]. }
  split; [split; assumption|]. destruct l as [u c|u ok|i|]; try contradiction; cbn in E.
  - assert (U : u < n).
    { destruct (Nat.lt_ge_cases u n) as [H|H]; [exact H|]. specialize (BE u H). unfold w_idle in BE. rewrite BE in E. discriminate. }
    assert (K : forall q s1, s1 = s' -> w_thr s1 = fupd (w_thr s) u q -> wq q + wkw (w_wk s1) + 6 * length (w_armed s1) < wq (w_thr s u) + wkw (w_wk s) + 6 * length (w_armed s) -> wmeasure n s' < wmeasure n s).
    { intros q s1 <- A B. pose proof (wm_caller n s s1 u q U A). lia. }
    destruct (w_thr s u) as [|c| | | |r] eqn:ET; try discriminate.
    + destruct (w_freed s); [discriminate|]. destruct c; try discriminate; destruct (w_locked s); try discriminate.
      * unfold w_start in E. destruct (w_on s); [|destruct ok]; injection E as <- <-; (eapply K; [reflexivity|reflexivity|cbn; lia]).
      * unfold w_stop in E. destruct (w_on s); cbn in E; [destruct (w_mem (w_id s) (w_armed s)) eqn:M; [|destruct ok]|]; injection E as <- <-; (eapply K; [reflexivity|reflexivity|cbn; try lia]).
        apply mem_in in M. pose proof (del_len _ _ ND M). lia.
      * injection E as <- <-. eapply K; [reflexivity|reflexivity|cbn; lia].
    + destruct (w_freed s); [discriminate|]. destruct (w_locked s); try discriminate.
      unfold w_stop in E. destruct (w_on s); cbn in E; [destruct (w_mem (w_id s) (w_armed s)) eqn:M; [|destruct ok]|]; injection E as <- <-; (eapply K; [reflexivity|reflexivity|cbn; try lia]).
      apply mem_in in M. pose proof (del_len _ _ ND M). lia.
    + destruct (w_freed s); [discriminate|]. destruct (w_ev s); [|discriminate]. injection E as <- <-. eapply K; [reflexivity|reflexivity|cbn; lia].
    + destruct (w_freed s); [discriminate|]. injection E as <- <-. eapply K; [reflexivity|reflexivity|cbn; lia].
    + injection E as <- <-. eapply K; [reflexivity|reflexivity|cbn; lia].
  - destruct (w_wk s) eqn:EK; try discriminate. destruct (w_mem i (w_armed s)) eqn:M; [|discriminate]. destruct (w_freed s); [discriminate|]. cbn in E. injection E as <- <-.
    apply mem_in in M. pose proof (del_len _ _ ND M). unfold wmeasure. cbn. rewrite EK. cbn. lia.
  - destruct (w_freed s); [discriminate|]. destruct (w_wk s) eqn:EK; try discriminate; try (injection E as <- <-; unfold wmeasure; cbn; rewrite EK; cbn; lia).
    destruct (w_thr s 0); try discriminate. injection E as <- <-; unfold wmeasure; cbn; rewrite EK; cbn; lia.
Qed.
Theorem win_one_shot_comes_to_rest n ls0 s es0 ls s' es : exec (w_step false) w_init ls0 = Some (s, es0) -> (forall t, n <= t -> w_idle s t) ->
  (forall l, In l ls -> w_own_step l) -> exec (w_step false) s ls = Some (s', es) -> length ls <= 8 * n + 6 * w_starts (effects es0) + 5.
Proof.
  intros E0 ID OW E.
  pose proof (exec_measure _ _ _ (w_step false) (wbelow n) w_own_step (wmeasure n) (wm_step n) ls s s' es (conj (winv_exec _ _ _ _ E0) ID) OW E) as M.
  assert (X : wmeasure n s <= n * 8 + 5 + 6 * length (w_armed s)).
  { unfold wmeasure. pose proof (sumn_bound n (fun t => wq (w_thr s t)) 8 ltac:(intros k _; cbn beta; destruct (w_thr s k) as [|[]| | | |]; cbn; lia)).
    assert (wkw (w_wk s) <= 5) by (destruct (w_wk s); cbn; lia). lia. }
  destruct (win_one_shot_counts _ _ _ E0) as (C & _). cbn zeta in C. lia.
Qed.

(** * destruction *)
(** nobody but [d] is in a call, [d] destroys, no time is running, and the callback, if any, has reset m_evFinished *)
Record dinv (p : bool) (d : nat) (s : wst) : Prop := {
  di_inv : winv p s;
  di_oth : forall t, t <> d -> w_idle s t;
  di_me : w_freed s = true \/ w_thr s d = CAtD \/ w_thr s d = CWait \/ w_thr s d = CFree;
  di_ret : w_freed s = true -> w_thr s d = CIdle \/ exists r, w_thr s d = CRet r;
  di_off : w_on s = false;
  di_arm : w_armed s = [];
  di_wk : if p then forall i, w_wk s <> KDisp i else w_wk s = KFree \/ w_wk s = KUnlock /\ w_thr s d = CAtD;
  di_free : w_freed s = true \/ w_thr s d = CFree -> w_wk s = KFree
}.
Lemma dinv_step p d s l s' e : dinv p d s -> w_own_step l -> w_step p s l = Some (s', e) -> dinv p d s' /\ forall c, In (Call 0 c) e -> p = true /\ c <> WDue.
Proof.
  intros [I OT ME RE OF AR WK FRE] OW E. pose proof (winv_step _ _ _ _ _ I E) as I'. pose proof (wi_ev _ _ I) as EV. destruct l as [t c|t ok|i|]; [contradiction|..]; cbn in E.
  - destruct (Nat.eq_dec t d) as [->|N].
    2:{ specialize (OT t N). unfold w_idle in OT. rewrite OT in E. discriminate. }
    assert (OT' : forall q u, u <> d -> fupd (w_thr s) d q u = CIdle) by (intros q u N; rewrite fupd_other by assumption; now apply OT).
    destruct (w_thr s d) as [|c| | | |r] eqn:ET; try discriminate.
    + destruct (w_freed s) eqn:FR; [discriminate|]. destruct ME as [X|[X|[X|X]]]; discriminate.
    + destruct (w_freed s) eqn:FR; [discriminate|]. destruct (w_locked s) eqn:LK; [discriminate|]. unfold w_stop in E. rewrite OF in E. cbn in E. injection E as <- <-.
      split; [|intros c [X|[X|[X|[]]]]; try discriminate; injection X as X0 _; pose proof (wi_thr _ _ I d) as T0; rewrite ET in T0; now elim T0].
      constructor; try exact (OT' _); cbn; auto; rewrite ?fupd_same; auto; try congruence.
      * destruct p; [exact WK|]. destruct WK as [X|(X & _)]; [auto|]. unfold w_locked in LK. rewrite X in LK. discriminate.
      * rewrite FR. intros [X|X]; discriminate.
    + destruct (w_freed s) eqn:FR; [discriminate|]. destruct (w_ev s) eqn:EE; [|discriminate]. injection E as <- <-. split; [|intros c []].
      constructor; try exact (OT' _); cbn; auto; rewrite ?fupd_same; auto; try congruence.
      * destruct p; [exact WK|]. destruct WK as [X|(X & Y)]; [auto|discriminate].
      * intros _. destruct p.
        -- symmetry in EV. destruct (w_wk s) eqn:K; try discriminate; auto.
           ++ now elim (WK i).
           ++ now elim (proj2 (wi_per _ _ I eq_refl)).
        -- destruct WK as [X|(X & Y)]; [auto|discriminate].
    + destruct (w_freed s) eqn:FR; [discriminate|]. injection E as <- <-. split; [|cbn; intros c [X|[]]; discriminate].
      constructor; try exact (OT' _); cbn; auto; rewrite ?fupd_same; auto; try congruence.
      * intros _. right. eauto.
      * destruct p; [exact WK|]. left. now apply FRE; right.
    + injection E as <- <-. split; [|cbn; intros c [X|[]]; discriminate]. constructor; try exact (OT' _); cbn; auto; rewrite ?fupd_same; auto; try congruence.
      * destruct ME as [X|[X|[X|X]]]; auto; discriminate.
      * destruct p; [exact WK|]. destruct WK as [X|(X & Y)]; [auto|discriminate].
      * intros [X|X]; [|discriminate]. now apply FRE; left.
  - destruct (w_wk s); try discriminate. rewrite AR in E. discriminate.
  - destruct (w_freed s) eqn:FR; [discriminate|]. destruct p.
    + destruct (w_wk s) as [|j|j|j|j|] eqn:EK; try discriminate.
      * now elim (WK j).
      * injection E as <- <-. split; [|cbn; intros c [X|[X|[X|[]]]]; try discriminate; injection X as <-; split; [reflexivity|discriminate]].
        constructor; cbn; auto; try congruence; try discriminate.
        intros X. rewrite FR in X. specialize (FRE X). discriminate.
      * destruct (w_thr s 0) eqn:E0; try discriminate. injection E as <- <-. split; [|cbn; intros c [X|[X|[X|[]]]]; try discriminate; injection X as <-; split; [reflexivity|discriminate]].
        constructor; cbn; auto; try congruence; try discriminate. intros X. rewrite FR in X. specialize (FRE X). discriminate.
      * injection E as <- <-. split; [|cbn; intros c []]. constructor; cbn; auto; try congruence; try discriminate.
      * now elim (proj2 (wi_per _ _ I eq_refl)).
    + destruct WK as [X|(X & Y)]; rewrite X in E; [discriminate|]. injection E as <- <-. split; [|cbn; intros c []].
      constructor; cbn; rewrite ?FR; auto.
Qed.
Lemma dinv_safe p d s : dinv p d s -> ~ dangling s.
Proof.
  intros [I OT ME RE OF AR WK FRE] (F & [X|[X|(t & X)]]).
  - apply X, FRE. now left.
  - now elim X.
  - destruct (Nat.eq_dec t d) as [->|N]; [|rewrite (OT t N) in X; exact X]. destruct (RE F) as [Y|(r & Y)]; rewrite Y in X; exact X.
Qed.
Lemma dinv_run p d ls : forall s s' es, dinv p d s -> (forall l, In l ls -> w_own_step l) -> exec (w_step p) s ls = Some (s', es) ->
  dinv p d s' /\ forall c, In (Call 0 c) es -> p = true /\ c <> WDue.
Proof.
  induction ls as [|l ls IH]; intros s s' es D OW E; cbn in E.
  - injection E as <- <-. split; [exact D|intros c []].
  - destruct (w_step p s l) as [[s1 e1]|] eqn:E1; [|discriminate]. destruct (exec (w_step p) s1 ls) as [[s2 e2]|] eqn:E2; [|discriminate]. injection E as <- <-.
    destruct (dinv_step _ _ _ _ _ _ D (OW l (or_introl eq_refl)) E1) as (D1 & C1).
    destruct (IH _ _ _ D1 (fun x h => OW x (or_intror h)) E2) as (D2 & C2). split; [exact D2|].
    intros c H. apply in_app_or in H. destruct H; auto.
Qed.
(** destroying a stopped timer whose callbacks are all over (periodic: have all begun) is safe *)
Theorem win_destroy_safe p ls0 s0 es0 d ls s es :
  exec (w_step p) w_init ls0 = Some (s0, es0) -> (p = false -> never_restarted_early (effects es0)) -> (forall t, w_idle s0 t) -> w_on s0 = false ->
  w_dues (effects es0) = (if p then w_begins (effects es0) else w_ends (effects es0)) ->
  (forall l, In l ls -> w_own_step l) -> exec (w_step p) s0 (YCall d WDestroy :: ls) = Some (s, es) ->
  ~ dangling s /\ forall c, In (Call 0 c) es -> p = true /\ c = WEnd.
Proof.
  intros E0 EA ID OFF DU OW E. destruct (win_timer_atomic _ _ _ _ E0) as (_ & R). pose proof (winv_exec _ _ _ _ E0) as I0.
  pose proof (wspec_facts _ _ _ R) as [C D U O P F].
  assert (AR : w_armed s0 = []).
  { destruct p; [destruct (wi_per _ _ I0 eq_refl) as (A & _); now rewrite OFF in A|].
    destruct (wspec_calm _ _ R (EA eq_refl)) as ((A & _) & _). unfold abs, cur in A. rewrite OFF in A. cbn in A. apply length_zero_iff_nil. lia. }
  assert (WK : if p then forall i, w_wk s0 <> KDisp i /\ w_wk s0 <> KReset i else w_wk s0 = KFree \/ w_wk s0 = KUnlock).
  { destruct p; cbn in D, U |- *; destruct (w_wk s0); cbn in D, U; try lia; auto; intros; split; discriminate. }
  cbn in E. rewrite (ID d) in E.
  destruct (Nat.eqb_spec d 0) as [|ND0]; cbn in E; [discriminate|]. destruct (w_freed s0) eqn:FR; [discriminate|]. cbn in E.
  destruct (exec (w_step p) (w_go s0 d CAtD) ls) as [[s1 e1]|] eqn:E1; [|discriminate]. injection E as <- <-.
  assert (DI : dinv p d (w_go s0 d CAtD)).
  { constructor; cbn; rewrite ?fupd_same; auto; try congruence.
    - apply winv_go; auto. congruence.
    - intros t N. unfold w_idle. cbn. rewrite fupd_other by assumption. apply ID.
    - destruct p; [intros i; apply (WK i)|]. destruct WK; auto.
    - intros [X|X]; congruence. }
  destruct (dinv_run _ _ _ _ _ _ DI OW E1) as (D1 & C1). split; [exact (dinv_safe _ _ _ D1)|].
  intros c [X|X]; [injection X as -> _; congruence|]. destruct (C1 c X) as (-> & NW). split; [reflexivity|].
  (* no callback begins: the worker is past it *)
  assert (NB : forall ls2 s2 s3 e3, (forall i, w_wk s2 <> KDisp i /\ w_wk s2 <> KReset i) -> w_armed s2 = [] -> w_on s2 = false -> w_freed s2 = false \/ True ->
             (forall t, t <> d -> w_idle s2 t) -> (forall c0, w_thr s2 d <> CAt c0) -> (forall l, In l ls2 -> w_own_step l) -> exec (w_step true) s2 ls2 = Some (s3, e3) -> ~ In (Call 0 WBegin) e3 /\ forall c0, In (Call 0 c0) e3 -> c0 = WEnd).
  { induction ls2 as [|l ls2 IH]; intros s2 s3 e3 W A ON _ OT NC OWN EX; cbn in EX.
    - injection EX as <- <-. split; [intros []|intros c0 []].
    - destruct (w_step true s2 l) as [[s4 e4]|] eqn:E4; [|discriminate]. destruct (exec (w_step true) s4 ls2) as [[s5 e5]|] eqn:E5; [|discriminate]. injection EX as <- <-.
      assert (H4 : (forall i, w_wk s4 <> KDisp i /\ w_wk s4 <> KReset i) /\ w_armed s4 = [] /\ w_on s4 = false /\ (forall t, t <> d -> w_idle s4 t) /\ (forall c0, w_thr s4 d <> CAt c0) /\ forall c0, In (Call 0 c0) e4 -> c0 = WEnd).
      { pose proof (OWN l (or_introl eq_refl)) as OL. destruct l as [t0 c0|t0 ok|i|]; [contradiction|..]; cbn in E4.
        - destruct (Nat.eq_dec t0 d) as [->|N].
          2:{ specialize (OT t0 N). unfold w_idle in OT. rewrite OT in E4. discriminate. }
          assert (OT' : forall q u, u <> d -> fupd (w_thr s2) d q u = CIdle) by (intros q u N; rewrite fupd_other by assumption; now apply OT).
          destruct (w_thr s2 d) as [|c0| | | |r] eqn:ET; try discriminate.
          + now elim (NC c0).
          + destruct (w_freed s2); [discriminate|]. destruct (w_locked s2); [discriminate|]. unfold w_stop in E4. rewrite ON in E4. cbn in E4. injection E4 as <- <-.
            split; [exact W|]; split; [exact A|]; split; [exact ON|]; split; [exact (OT' _)|]; split; [cbn; rewrite fupd_same; discriminate|]; cbn; intros c0 [Y|[Y|[Y|[]]]]; try discriminate; injection Y as Y _; congruence.
          + destruct (w_freed s2); [discriminate|]. destruct (w_ev s2); [|discriminate]. injection E4 as <- <-. split; [exact W|]; split; [exact A|]; split; [exact ON|]; split; [exact (OT' _)|]; split; [cbn; rewrite fupd_same; discriminate|]; cbn; intros c0 [].
          + destruct (w_freed s2); [discriminate|]. injection E4 as <- <-. split; [exact W|]; split; [exact A|]; split; [exact ON|]; split; [exact (OT' _)|]; split; [cbn; rewrite fupd_same; discriminate|]; cbn; intros c0 [Y|[]]; discriminate.
          + injection E4 as <- <-. split; [exact W|]; split; [exact A|]; split; [exact ON|]; split; [exact (OT' _)|]; split; [cbn; rewrite fupd_same; discriminate|]; cbn; intros c0 [Y|[]]; discriminate.
        - destruct (w_wk s2); try discriminate. rewrite A in E4. discriminate.
        - destruct (w_freed s2); [discriminate|]. destruct (w_wk s2) as [|j|j|j|j|] eqn:EK; try discriminate.
          + now elim (proj1 (W j)).
          + now elim (proj2 (W j)).
          + destruct (w_thr s2 0) eqn:E0'; try discriminate. injection E4 as <- <-. split; [intros; split; discriminate|]; split; [exact A|]; split; [exact ON|]; split; [exact OT|]; split; [exact NC|]; cbn; intros c0 [Y|[Y|[Y|[]]]]; try discriminate; now injection Y as <-.
          + injection E4 as <- <-. split; [intros; split; discriminate|]; split; [exact A|]; split; [exact ON|]; split; [exact OT|]; split; [exact NC|]; cbn; intros c0 [].
          + injection E4 as <- <-. split; [intros; split; discriminate|]; split; [exact A|]; split; [exact ON|]; split; [exact OT|]; split; [exact NC|]; cbn; intros c0 []. }
      destruct H4 as (H1 & H2 & H3 & H5 & H6 & H7).
      destruct (IH s4 _ _ H1 H2 H3 (or_intror Logic.I) H5 H6 (fun x h => OWN x (or_intror h)) E5) as (K1 & K2).
      split.
      + intros H. apply in_app_or in H. destruct H as [H|H]; [specialize (H7 _ H); discriminate|now apply K1].
      + intros c0 H. apply in_app_or in H. destruct H; auto. }
  destruct (NB ls (w_go s0 d CAtD) s1 e1) as (_ & NB2); auto.
  - intros t N. unfold w_idle. cbn. rewrite fupd_other by assumption. apply ID.
  - cbn. rewrite fupd_same. discriminate.
Qed.

(** * races *)
Ltac no_in H := cbn in H; repeat (destruct H as [H|H]; [try discriminate H|]); try exact H.
Definition one_client_b (es : wevents) : bool := forallb (fun e => match e with Call u _ => (u <=? 1) | _ => true end) es.
Definition callback_quiet_b (es : wevents) : bool := forallb (fun e => match e with Call 0 c => match c with WDue | WBegin | WEnd => true | _ => false end | _ => true end) es.
Lemma one_client_sound es : one_client_b es = true -> w_only_client 1 es.
Proof.
  intros H u c IN. unfold one_client_b in H. rewrite forallb_forall in H. specialize (H _ IN). cbn in H. apply Nat.leb_le in H. lia.
Qed.
Lemma callback_quiet_sound es : callback_quiet_b es = true -> w_callback_calls_nothing es.
Proof.
  intros H c IN. unfold callback_quiet_b in H. rewrite forallb_forall in H. specialize (H _ IN). cbn in H. destruct c; auto; discriminate.
Qed.
Fixpoint early_b (n : nat) (l : list weff) : bool :=
  match l with
  | [] => true
  | (_, WStart, RDone) :: l' => Nat.eqb n 0 && early_b n l'
  | (_, WDue, _) :: l' => early_b (S n) l'
  | (_, WEnd, _) :: l' => Nat.ltb 0 n && early_b (pred n) l'
  | _ :: l' => early_b n l'
  end.
Lemma early_b_sound l : forall n, early_b n l = true -> forall l1 t l2, l = l1 ++ (t, WStart, RDone) :: l2 -> n + w_dues l1 = w_ends l1.
Proof.
  induction l as [|[[u c] r] l IH]; intros n H l1 t l2 E; [destruct l1; discriminate|].
  destruct l1 as [|e l1]; cbn in E; injection E as E1 E2.
  - subst. cbn in H. apply andb_prop in H. destruct H as (H & _). apply Nat.eqb_eq in H. unfold w_dues, w_ends, wcount. cbn. lia.
  - subst l. change (e :: l1) with ([e] ++ l1). rewrite dues_app, ends_app. subst e.
    destruct c; cbn in H; try (specialize (IH _ H l1 t l2 eq_refl); unfold w_dues at 1, w_ends at 1, wcount; cbn; lia).
    + destruct r; try (specialize (IH _ H l1 t l2 eq_refl); unfold w_dues at 1, w_ends at 1, wcount; cbn; lia).
      apply andb_prop in H. destruct H as (_ & H). specialize (IH _ H l1 t l2 eq_refl); unfold w_dues at 1, w_ends at 1, wcount; cbn; lia.
    + apply andb_prop in H. destruct H as (H0 & H). destruct n; [discriminate|]. cbn in H. specialize (IH _ H l1 t l2 eq_refl); unfold w_dues at 1, w_ends at 1, wcount; cbn; lia.
Qed.
Lemma early_sound l : early_b 0 l = true -> never_restarted_early l.
Proof. intros H l1 t l2 E. exact (early_b_sound l 0 H l1 t l2 E). Qed.

(** stop() that misses: isStarted() is still true *)
Definition sch_missed : list wlab := [YCall 1 WStart; YStep 1 true; YStep 1 true; YDue 1; YCall 1 WStop; YStep 1 false; YStep 1 true; YCall 1 WIsStarted; YStep 1 true; YStep 1 true].
Theorem win_off_after_stop_fails :
  ~ (forall ls s es h1 r b, exec (w_step false) w_init ls = Some (s, es) -> w_only_client 1 es -> w_callback_calls_nothing es -> never_restarted_early (effects es) ->
       history es = h1 ++ [Call 1 WStop; Ret 1 r; Call 1 WIsStarted; Ret 1 (RBool b)] -> b = false).
Proof.
  intros H. destruct (exec (w_step false) w_init sch_missed) as [[s es]|] eqn:E; [|vm_compute in E; discriminate].
  assert (X : true = false); [|discriminate X].
  pose proof E as E'. vm_compute in E'. injection E' as ES EE. clear ES.
  apply (H sch_missed s es [Call 1 WStart; Ret 1 RDone; Call 0 WDue; Ret 0 (RBool true)] RMissed true E); rewrite <- EE;
    [apply one_client_sound|apply callback_quiet_sound|apply early_sound|]; reflexivity.
Qed.
(** stop() and start() during the callback: isStarted() is then false, stop() has no effect, and yet the callback comes *)
Definition sch_orphan : list wlab :=
  [YCall 1 WStart; YStep 1 true; YStep 1 true; YDue 1; YWork; YWork; YCall 1 WStop; YStep 1 true; YStep 1 true; YCall 1 WStart; YStep 1 true; YStep 1 true] ++
  [YWork; YWork; YWork; YCall 1 WStop; YStep 1 true; YStep 1 true; YCall 1 WIsStarted; YStep 1 true; YStep 1 true; YDue 2; YWork; YWork].
Theorem win_stopped_is_silent_fails :
  ~ (forall ls s es h1 r h2, exec (w_step false) w_init ls = Some (s, es) -> w_only_client 1 es -> w_callback_calls_nothing es ->
       history es = h1 ++ [Call 1 WStop; Ret 1 r; Call 1 WIsStarted; Ret 1 (RBool false)] ++ h2 -> (forall t, ~ In (Call t WStart) h2) ->
       (forall t c, In (Call t c) h1 -> c <> WDue) \/ (exists h0, h1 = h0 ++ [Ret 0 RDone] /\ In (Call 0 WEnd) h0) -> ~ In (Call 0 WBegin) h2).
Proof.
  intros H. destruct (exec (w_step false) w_init sch_orphan) as [[s es]|] eqn:E; [|vm_compute in E; discriminate].
  pose proof E as E'. vm_compute in E'. injection E' as ES EE. clear ES.
  refine (H sch_orphan s es
           [Call 1 WStart; Ret 1 RDone; Call 0 WDue; Ret 0 (RBool true); Call 0 WBegin; Ret 0 RDone; Call 1 WStop; Ret 1 RLate; Call 1 WStart; Ret 1 RDone; Call 0 WEnd; Ret 0 RDone]
           RNone [Call 0 WDue; Ret 0 (RBool false); Call 0 WBegin; Ret 0 RDone] E _ _ _ _ _ _); rewrite <- ?EE.
  - apply one_client_sound. reflexivity.
  - apply callback_quiet_sound. reflexivity.
  - reflexivity.
  - intros t X. no_in X.
  - right. exists [Call 1 WStart; Ret 1 RDone; Call 0 WDue; Ret 0 (RBool true); Call 0 WBegin; Ret 0 RDone; Call 1 WStop; Ret 1 RLate; Call 1 WStart; Ret 1 RDone; Call 0 WEnd].
    split; [reflexivity|]. cbn. auto 20.
  - cbn. auto.
Qed.
(** a stop() that has returned does not prevent a callback that was due *)
Definition sch_late : list wlab := [YCall 1 WStart; YStep 1 true; YStep 1 true; YDue 1; YCall 1 WStop; YStep 1 true; YStep 1 true; YWork; YWork].
Theorem win_stop_prevents_fails p :
  ~ (forall ls s es h1 r h2, exec (w_step p) w_init ls = Some (s, es) -> w_only_client 1 es -> w_callback_calls_nothing es ->
       history es = h1 ++ [Call 1 WStop; Ret 1 r] ++ h2 -> (forall t, ~ In (Call t WStart) h2) -> ~ In (Call 0 WBegin) h1 -> ~ In (Call 0 WBegin) h2).
Proof.
  intros H. destruct (exec (w_step p) w_init sch_late) as [[s es]|] eqn:E; [|destruct p; vm_compute in E; discriminate].
  pose proof E as E'. destruct p; vm_compute in E'; injection E' as ES EE; clear ES.
  - refine (H sch_late s es [Call 1 WStart; Ret 1 RDone; Call 0 WDue; Ret 0 (RBool true)] RDone [Call 0 WBegin; Ret 0 RDone] E _ _ _ _ _ _); rewrite <- ?EE;
      [apply one_client_sound; reflexivity|apply callback_quiet_sound; reflexivity|reflexivity|intros t X; no_in X|intros X; no_in X|cbn; auto].
  - refine (H sch_late s es [Call 1 WStart; Ret 1 RDone; Call 0 WDue; Ret 0 (RBool true)] RLate [Call 0 WBegin; Ret 0 RDone] E _ _ _ _ _ _); rewrite <- ?EE;
      [apply one_client_sound; reflexivity|apply callback_quiet_sound; reflexivity|reflexivity|intros t X; no_in X|intros X; no_in X|cbn; auto].
Qed.
(** destroy: the callback was due but had not yet reset m_evFinished *)
Definition sch_destroy : list wlab := [YCall 1 WStart; YStep 1 true; YStep 1 true; YDue 1; YCall 1 WDestroy; YStep 1 true; YStep 1 true; YStep 1 true; YStep 1 true].
Theorem win_destroy_unsafe p :
  ~ (forall ls s es, exec (w_step p) w_init ls = Some (s, es) -> w_only_client 1 es -> w_callback_calls_nothing es -> never_restarted_early (effects es) -> ~ dangling s).
Proof.
  intros H. destruct (exec (w_step p) w_init sch_destroy) as [[s es]|] eqn:E; [|destruct p; vm_compute in E; discriminate].
  pose proof E as E'. destruct p; vm_compute in E'; injection E' as ES EE.
  - apply (H sch_destroy s es E); rewrite <- ?EE; [apply one_client_sound; reflexivity|apply callback_quiet_sound; reflexivity|apply early_sound; reflexivity|].
    rewrite <- ES. split; [reflexivity|]. left. discriminate.
  - apply (H sch_destroy s es E); rewrite <- ?EE; [apply one_client_sound; reflexivity|apply callback_quiet_sound; reflexivity|apply early_sound; reflexivity|].
    rewrite <- ES. split; [reflexivity|]. left. discriminate.
Qed.
(** one-shot: even when the callback was already running *)
Definition sch_destroy2 : list wlab :=
  [YCall 1 WStart; YStep 1 true; YStep 1 true; YDue 1; YWork; YWork] ++ [YCall 1 WDestroy; YStep 1 true; YWork; YWork; YStep 1 true; YStep 1 true].
Theorem win_destroy_running_unsafe :
  ~ (forall ls0 s0 es0 ls s es, exec (w_step false) w_init ls0 = Some (s0, es0) -> w_only_client 1 es0 -> w_callback_calls_nothing es0 -> never_restarted_early (effects es0) ->
       (forall t, w_idle s0 t) -> w_dues (effects es0) = w_begins (effects es0) -> (forall l, In l ls -> w_own_step l) ->
       exec (w_step false) s0 (YCall 1 WDestroy :: ls) = Some (s, es) -> ~ dangling s).
Proof.
  intros H.
  destruct (exec (w_step false) w_init [YCall 1 WStart; YStep 1 true; YStep 1 true; YDue 1; YWork; YWork]) as [[s0 es0]|] eqn:E0; [|vm_compute in E0; discriminate].
  pose proof E0 as E0'. vm_compute in E0'. injection E0' as ES0 EE0.
  destruct (exec (w_step false) s0 [YCall 1 WDestroy; YStep 1 true; YWork; YWork; YStep 1 true; YStep 1 true]) as [[s es]|] eqn:E; [|rewrite <- ES0 in E; vm_compute in E; discriminate].
  apply (H _ s0 es0 [YStep 1 true; YWork; YWork; YStep 1 true; YStep 1 true] s es E0); rewrite <- ?EE0; try exact E.
  - apply one_client_sound; reflexivity.
  - apply callback_quiet_sound; reflexivity.
  - apply early_sound; reflexivity.
  - intros t. rewrite <- ES0. unfold w_idle. cbn. destruct t as [|[|t]]; reflexivity.
  - reflexivity.
  - intros l X. cbn in X. repeat (destruct X as [<-|X]; [exact Logic.I|]). destruct X.
  - rewrite <- ES0 in E. vm_compute in E. injection E as <- _. split; [reflexivity|]. left. discriminate.
Qed.
(** a callback that starts the timer again while it is being destroyed *)
Definition sch_self : list wlab :=
  [YCall 1 WStart; YStep 1 true; YStep 1 true; YDue 1; YWork; YWork; YCall 1 WDestroy; YStep 1 true; YCall 0 WStart; YStep 0 true; YStep 0 true; YWork; YWork; YWork].
Theorem win_self_restart_unsafe p :
  exists ls s es, exec (w_step p) w_init ls = Some (s, es) /\ w_only_client 1 es /\ (forall t c, In (Call t c) es -> t = 0 -> c <> WStop) /\ dangling s /\ w_wk s = KFree /\ w_armed s <> [].
Proof.
  destruct p.
  - exists ([YCall 1 WStart; YStep 1 true; YStep 1 true; YDue 1; YWork; YWork; YCall 1 WDestroy; YStep 1 true; YCall 0 WStart; YStep 0 true; YStep 0 true; YWork; YWork] ++ [YStep 1 true; YStep 1 true; YStep 1 true]).
    cbn [app]. do 2 eexists. split; [vm_compute; reflexivity|]. split; [apply one_client_sound; reflexivity|]. split.
    + intros t c X. cbn in X. repeat (destruct X as [X|X]; [injection X as <- <- || discriminate X; try discriminate; intros; discriminate|]). destruct X.
    + split; [split; [reflexivity|right; left; discriminate]|]. split; [reflexivity|discriminate].
  - exists (sch_self ++ [YStep 1 true; YStep 1 true; YStep 1 true]).
    cbn [app sch_self]. do 2 eexists. split; [vm_compute; reflexivity|]. split; [apply one_client_sound; reflexivity|]. split.
    + intros t c X. cbn in X. repeat (destruct X as [X|X]; [injection X as <- <- || discriminate X; try discriminate; intros; discriminate|]). destruct X.
    + split; [split; [reflexivity|right; left; discriminate]|]. split; [reflexivity|discriminate].
Qed.
