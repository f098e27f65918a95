From Coq Require Import List ZArith Bool Lia Arith.
Import ListNotations.
From Verif Require Import Spec.OSError Spec.Linear Spec.MutexSpec Spec.ContextSpec OS.Sched OS.ItronMutexModel OS.ItronMutexProofs OS.ContextModel.
Open Scope Z_scope.

Section P.
  Variable M : nat.
  Variable nt : nat -> bool.
  Notation ev := (event mcall err).
  Notation stt := (@status mcall err).
  Definition hspec (s : unit) (t : nat) (c : mcall) (r : err) (s' : unit) : Prop :=
    r = (if is_lock c then CalledByNonThread else OtherError).
  Definition mixf (F f g : nat -> stt) : Prop := forall t, F t = if nt t then g t else f t.
  Lemma mixf_set_h F f g h x : nt h = true -> mixf F f g -> mixf (set_st F h x) f (set_st g h x).
  Proof. intros N H t. unfold set_st. destruct (Nat.eqb_spec t h) as [->|]; [now rewrite N|apply H]. Qed.
  Lemma mixf_set_t F f g h x : nt h = false -> mixf F f g -> mixf (set_st F h x) (set_st f h x) g.
  Proof. intros N H t. unfold set_st. destruct (Nat.eqb_spec t h) as [->|]; [now rewrite N|apply H]. Qed.
  Lemma merge : forall es F f g s f' s' g',
    mixf F f g -> lin_run (mspec M) f s (of_threads nt es) f' s' -> lin_run hspec g tt (of_handlers nt es) g' tt ->
    exists F', lin_run (cspec M nt) F s es F' s' /\ mixf F' f' g'.
  Proof.
    induction es as [|e es IH]; intros F f g s f' s' g' X A B.
    - cbn in A, B. inversion A; subst. inversion B; subst. exists F. split; [constructor|exact X].
    - unfold of_threads, of_handlers in A, B. cbn [filter] in A, B.
      assert (PC : nt (who e) = true \/ nt (who e) = false) by (destruct (nt (who e)); auto).
      destruct PC as [P|P]; rewrite P in A, B; cbn [negb] in A, B.
      + destruct e as [t c|t c r|t r]; cbn in P; inversion B; subst.
        * destruct (IH (set_st F t (Pending c)) f (set_st g t (Pending c)) s f' s' g') as (F' & L & Y); auto using mixf_set_h.
          exists F'. split; [|exact Y]. constructor; [|exact L]. rewrite X, P. assumption.
        * destruct s1. destruct (IH (set_st F t (Done r)) f (set_st g t (Done r)) s f' s' g') as (F' & L & Y); auto using mixf_set_h.
          exists F'. split; [|exact Y]. apply lr_eff with (s1 := s); [|unfold cspec; rewrite P; auto|exact L]. rewrite X, P. assumption.
        * destruct (IH (set_st F t Out) f (set_st g t Out) s f' s' g') as (F' & L & Y); auto using mixf_set_h.
          exists F'. split; [|exact Y]. constructor; [|exact L]. rewrite X, P. assumption.
      + destruct e as [t c|t c r|t r]; cbn in P; inversion A; subst.
        * destruct (IH (set_st F t (Pending c)) (set_st f t (Pending c)) g s f' s' g') as (F' & L & Y); auto using mixf_set_t.
          exists F'. split; [|exact Y]. constructor; [|exact L]. rewrite X, P. assumption.
        * destruct (IH (set_st F t (Done r)) (set_st f t (Done r)) g s1 f' s' g') as (F' & L & Y); auto using mixf_set_t.
          exists F'. split; [|exact Y]. apply lr_eff with (s1 := s1); [|unfold cspec; rewrite P; auto|exact L]. rewrite X, P. assumption.
        * destruct (IH (set_st F t Out) (set_st f t Out) g s f' s' g') as (F' & L & Y); auto using mixf_set_t.
          exists F'. split; [|exact Y]. constructor; [|exact L]. rewrite X, P. assumption.
  Qed.

  (** ** the two projections of an execution *)
  Definition tasks_of (ls : list xlab) : list ilab := flat_map (fun l => match l with XTask l => [l] | _ => [] end) ls.
  Lemma tasks_of_length ls : (length (tasks_of ls) <= length ls)%nat.
  Proof. unfold tasks_of. induction ls as [|[l|h c|h r] ls IH]; cbn [flat_map app length]; lia. Qed.
  Lemma i_step_who s l s' es e : i_step s l = Some (s', es) -> In e es -> who e = ilab_who l.
  Proof.
    intros E H. destruct l as [t c|t|t|t]; cbn in E;
      repeat match type of E with context[match ?x with _ => _ end] => destruct x eqn:?; try discriminate end;
      injection E as <- <-; cbn in H; try contradiction; destruct H as [<-|[]]; reflexivity.
  Qed.
  Lemma filter_none (A : Type) (p : A -> bool) l : (forall x, In x l -> p x = false) -> filter p l = [].
  Proof. induction l as [|x l IH]; intros H; [reflexivity|]. cbn. rewrite H by now left. apply IH. intros y Y. apply H. now right. Qed.
  Lemma filter_all (A : Type) (p : A -> bool) l : (forall x, In x l -> p x = true) -> filter p l = l.
  Proof. induction l as [|x l IH]; intros H; [reflexivity|]. cbn. rewrite H by now left. f_equal. apply IH. intros y Y. apply H. now right. Qed.

  (** in a strict kernel a handler never gets to the count *)
  Definition hgood (s : xst) : Prop := forall h, match x_h s h with HCnt | HDec => False | HLoc c => is_lock c = true | _ => True end.
  Definition hst (q : hpc) : stt :=
    match q with HIdle => Out | HLoc c => Pending c | HAsk | HCnt | HDec | HUnl => Pending MUnlock | HRet r => Done r end.
  Lemma hgood_go s h q : hgood s -> match q with HCnt | HDec => False | HLoc c => is_lock c = true | _ => True end -> hgood (x_go s h q).
  Proof. intros G Q u. unfold x_go. cbn. rewrite fupd_eq. destruct (Nat.eqb u h); [exact Q|apply G]. Qed.
  Lemma strict_split : forall ls s s' es, hgood s -> exec (x_step nt false) s ls = Some (s', es) ->
    hgood s' /\ exec i_step (x_i s) (tasks_of ls) = Some (x_i s', of_threads nt es) /\
    forall g, (forall h, g h = hst (x_h s h)) -> exists g', lin_run hspec g tt (of_handlers nt es) g' tt /\ forall h, g' h = hst (x_h s' h).
  Proof.
    induction ls as [|l ls IH]; intros s s' es G E; cbn [exec] in E.
    - injection E as <- <-. cbn. repeat split; auto. intros g H. exists g. split; [constructor|exact H].
    - destruct (x_step nt false s l) as [[s1 e1]|] eqn:E1; [|discriminate].
      destruct (exec (x_step nt false) s1 ls) as [[s2 e2]|] eqn:E2; [|discriminate]. injection E as <- <-.
      unfold of_threads, of_handlers. rewrite !filter_app. destruct l as [l|h c|h run]; cbn in E1.
      + assert (PC : nt (ilab_who l) = true \/ nt (ilab_who l) = false) by (destruct (nt (ilab_who l)); auto).
        destruct PC as [P|P]; rewrite P in E1; [discriminate|]. destruct (i_step (x_i s) l) as [[i e]|] eqn:EI; [|discriminate].
        injection E1 as <- <-. destruct (IH _ _ _ (G : hgood (mkX i (x_h s))) E2) as (G' & T & L).
        assert (W : forall x, In x e -> nt (who x) = false) by (intros x HX; rewrite (i_step_who _ _ _ _ _ EI HX); exact P).
        split; [exact G'|split].
        * cbn [tasks_of flat_map app exec]. rewrite EI. cbn [x_i] in T. unfold tasks_of in T. rewrite T. rewrite (filter_all _ _ e); [reflexivity|].
          intros x HX. now rewrite W.
        * intros g Hg. rewrite (filter_none _ _ e W). exact (L g Hg).
      + assert (PC : nt h = true \/ nt h = false) by (destruct (nt h); auto). destruct PC as [P|P]; rewrite P in E1; [|discriminate].
        destruct (x_h s h) eqn:EH; try discriminate. injection E1 as <- <-.
        assert (G1 : hgood (x_go s h (if is_lock c then HLoc c else HAsk))) by (apply hgood_go; [exact G|destruct (is_lock c) eqn:EL; cbn; auto]).
        destruct (IH _ _ _ G1 E2) as (G' & T & L). cbn [filter who]. rewrite P. cbn [negb app].
        split; [exact G'|split; [exact T|]]. intros g Hg. destruct (L (set_st g h (Pending c))) as (g' & L' & Y).
        { intros u. unfold set_st, x_go. cbn. rewrite fupd_eq. destruct (Nat.eqb u h); [|apply Hg]. destruct c; reflexivity. }
        exists g'. split; [|exact Y]. constructor; [rewrite Hg, EH; reflexivity|exact L'].
      + assert (PC : nt h = true \/ nt h = false) by (destruct (nt h); auto). destruct PC as [P|P]; rewrite P in E1; [|discriminate].
        pose proof (G h) as Gh. destruct (x_h s h) as [|c| | | | |r] eqn:EH; try contradiction; try discriminate; cbn in E1; injection E1 as <- <-.
        * destruct (IH _ _ _ (hgood_go _ h (HRet CalledByNonThread) G Logic.I) E2) as (G' & T & L). cbn [filter who]. rewrite P. cbn [negb app].
          split; [exact G'|split; [exact T|]]. intros g Hg. destruct (L (set_st g h (Done CalledByNonThread))) as (g' & L' & Y).
          { intros u. unfold set_st, x_go. cbn. rewrite fupd_eq. destruct (Nat.eqb u h); [reflexivity|apply Hg]. }
          exists g'. split; [|exact Y]. apply lr_eff with (s1 := tt); [rewrite Hg, EH; reflexivity|unfold hspec; now rewrite Gh|exact L'].
        * destruct (IH _ _ _ (hgood_go _ h HUnl G Logic.I) E2) as (G' & T & L). cbn [filter app].
          split; [exact G'|split; [exact T|]]. intros g Hg. apply L.
          intros u. unfold x_go. cbn. rewrite fupd_eq. destruct (Nat.eqb_spec u h) as [->|]; [|apply Hg]. now rewrite Hg, EH.
        * destruct (IH _ _ _ (hgood_go _ h (HRet OtherError) G Logic.I) E2) as (G' & T & L). cbn [filter who]. rewrite P. cbn [negb app].
          split; [exact G'|split; [exact T|]]. intros g Hg. destruct (L (set_st g h (Done OtherError))) as (g' & L' & Y).
          { intros u. unfold set_st, x_go. cbn. rewrite fupd_eq. destruct (Nat.eqb u h); [reflexivity|apply Hg]. }
          exists g'. split; [|exact Y]. apply lr_eff with (s1 := tt); [rewrite Hg, EH; reflexivity|reflexivity|exact L'].
        * destruct (IH _ _ _ (hgood_go _ h HIdle G Logic.I) E2) as (G' & T & L). cbn [filter who]. rewrite P. cbn [negb app].
          split; [exact G'|split; [exact T|]]. intros g Hg. destruct (L (set_st g h Out)) as (g' & L' & Y).
          { intros u. unfold set_st, x_go. cbn. rewrite fupd_eq. destruct (Nat.eqb u h); [reflexivity|apply Hg]. }
          exists g'. split; [|exact Y]. constructor; [rewrite Hg, EH; reflexivity|exact L'].
  Qed.
  Lemma hgood_init : hgood x_init.
  Proof. intros h. exact Logic.I. Qed.
  Theorem ctx_linearizable ls s es :
    exec (x_step nt false) x_init ls = Some (s, es) -> (S (length ls) < M)%nat -> Z.of_nat (length ls) < 2 ^ 64 ->
    linearizable (cspec M nt) None (history es).
  Proof.
    intros E BM BN. destruct (strict_split ls _ _ _ hgood_init E) as (_ & T & L). cbn [x_i x_init] in T.
    pose proof (tasks_of_length ls) as LN.
    pose proof (iinv_exec M (tasks_of ls) 0 i_init [] _ _ (iinv_init M) ltac:(cbn; lia) ltac:(cbn; lia) T) as I.
    destruct (ii_lin _ _ _ _ I) as (f & A & _). cbn [app] in A.
    destruct (L (fun _ => Out) ltac:(reflexivity)) as (g & B & _).
    destruct (merge es (fun _ => Out) (fun _ => Out) (fun _ => Out) None f _ g ltac:(intros t; now destruct (nt t)) A B) as (F & X & _).
    exists es, F, (iabs (x_i s)). split; [reflexivity|exact X].
  Qed.
  (** the tasks cannot tell the handlers are there *)
  Theorem ctx_invisible ls s es :
    exec (x_step nt false) x_init ls = Some (s, es) ->
    exec i_step i_init (tasks_of ls) = Some (x_i s, of_threads nt es).
  Proof. intros E. now destruct (strict_split ls _ _ _ hgood_init E) as (_ & T & _). Qed.
  (** a handler's call never waits: alone, it ends in at most four steps, whatever everybody else is doing *)
  Theorem ctx_never_waits lenient s h run : nt h = true ->
    exists n s' es, (n <= 4)%nat /\ exec (x_step nt lenient) s (repeat (XStep h run) n) = Some (s', es) /\ x_h s' h = HIdle.
  Proof.
    intros P.
    assert (R : forall s r, x_h s h = HRet r -> exists n s' es, (n <= 1)%nat /\ exec (x_step nt lenient) s (repeat (XStep h run) n) = Some (s', es) /\ x_h s' h = HIdle).
    { intros s0 r H. exists 1%nat. cbn. rewrite P, H. do 2 eexists. repeat split; auto. cbn. now rewrite fupd_same. }
    assert (K : forall s s1 e1 k, x_step nt lenient s (XStep h run) = Some (s1, e1) ->
      (exists n s' es, (n <= k)%nat /\ exec (x_step nt lenient) s1 (repeat (XStep h run) n) = Some (s', es) /\ x_h s' h = HIdle) ->
      exists n s' es, (n <= S k)%nat /\ exec (x_step nt lenient) s (repeat (XStep h run) n) = Some (s', es) /\ x_h s' h = HIdle).
    { intros s0 s1 e1 k E (n & s2 & e2 & B & X & Y). exists (S n). cbn [repeat exec]. rewrite E, X. do 2 eexists. repeat split; [lia|exact Y]. }
    assert (W : forall k j s, (k <= j)%nat -> (exists n s' es, (n <= k)%nat /\ exec (x_step nt lenient) s (repeat (XStep h run) n) = Some (s', es) /\ x_h s' h = HIdle) ->
      exists n s' es, (n <= j)%nat /\ exec (x_step nt lenient) s (repeat (XStep h run) n) = Some (s', es) /\ x_h s' h = HIdle).
    { intros k j s0 L (n & s2 & e2 & B & X & Y). exists n, s2, e2. repeat split; [lia|exact X|exact Y]. }
    assert (U : forall s, x_h s h = HUnl -> exists n s' es, (n <= 2)%nat /\ exec (x_step nt lenient) s (repeat (XStep h run) n) = Some (s', es) /\ x_h s' h = HIdle).
    { intros s0 H. eapply K; [cbn; rewrite P, H; reflexivity|]. eapply R. cbn. now rewrite fupd_same. }
    assert (D : forall s, x_h s h = HDec -> exists n s' es, (n <= 2)%nat /\ exec (x_step nt lenient) s (repeat (XStep h run) n) = Some (s', es) /\ x_h s' h = HIdle).
    { intros s0 H. eapply K; [cbn; rewrite P, H; reflexivity|]. eapply R. cbn. now rewrite fupd_same. }
    assert (C : forall s, x_h s h = HCnt -> exists n s' es, (n <= 3)%nat /\ exec (x_step nt lenient) s (repeat (XStep h run) n) = Some (s', es) /\ x_h s' h = HIdle).
    { intros s0 H. eapply K; [cbn; rewrite P, H; reflexivity|]. destruct (i_count (x_i s0) >? 0); [apply D|apply U]; cbn; now rewrite fupd_same. }
    destruct (x_h s h) as [|c| | | | |r] eqn:EH.
    - exists 0%nat, s, []. repeat split; [lia|exact EH].
    - apply (W 2%nat); [lia|]. eapply K; [cbn; rewrite P, EH; reflexivity|]. eapply R. cbn. now rewrite fupd_same.
    - apply (W 4%nat); [lia|]. eapply K; [cbn; rewrite P, EH; reflexivity|]. destruct (h_owns lenient s run); [apply C|apply (W 2%nat); [lia|apply U]]; cbn; now rewrite fupd_same.
    - apply (W 3%nat); [lia|now apply C].
    - apply (W 2%nat); [lia|now apply D].
    - apply (W 2%nat); [lia|now apply U].
    - apply (W 1%nat); [lia|]. eapply R. exact EH.
  Qed.

  (** ** results *)
  Definition outside_result (lenient : bool) (c : mcall) (r : err) : Prop :=
    if is_lock c then r = CalledByNonThread else r = OtherError \/ (lenient = true /\ r = OK).
  Definition cur_ok (lenient : bool) (q : hpc) (cur : option mcall) : Prop :=
    match q with
    | HIdle => True
    | HLoc c => cur = Some c /\ is_lock c = true
    | HAsk | HUnl => cur = Some MUnlock
    | HCnt | HDec => cur = Some MUnlock /\ lenient = true
    | HRet r => exists c, cur = Some c /\ outside_result lenient c r
    end.
  Definition not_by (h : nat) (es : list ev) : Prop := forall e, In e es -> who e <> h.
  Lemma results_skip h : forall es cur es', not_by h es -> results_from h cur (history (es ++ es')) = results_from h cur (history es').
  Proof.
    induction es as [|e es IH]; intros cur es' H; [reflexivity|].
    assert (N : who e <> h) by (apply H; now left). assert (N' : not_by h es) by (intros x X; apply H; now right).
    destruct e as [t c|t c r|t r]; cbn in N |- *; try (destruct (Nat.eqb_spec t h) as [|]; [contradiction|]); now apply IH.
  Qed.
  Lemma results_ok lenient h : nt h = true -> forall ls s s' es cur,
    exec (x_step nt lenient) s ls = Some (s', es) -> cur_ok lenient (x_h s h) cur ->
    forall c r, In (c, r) (results_from h cur (history es)) -> outside_result lenient c r.
  Proof.
    intros PH. induction ls as [|l ls IH]; intros s s' es cur E K c r; cbn [exec] in E.
    - injection E as <- <-. contradiction.
    - destruct (x_step nt lenient s l) as [[s1 e1]|] eqn:E1; [|discriminate].
      destruct (exec (x_step nt lenient) s1 ls) as [[s2 e2]|] eqn:E2; [|discriminate]. injection E as <- <-.
      assert (SK : not_by h e1 -> x_h s1 h = x_h s h -> In (c, r) (results_from h cur (history (e1 ++ e2))) -> outside_result lenient c r).
      { intros N X. rewrite results_skip by exact N. apply (IH _ _ _ cur E2). now rewrite X. }
      destruct l as [l|u c0|u run]; cbn in E1.
      + assert (PC : nt (ilab_who l) = true \/ nt (ilab_who l) = false) by (destruct (nt (ilab_who l)); auto).
        destruct PC as [P|P]; rewrite P in E1; [discriminate|]. destruct (i_step (x_i s) l) as [[i e]|] eqn:EI; [|discriminate].
        injection E1 as <- <-. apply SK; [|reflexivity]. intros x HX. rewrite (i_step_who _ _ _ _ _ EI HX). congruence.
      + assert (PC : nt u = true \/ nt u = false) by (destruct (nt u); auto). destruct PC as [P|P]; rewrite P in E1; [|discriminate].
        destruct (x_h s u) eqn:EH; try discriminate. injection E1 as <- <-. destruct (Nat.eq_dec u h) as [->|NE].
        * cbn. rewrite Nat.eqb_refl. apply (IH _ _ _ (Some c0) E2). cbn. rewrite fupd_same. destruct c0; cbn; auto.
        * apply SK; [intros x [<-|[]]; exact NE|]. cbn. now rewrite fupd_other by auto.
      + assert (PC : nt u = true \/ nt u = false) by (destruct (nt u); auto). destruct PC as [P|P]; rewrite P in E1; [|discriminate].
        destruct (Nat.eq_dec u h) as [->|NE].
        * destruct (x_h s h) as [|c0| | | | |r0] eqn:EH; try discriminate; cbn in K; cbn in E1.
          -- injection E1 as <- <-. destruct K as (-> & L). cbn. apply (IH _ _ _ _ E2). cbn. rewrite fupd_same. exists c0. unfold outside_result. now rewrite L.
          -- injection E1 as <- <-. subst cur. cbn. apply (IH _ _ _ _ E2). cbn. rewrite fupd_same. unfold h_owns.
             destruct lenient; cbn; [|reflexivity]. destruct (owns (x_i s) run); cbn; auto.
          -- injection E1 as <- <-. destruct K as (-> & L). cbn. apply (IH _ _ _ _ E2). cbn. rewrite fupd_same. destruct (i_count (x_i s) >? 0); cbn; auto.
          -- injection E1 as <- <-. destruct K as (-> & L). cbn. apply (IH _ _ _ _ E2). cbn. rewrite fupd_same. exists MUnlock. split; [reflexivity|]. right. auto.
          -- injection E1 as <- <-. subst cur. cbn. apply (IH _ _ _ _ E2). cbn. rewrite fupd_same. exists MUnlock. split; [reflexivity|]. now left.
          -- injection E1 as <- <-. destruct K as (c0 & -> & O). cbn. rewrite Nat.eqb_refl. cbn. intros [X|X]; [now injection X as <- <-|].
             revert X. apply (IH _ _ _ _ E2). cbn. now rewrite fupd_same.
        * apply SK.
          -- destruct (x_h s u); try discriminate; injection E1 as <- <-; intros x [<-|[]] || intros x []; exact NE.
          -- destruct (x_h s u); try discriminate; injection E1 as <- <-; cbn; now rewrite fupd_other by auto.
  Qed.
  Theorem ctx_results lenient h ls s es c r : nt h = true -> exec (x_step nt lenient) x_init ls = Some (s, es) ->
    In (c, r) (results h (history es)) -> outside_result lenient c r.
  Proof. intros P E. apply (results_ok lenient h P ls x_init s es None E). exact Logic.I. Qed.
End P.
Theorem ctx_tasks_alone nt ls s es : exec (x_step nt false) x_init ls = Some (s, es) ->
  exists ls', (length ls' <= length ls)%nat /\ exec i_step i_init ls' = Some (x_i s, of_threads nt es).
Proof. intros E. exists (tasks_of ls). split; [exact (tasks_of_length ls)|exact (ctx_invisible nt ls s es E)]. Qed.
Theorem ctx_documented nt lenient h ls s es c r : nt h = true -> exec (x_step nt lenient) x_init ls = Some (s, es) ->
  In (c, r) (results h (history es)) -> c <> MTryLock -> c <> MUnlock -> documented_outside c r.
Proof.
  intros P E H N1 N2. pose proof (ctx_results nt lenient h ls s es c r P E H) as X. unfold outside_result in X.
  destruct c; cbn in *; try contradiction; assumption.
Qed.
Theorem ctx_undocumented :
  ~ (forall (nt : nat -> bool) (lenient : bool) (h : nat) (ls : list xlab) (s : xst) (es : list (event mcall err)) (c : mcall) (r : err),
       nt h = true -> exec (x_step nt lenient) x_init ls = Some (s, es) -> In (c, r) (results h (history es)) -> documented_outside c r) /\
  exists s es, exec (x_step c87_nt false) x_init c87_undocumented = Some (s, es) /\
    results 9 (history es) = [(MTryLock, CalledByNonThread); (MUnlock, OtherError)].
Proof.
  split; [|do 2 eexists; split; vm_compute; reflexivity].
  intros H. destruct (exec (x_step c87_nt false) x_init c87_undocumented) as [[s es]|] eqn:E; [|vm_compute in E; discriminate].
  apply (H c87_nt false 9%nat _ s es MTryLock CalledByNonThread eq_refl E). vm_compute in E. injection E as <- <-. now left.
Qed.
Theorem ctx_steal :
  ~ (forall (nt : nat -> bool) (lenient : bool) (ls : list xlab) (s : xst) (es : list (event mcall err)),
       exec (x_step nt lenient) x_init ls = Some (s, es) ->
       exists ls', (length ls' <= length ls)%nat /\ exec i_step i_init ls' = Some (x_i s, of_threads nt es)) /\
  exists s es, exec (x_step c87_nt true) x_init c87_steal = Some (s, es) /\
    holds 1 (history es) = 1%nat /\ holds 2 (history es) = 1%nat /\ results 9 (history es) = [(MUnlock, OK)].
Proof.
  split; [|do 2 eexists; split; [vm_compute; reflexivity|split; [vm_compute; reflexivity|split; vm_compute; reflexivity]]].
  intros H. destruct (exec (x_step c87_nt true) x_init c87_steal) as [[s es]|] eqn:E; [|vm_compute in E; discriminate].
  destruct (H c87_nt true _ s es E) as (ls' & LN & T).
  assert (B : (length ls' <= 21)%nat) by (cbn in LN; lia). clear LN.
  pose proof (iinv_exec 100 ls' 0 i_init [] _ _ (iinv_init 100) ltac:(cbn; lia) ltac:(cbn; lia) T) as I.
  destruct (ii_lin _ _ _ _ I) as (f & L & _). apply lin_run_effects in L. clear T I. revert L. generalize (iabs (x_i s)). intros q L.
  assert (X : effects (of_threads c87_nt es) = [(1%nat, MLock, OK); (1%nat, MLock, OK); (1%nat, MUnlock, OK); (2%nat, MLock, OK)]).
  { vm_compute in E. injection E as _ <-. reflexivity. }
  cbn [app] in L. rewrite X in L. clear E H B X.
  inversion L as [|? ? ? ? ? ? ? S1 L1]; subst. inversion L1 as [|? ? ? ? ? ? ? S2 L2]; subst. inversion L2 as [|? ? ? ? ? ? ? S3 L3]; subst.
  inversion L3 as [|? ? ? ? ? ? ? S4 L4]; subst. unfold mspec in S1, S2, S3, S4. cbn in S1, S2, S3, S4.
  destruct S1 as [[_ ->]|(n & X & _)]; [|discriminate]. destruct S2 as [[X _]|(n & X & _ & ->)]; [discriminate|]. injection X as <-.
  cbn in S3. destruct S3 as (_ & ->). destruct S4 as [[X _]|(n & X & _)]; discriminate.
Qed.
