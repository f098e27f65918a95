(** Proofs about the timer factories of StdCpp and Windows. *)
From Coq Require Import List Bool Lia Arith Permutation.
Import ListNotations.
From Verif Require Import Spec.Resource OS.Resources OS.Sched OS.TimerFactoryModel.

(** * create and destroy *)
Section C.
  Variable orc : nat -> bool.
  Lemma std_timer_run : forall s0, s0 = rs_init ->
    match std_timer_create orc s0 with
    | (TNull, s) => live (rs_tr s) [] \/ (orc 3 = false /\ exists m th, live (rs_tr s) [(KThread, th); (KHeap, m)])
    | (TTimer m th, s) => live (rs_tr s) [(KThread, th); (KHeap, m)] /\ live (rs_tr (std_timer_destroy m th s)) []
    | (Crash, s) => orc 1 = false
    end.
  Proof.
    intros s0 ->. unfold std_timer_create. pose proof (holds_acquire orc KHeap rs_init [] holds_init) as H0.
    destruct (acquire orc KHeap rs_init) as [[m|] s1] eqn:A1; [|left; exact (proj1 H0)].
    destruct H0 as (H0 & _). assert (R1 : rs_req s1 = 1) by (unfold acquire in A1; destruct (orc _); [injection A1 as _ <-; reflexivity|discriminate]).
    pose proof (holds_acquire orc KThread s1 _ H0) as H1. destruct (acquire orc KThread s1) as [th s2] eqn:A2.
    assert (R2 : rs_req s2 = 2) by (unfold acquire in A2; destruct (orc _); injection A2 as _ <-; cbn; now rewrite R1).
    assert (O1 : th = None -> orc 1 = false) by (unfold acquire in A2; rewrite R1 in A2; destruct (orc 1); [injection A2 as <- _; discriminate|auto]).
    rewrite R2. destruct (orc 2).
    - cbn [rs_req]. destruct th as [th|]; [|now apply O1]. destruct H1 as (H1 & _). destruct (orc 3) eqn:O3.
      + split; [exact (proj1 H1)|]. unfold std_timer_destroy.
        assert (H1' : holds (mkRs (rs_next s2) 4 (rs_tr s2)) [(KThread, th); (KHeap, m)]) by exact H1.
        assert (H2 : holds (release KThread th (mkRs (rs_next s2) 4 (rs_tr s2))) [(KHeap, m)]) by (apply (holds_release _ _ _ _ _ H1'); [reflexivity|discriminate]).
        assert (H3 : holds (release KHeap m (release KThread th (mkRs (rs_next s2) 4 (rs_tr s2)))) []) by (apply (holds_release _ _ _ _ _ H2); [reflexivity|discriminate]).
        exact (proj1 H3).
      + right. split; [reflexivity|]. exists m, th. exact (proj1 H1).
    - left. destruct th as [th|].
      + destruct H1 as (H1 & _). cbn [release_opt].
        assert (H1' : holds (mkRs (rs_next s2) 3 (rs_tr s2)) [(KThread, th); (KHeap, m)]) by exact H1.
        assert (H2 : holds (release KThread th (mkRs (rs_next s2) 3 (rs_tr s2))) [(KHeap, m)]) by (apply (holds_release _ _ _ _ _ H1'); [reflexivity|discriminate]).
        assert (H3 : holds (release KHeap m (release KThread th (mkRs (rs_next s2) 3 (rs_tr s2)))) []) by (apply (holds_release _ _ _ _ _ H2); [reflexivity|discriminate]).
        exact (proj1 H3).
      + cbn [release_opt]. assert (H1' : holds (mkRs (rs_next s2) 3 (rs_tr s2)) [(KHeap, m)]) by exact H1.
        assert (H3 : holds (release KHeap m (mkRs (rs_next s2) 3 (rs_tr s2))) []) by (apply (holds_release _ _ _ _ _ H1'); [reflexivity|discriminate]).
        exact (proj1 H3).
  Qed.
  Theorem std_timer_clean : orc 1 = true -> orc 3 = true ->
    match std_timer_create orc rs_init with
    | (TNull, s) => live (rs_tr s) []
    | (TTimer m th, s) => live (rs_tr s) [(KThread, th); (KHeap, m)] /\ live (rs_tr (std_timer_destroy m th s)) []
    | (Crash, _) => False
    end.
  Proof.
    intros O1 O3. pose proof (std_timer_run rs_init eq_refl) as H. destruct (std_timer_create orc rs_init) as [[|m th|] s]; [|exact H|congruence].
    destruct H as [H|(H & _)]; [exact H|congruence].
  Qed.
  Theorem win_timer_clean : orc 1 = true ->
    match win_timer_create orc rs_init with
    | (TNull, s) => live (rs_tr s) []
    | (TTimer m e, s) => live (rs_tr s) [(KEvent, e); (KHeap, m)] /\ live (rs_tr (win_timer_destroy m e s)) []
    | (Crash, _) => False
    end.
  Proof.
    intros O1. unfold win_timer_create. pose proof (holds_acquire orc KHeap rs_init [] holds_init) as H0.
    destruct (acquire orc KHeap rs_init) as [[m|] s1] eqn:A1; [|exact (proj1 H0)].
    destruct H0 as (H0 & _). assert (R1 : rs_req s1 = 1) by (unfold acquire in A1; destruct (orc (rs_req rs_init)); [injection A1 as _ <-; reflexivity|discriminate]).
    pose proof (holds_acquire orc KEvent s1 _ H0) as H1. unfold acquire in *. rewrite R1, O1 in *. destruct H1 as (H1 & _). split; [exact (proj1 H1)|].
    unfold win_timer_destroy. match type of H1 with holds ?x _ => set (s2 := x) in * end. clearbody s2.
    assert (H2 : holds (release KEvent (rs_next s1) s2) [(KHeap, m)]) by (apply (holds_release _ _ _ _ _ H1); [reflexivity|discriminate]).
    assert (H3 : holds (release KHeap m (release KEvent (rs_next s1) s2)) []) by (apply (holds_release _ _ _ _ _ H2); [reflexivity|discriminate]).
    exact (proj1 H3).
  Qed.
End C.
Theorem std_timer_success orc : (forall n, n < 4 -> orc n = true) -> exists m th, fst (std_timer_create orc rs_init) = TTimer m th.
Proof. intros H. unfold std_timer_create, acquire. cbn. repeat (rewrite H by lia; cbn). eauto. Qed.
Theorem win_timer_success orc : (forall n, n < 2 -> orc n = true) -> exists m e, fst (win_timer_create orc rs_init) = TTimer m e.
Proof. intros H. unfold win_timer_create, acquire. cbn. repeat (rewrite H by lia; cbn). eauto. Qed.
Theorem std_timer_crash : ~ (forall orc, fst (std_timer_create orc rs_init) <> Crash).
Proof. intros H. apply (H (fun n => negb (n =? 1))). reflexivity. Qed.
Theorem win_timer_crash : ~ (forall orc, fst (win_timer_create orc rs_init) <> Crash).
Proof. intros H. apply (H (fun n => negb (n =? 1))). reflexivity. Qed.
Lemma live_count tr L : live tr L -> length (filter (fun e => match e with Acq _ _ => true | _ => false end) tr) = length L + length (filter (fun e => match e with Rel _ _ => true | _ => false end) tr).
Proof.
  intros H. induction H as [|tr L k id H IH N|tr L k id L' H IH P B]; [reflexivity| |]; rewrite !filter_app, !app_length; cbn; [lia|].
  apply Permutation_length in P. cbn in P. lia.
Qed.
Theorem std_timer_leak : ~ (forall orc s, std_timer_create orc rs_init = (TNull, s) -> live (rs_tr s) []).
Proof.
  intros H. specialize (H (fun n => negb (n =? 3)) _ eq_refl). apply live_count in H. cbn in H. lia.
Qed.

(** * the lock *)
Lemma agent_eqb_spec a b : reflect (a = b) (agent_eqb a b).
Proof.
  destruct a as [x|x], b as [y|y]; cbn; try (constructor; congruence); destruct (Nat.eqb_spec x y); constructor; congruence.
Qed.
Lemma aupd_same f a q : aupd f a q a = q. Proof. unfold aupd. destruct (agent_eqb_spec a a); congruence. Qed.
Lemma aupd_other f a q b : b <> a -> aupd f a q b = f b. Proof. unfold aupd. destruct (agent_eqb_spec b a); congruence. Qed.
Lemma aupd_eq f a q b : aupd f a q b = if agent_eqb b a then q else f b. Proof. reflexivity. Qed.
Lemma nupd_eq {A} (f : nat -> A) x v y : nupd f x v y = if y =? x then v else f y. Proof. reflexivity. Qed.
Lemma exec_inv_lab {St Lab Ev : Type} (step : St -> Lab -> option (St * list Ev)) (I : St -> Prop) (P : Lab -> Prop) :
  (forall s l s' e, I s -> P l -> step s l = Some (s', e) -> I s') ->
  forall ls s s' es, I s -> (forall l, In l ls -> P l) -> exec step s ls = Some (s', es) -> I s'.
Proof.
  intros HI. induction ls as [|l ls IH]; intros s s' es H HP E; cbn in E; [injection E as <- <-; exact H|].
  destruct (step s l) as [[s1 e1]|] eqn:E1; [|discriminate]. destruct (exec step s1 ls) as [[s2 e2]|] eqn:E2; [|discriminate]. injection E as <- <-.
  apply (IH s1 s2 e2); [exact (HI s l s1 e1 H (HP l (or_introl eq_refl)) E1)|intros x X; apply HP; now right|exact E2].
Qed.

Section G.
Variable win : bool.
Definition gcs (q : gpc) : bool := match q with GNew | GDel _ | GUnl => true | GWait _ => win | _ => false end.
(** the timer an agent destroys and its stage *)
Definition gob (q : gpc) : option (nat * gstage) :=
  match q with
  | GWait x => Some (x, TDying)
  | GLockD x => Some (x, if win then TDying else TEnded)
  | GDel x => Some (x, TEnded)
  | _ => None
  end.
Record ginv (s : gst) : Prop := {
  gi_lock : forall a, gcs (g_pc s a) = true <-> g_lock s = Some a;
  gi_cb : forall x, g_pc s (Cb x) <> GIdle -> g_run s x = true;
  gi_st : forall a x b, gob (g_pc s a) = Some (x, b) -> g_st s x = b;
  gi_one : forall a a' x b b', gob (g_pc s a) = Some (x, b) -> gob (g_pc s a') = Some (x, b') -> a = a';
  gi_run : forall x, g_run s x = true -> g_st s x = TLive \/ g_st s x = TDying
}.
Lemma ginv_init : ginv g_init.
Proof. constructor; cbn; try congruence; try tauto. intros a. split; congruence. Qed.
Lemma gob_dying q x b : gob q = Some (x, b) -> b = TDying \/ b = TEnded.
Proof. destruct q; cbn; try discriminate; intros [= _ <-]; auto. now destruct win; auto. Qed.
(** an agent moves *)
Lemma ginv_move s s' a q :
  ginv s -> g_pc s' = aupd (g_pc s) a q -> g_run s' = g_run s ->
  (gcs (g_pc s a) = false -> gcs q = true -> g_lock s = None) ->
  g_lock s' = (if gcs q then Some a else if gcs (g_pc s a) then None else g_lock s) ->
  (forall x, a = Cb x -> g_run s x = true) ->
  (forall x b, gob q = Some (x, b) -> g_st s' x = b) ->
  (forall x, (forall b, gob q <> Some (x, b)) -> (forall b, gob (g_pc s a) <> Some (x, b)) -> g_st s' x = g_st s x \/ g_st s x = TNone /\ g_st s' x = TLive) ->
  (forall x b, gob q = Some (x, b) -> (exists b', gob (g_pc s a) = Some (x, b')) \/ g_st s x = TLive) ->
  (forall x, g_run s x = true -> g_st s' x = TLive \/ g_st s' x = TDying) ->
  ginv s'.
Proof.
  intros I EP ER LK EL CB S1 S2 S3 RU.
  assert (OT : forall c x b, c <> a -> gob (g_pc s c) = Some (x, b) -> (forall b', gob (g_pc s a) <> Some (x, b')) /\ (forall b', gob q <> Some (x, b'))).
  { intros c x b N H. assert (A : forall b', gob (g_pc s a) <> Some (x, b')) by (intros b' B; apply N; exact (gi_one s I _ _ _ _ _ H B)). split; [exact A|].
    intros b' B. destruct (S3 x b' B) as [(d & D)|D]; [now apply (A d)|]. rewrite (gi_st s I _ _ _ H) in D. destruct (gob_dying _ _ _ H); congruence. }
  constructor.
  - intros c. rewrite EP, EL, aupd_eq. destruct (agent_eqb_spec c a) as [->|N].
    + destruct (gcs q) eqn:Q; [tauto|]. split; [discriminate|]. destruct (gcs (g_pc s a)) eqn:P; [discriminate|]. intros H. apply (gi_lock s I) in H. congruence.
    + rewrite (gi_lock s I). destruct (gcs q) eqn:Q.
      * destruct (gcs (g_pc s a)) eqn:P; [apply (gi_lock s I) in P; rewrite P; split; congruence|]. rewrite LK by auto. split; congruence.
      * destruct (gcs (g_pc s a)) eqn:P; [|tauto]. apply (gi_lock s I) in P. rewrite P. split; congruence.
  - intros x. rewrite EP, ER, aupd_eq. destruct (agent_eqb_spec (Cb x) a) as [E|N]; [intros _; now apply CB|apply (gi_cb s I)].
  - intros c x b. rewrite EP, aupd_eq. destruct (agent_eqb_spec c a) as [->|N]; [apply S1|]. intros H. destruct (OT c x b N H) as (A & B).
    destruct (S2 x B A) as [X|(X & _)]; [rewrite X; exact (gi_st s I _ _ _ H)|]. rewrite (gi_st s I _ _ _ H) in X. destruct (gob_dying _ _ _ H); congruence.
  - intros c d x b b'. rewrite EP, !aupd_eq. destruct (agent_eqb_spec c a) as [->|N]; destruct (agent_eqb_spec d a) as [->|N']; auto.
    + intros A B. destruct (OT d x b' N' B) as (_ & X). now elim (X b).
    + intros A B. destruct (OT c x b N A) as (_ & X). now elim (X b').
    + apply (gi_one s I).
  - intros x. rewrite ER. apply RU.
Qed.
Lemma cb_of s a : ginv s -> g_pc s a <> GIdle -> forall x, a = Cb x -> g_run s x = true.
Proof. intros I H x ->. now apply (gi_cb s I). Qed.
Lemma holder s a : ginv s -> gcs (g_pc s a) = true -> g_lock s = Some a.
Proof. intros I H. now apply (gi_lock s I). Qed.
Ltac stg x y := destruct (Nat.eqb_spec y x) as [->|].
Lemma ginv_step s l s' e : ginv s -> g_step win s l = Some (s', e) -> ginv s'.
Proof.
  intros I E. pose proof (gi_run s I) as RU. destruct l as [a c|a|a x|x|x]; cbn beta iota delta [g_step] in E.
  - destruct (g_pc s a) eqn:EA; try discriminate. destruct (can_call s a) eqn:CC; [|discriminate].
    assert (CB : forall x, a = Cb x -> g_run s x = true) by (intros x ->; exact CC).
    destruct c as [|x].
    + injection E as <- <-. eapply (ginv_move s _ a GLockC); [exact I|reflexivity|reflexivity|..]; rewrite ?EA; cbn; auto; try discriminate.
    + destruct (g_st s x) eqn:SX; try discriminate. injection E as <- <-.
      assert (Q : forall q, q = (if win then GLockD x else GWait x) -> gob q = Some (x, TDying) /\ gcs q = false).
      { intros q ->. unfold gob, gcs. now destruct win. }
      set (q := if win then GLockD x else GWait x) in *. destruct (Q q eq_refl) as (Q1 & Q2). clearbody q.
      eapply (ginv_move s _ a q); [exact I|reflexivity|reflexivity|..]; rewrite ?EA, ?Q1, ?Q2; cbn; auto; try discriminate.
      * intros y b [= <- <-]. rewrite nupd_eq, Nat.eqb_refl. reflexivity.
      * intros y H _. left. rewrite nupd_eq. stg x y; [now elim (H TDying)|reflexivity].
      * intros y b [= <- <-]. auto.
      * intros y H. rewrite nupd_eq. stg x y; auto.
  - destruct (g_pc s a) as [| | |x|x|x| |] eqn:EA; try discriminate; (assert (CB : forall y, a = Cb y -> g_run s y = true) by (apply (cb_of s a I); rewrite EA; discriminate)).
    + destruct (g_lock s) eqn:L; [discriminate|]. injection E as <- <-. eapply (ginv_move s _ a GNew); [exact I|reflexivity|reflexivity|..]; rewrite ?EA; cbn; auto; try discriminate.
    + injection E as <- <-. eapply (ginv_move s _ a GUnl); [exact I|reflexivity|reflexivity|..]; rewrite ?EA; cbn; auto; try discriminate. apply holder; [exact I|now rewrite EA].
    + destruct (g_run s x) eqn:RX; [discriminate|]. injection E as <- <-.
      assert (SX : g_st s x = TDying) by (apply (gi_st s I a); now rewrite EA).
      assert (Q : forall q, q = (if win then GDel x else GLockD x) -> gob q = Some (x, TEnded) /\ gcs q = win).
      { intros q ->. unfold gob, gcs. now destruct win. }
      set (q := if win then GDel x else GLockD x) in *. destruct (Q q eq_refl) as (Q1 & Q2). clearbody q.
      eapply (ginv_move s _ a q); [exact I|reflexivity|reflexivity|..]; rewrite ?EA, ?Q1, ?Q2; cbn; auto.
      * congruence.
      * destruct win eqn:W; [|reflexivity]. apply holder; [exact I|rewrite EA; unfold gcs; now rewrite W].
      * intros y b [= <- <-]. rewrite nupd_eq, Nat.eqb_refl. reflexivity.
      * intros y H _. left. rewrite nupd_eq. stg x y; [now elim (H TEnded)|reflexivity].
      * intros y b [= <- <-]. eauto.
      * intros y H. rewrite nupd_eq. stg x y; [congruence|auto].
    + destruct (g_lock s) eqn:L; [discriminate|]. injection E as <- <-.
      assert (SX : g_st s x = if win then TDying else TEnded) by (apply (gi_st s I a); now rewrite EA).
      assert (Q : forall q, q = (if win then GWait x else GDel x) -> gob q = Some (x, if win then TDying else TEnded) /\ gcs q = true).
      { intros q ->. unfold gob, gcs. now destruct win. }
      set (q := if win then GWait x else GDel x) in *. destruct (Q q eq_refl) as (Q1 & Q2). clearbody q.
      eapply (ginv_move s _ a q); [exact I|reflexivity|reflexivity|..]; rewrite ?EA, ?Q1, ?Q2; cbn; auto.
      * intros y b [= <- <-]. exact SX.
      * intros y b [= <- <-]. eauto.
    + injection E as <- <-. assert (SX : g_st s x = TEnded) by (apply (gi_st s I a); now rewrite EA).
      eapply (ginv_move s _ a GUnl); [exact I|reflexivity|reflexivity|..]; rewrite ?EA; cbn; auto; try discriminate.
      * apply holder; [exact I|now rewrite EA].
      * intros y _ H. left. rewrite nupd_eq. stg x y; [now elim (H TEnded)|reflexivity].
      * intros y H. rewrite nupd_eq. stg x y; [|auto]. destruct (RU x H); congruence.
    + injection E as <- <-. eapply (ginv_move s _ a GRet); [exact I|reflexivity|reflexivity|..]; rewrite ?EA; cbn; auto; try discriminate.
    + injection E as <- <-. eapply (ginv_move s _ a GIdle); [exact I|reflexivity|reflexivity|..]; rewrite ?EA; cbn; auto; try discriminate.
  - destruct (g_pc s a) eqn:EA; try discriminate. assert (CB : forall y, a = Cb y -> g_run s y = true) by (apply (cb_of s a I); rewrite EA; discriminate).
    destruct (g_st s x) eqn:SX; try discriminate. injection E as <- <-.
    eapply (ginv_move s _ a GUnl); [exact I|reflexivity|reflexivity|..]; rewrite ?EA; cbn; auto; try discriminate.
    + apply holder; [exact I|now rewrite EA].
    + intros y _ _. rewrite nupd_eq. stg x y; auto.
    + intros y H. rewrite nupd_eq. stg x y; auto.
  - assert (X : (g_st s x = TLive \/ g_st s x = TDying) /\ g_run s x = false /\ s' = mkG (g_lock s) (g_st s) (nupd (g_run s) x true) (g_pc s)).
    { destruct (g_st s x); try discriminate; (destruct (g_run s x); [discriminate|]; injection E as <- <-; auto). }
    destruct X as (X & _ & ->). destruct I as [A B C D F]. constructor; cbn; auto.
    + intros y H. rewrite nupd_eq. stg x y; auto.
    + intros y. rewrite nupd_eq. stg x y; auto.
  - destruct (g_pc s (Cb x)) eqn:EC; try discriminate. destruct (g_run s x) eqn:RX; [|discriminate]. injection E as <- <-.
    destruct I as [A B C D F]. constructor; cbn; auto.
    + intros y H. rewrite nupd_eq. stg x y; [congruence|auto].
    + intros y. rewrite nupd_eq. stg x y; [discriminate|auto].
Qed.
Lemma ginv_exec ls s es : exec (g_step win) g_init ls = Some (s, es) -> ginv s.
Proof. exact (exec_inv_st _ _ _ (g_step win) ginv ginv_step ls g_init s es ginv_init). Qed.
Theorem g_no_callback_after_delete ls s es x : exec (g_step win) g_init ls = Some (s, es) -> g_run s x = true -> g_st s x = TLive \/ g_st s x = TDying.
Proof. intros E. exact (gi_run s (ginv_exec ls s es E) x). Qed.

(** bounded work *)
Definition gm (q : gpc) : nat := match q with GIdle => 0 | GRet => 1 | GUnl => 2 | GNew => 3 | GDel _ => 3 | GLockC => 5 | GWait _ => if win then 4 else 5 | GLockD _ => if win then 5 else 4 end.
Definition g_own (l : glab) : bool := match l with WStep _ | WNew _ _ => true | _ => false end.
Lemma g_decr s l s' e : g_own l = true -> g_step win s l = Some (s', e) -> exists a q, g_pc s' = aupd (g_pc s) a q /\ gm q < gm (g_pc s a).
Proof.
  intros O E. destruct l as [a c|a|a x|x|x]; try discriminate; cbn beta iota delta [g_step] in E; exists a.
  - destruct (g_pc s a) as [| | |x|x|x| |] eqn:EA; try discriminate.
    + destruct (g_lock s); [discriminate|]. injection E as <- <-. eexists. split; [reflexivity|]. cbn; lia.
    + injection E as <- <-. eexists. split; [reflexivity|]. cbn; lia.
    + destruct (g_run s x); [discriminate|]. injection E as <- <-. eexists. split; [reflexivity|]. unfold gm. destruct win; lia.
    + destruct (g_lock s); [discriminate|]. injection E as <- <-. eexists. split; [reflexivity|]. unfold gm. destruct win; lia.
    + injection E as <- <-. eexists. split; [reflexivity|]. cbn; lia.
    + injection E as <- <-. eexists. split; [reflexivity|]. cbn; lia.
    + injection E as <- <-. eexists. split; [reflexivity|]. cbn; lia.
  - destruct (g_pc s a) eqn:EA; try discriminate. destruct (g_st s x); try discriminate. injection E as <- <-. eexists. split; [reflexivity|]. cbn; lia.
Qed.
Lemma g_env_pc s l s' e : g_own l = false -> (forall a c, l <> WCall a c) -> g_step win s l = Some (s', e) -> g_pc s' = g_pc s.
Proof.
  intros O N E. destruct l as [a c|a|a x|x|x]; try discriminate; [now elim (N a c)| |]; cbn beta iota delta [g_step] in E.
  - destruct (g_st s x); try discriminate; (destruct (g_run s x); [discriminate|]; now injection E as <- <-).
  - destruct (g_pc s (Cb x)) eqn:P; try discriminate. destruct (g_run s x); [|discriminate]. now injection E as <- <-.
Qed.
Definition below (n : nat) (a : agent) : Prop := match a with Cl t => t < n | Cb x => x < n end.
Theorem g_bounded n : forall ls s s' es, (forall a, ~ below n a -> g_pc s a = GIdle) -> (forall l, In l ls -> forall a c, l <> WCall a c) ->
  exec (g_step win) s ls = Some (s', es) -> length (filter g_own ls) <= 2 * n * 5.
Proof.
  set (m := fun s => sumn (fun t => gm (g_pc s (Cl t))) n + sumn (fun x => gm (g_pc s (Cb x))) n).
  assert (H : forall ls s s' es, (forall a, ~ below n a -> g_pc s a = GIdle) -> (forall l, In l ls -> forall a c, l <> WCall a c) -> exec (g_step win) s ls = Some (s', es) ->
    length (filter g_own ls) + m s' <= m s).
  { induction ls as [|l ls IH]; intros s s' es ID NC E; cbn in E.
    - injection E as <- <-. cbn. lia.
    - destruct (g_step win s l) as [[s1 e1]|] eqn:E1; [|discriminate]. destruct (exec (g_step win) s1 ls) as [[s2 e2]|] eqn:E2; [|discriminate]. injection E as <- <-.
      assert (NC' : forall l0, In l0 ls -> forall a c, l0 <> WCall a c) by (intros l0 H; apply NC; now right).
      cbn [filter]. destruct (g_own l) eqn:O.
      + destruct (g_decr s l s1 e1 O E1) as (a & q & ET & D).
        assert (T : below n a). { destruct a as [t|t]; cbn; (destruct (Nat.lt_ge_cases t n) as [X|X]; [exact X|]); rewrite ID in D; cbn in *; lia. }
        assert (ID' : forall b, ~ below n b -> g_pc s1 b = GIdle). { intros b B. rewrite ET, aupd_other; [now apply ID|]. intros ->. contradiction. }
        specialize (IH s1 s2 e2 ID' NC' E2). cbn [length].
        assert (m s1 < m s); [|lia]. unfold m. destruct a as [t|t]; cbn in T.
        * pose proof (sumn_change n (fun u => gm (g_pc s (Cl u))) (fun u => gm (g_pc s1 (Cl u))) t T) as C. cbn beta in C. rewrite ET, aupd_same in C.
          assert (X : forall u, u <> t -> gm (aupd (g_pc s) (Cl t) q (Cl u)) = gm (g_pc s (Cl u))) by (intros u U; rewrite aupd_other; congruence). specialize (C X).
          rewrite ET. rewrite (sumn_ext n (fun x => gm (aupd (g_pc s) (Cl t) q (Cb x))) (fun x => gm (g_pc s (Cb x)))) by (intros; rewrite aupd_other; congruence). lia.
        * pose proof (sumn_change n (fun u => gm (g_pc s (Cb u))) (fun u => gm (g_pc s1 (Cb u))) t T) as C. cbn beta in C. rewrite ET, aupd_same in C.
          assert (X : forall u, u <> t -> gm (aupd (g_pc s) (Cb t) q (Cb u)) = gm (g_pc s (Cb u))) by (intros u U; rewrite aupd_other; congruence). specialize (C X).
          rewrite ET. rewrite (sumn_ext n (fun x => gm (aupd (g_pc s) (Cb t) q (Cl x))) (fun x => gm (g_pc s (Cl x)))) by (intros; rewrite aupd_other; congruence). lia.
      + pose proof (g_env_pc s l s1 e1 O (NC l (or_introl eq_refl)) E1) as PC.
        assert (ID' : forall b, ~ below n b -> g_pc s1 b = GIdle) by (intros b B; rewrite PC; now apply ID).
        specialize (IH s1 s2 e2 ID' NC' E2). replace (m s) with (m s1) by (unfold m; now rewrite PC). exact IH. }
  intros ls s s' es ID NC E. specialize (H ls s s' es ID NC E).
  assert (B : forall q, gm q <= 5) by (intros q; unfold gm; destruct q, win; lia).
  assert (m s <= 2 * n * 5). { unfold m. pose proof (sumn_bound n (fun t => gm (g_pc s (Cl t))) 5). pose proof (sumn_bound n (fun t => gm (g_pc s (Cb t))) 5). assert (G : forall f, (forall k, k < n -> gm (f k) <= 5)) by auto. specialize (H0 (G (fun t => g_pc s (Cl t)))). specialize (H1 (G (fun t => g_pc s (Cb t)))). lia. }
  lia.
Qed.
End G.

(** ** StdCpp: destroy waits before it takes the lock *)
Section Std.
Lemma std_stuck_shape s : ginv false s -> g_stuck false s -> forall a, g_pc s a = GIdle \/ exists x, g_pc s a = GWait x /\ g_run s x = true.
Proof.
  intros I ST. assert (L : g_lock s = None).
  { destruct (g_lock s) as [b|] eqn:L; [|reflexivity]. apply (gi_lock false s I) in L. pose proof (ST (WStep b)) as A. cbn beta iota delta [g_step] in A.
    destruct (g_pc s b); cbn in L; discriminate. }
  intros a. pose proof (ST (WStep a)) as A. cbn beta iota delta [g_step] in A. rewrite L in A. destruct (g_pc s a) as [| | |x|x|x| |]; try discriminate; auto.
  destruct (g_run s x) eqn:R; [|discriminate]. right. eauto.
Qed.
Lemma std_stuck_run s : ginv false s -> g_stuck false s -> forall x, g_run s x = true -> exists y, g_pc s (Cb x) = GWait y /\ g_run s y = true.
Proof.
  intros I ST x R. destruct (std_stuck_shape s I ST (Cb x)) as [H|H]; [|exact H]. pose proof (ST (WEnd x)) as A. cbn beta iota delta [g_step] in A. rewrite H, R in A. discriminate.
Qed.
Fixpoint chain (s : gst) (x n : nat) : nat := match n with 0 => x | S k => match g_pc s (Cb (chain s x k)) with GWait y => y | _ => 0 end end.
Lemma chain_run s x : ginv false s -> g_stuck false s -> g_run s x = true -> forall n, g_run s (chain s x n) = true /\ g_pc s (Cb (chain s x n)) = GWait (chain s x (S n)).
Proof.
  intros I ST R n. assert (A : g_run s (chain s x n) = true).
  { induction n as [|n IH]; [exact R|]. cbn. destruct (std_stuck_run s I ST _ IH) as (y & Y & RY). now rewrite Y. }
  split; [exact A|]. cbn. destruct (std_stuck_run s I ST _ A) as (y & Y & _). now rewrite Y.
Qed.
(** if nothing can move, whoever waits waits for a circle of callbacks that destroy each other's timers *)
Theorem std_stuck_chain ls s es : exec (g_step false) g_init ls = Some (s, es) -> g_stuck false s ->
  (forall a, g_pc s a = GIdle \/ exists c : nat -> nat, g_pc s a = GWait (c 0) /\ forall n, g_pc s (Cb (c n)) = GWait (c (S n))) /\
  (forall x, g_run s x = false \/ exists c : nat -> nat, c 0 = x /\ forall n, g_pc s (Cb (c n)) = GWait (c (S n))).
Proof.
  intros E ST. pose proof (ginv_exec false ls s es E) as I. split.
  - intros a. destruct (std_stuck_shape s I ST a) as [H|(x & H & R)]; [now left|right]. exists (chain s x). split; [exact H|]. intros n. apply (chain_run s x I ST R).
  - intros x. destruct (g_run s x) eqn:R; [right|now left]. exists (chain s x). split; [reflexivity|]. intros n. apply (chain_run s x I ST R).
Qed.
Definition rank_ok (rank : nat -> nat) (l : glab) : Prop := forall x y, l = WCall (Cb x) (GDestroy y) -> rank y < rank x.
Definition rinv (rank : nat -> nat) (s : gst) : Prop := forall x y, g_pc s (Cb x) = GWait y -> rank y < rank x.
Lemma rinv_step rank s l s' e : rinv rank s -> rank_ok rank l -> g_step false s l = Some (s', e) -> rinv rank s'.
Proof.
  intros I P E. assert (M : forall a q, (forall x y, a = Cb x -> q = GWait y -> rank y < rank x) -> forall x y, aupd (g_pc s) a q (Cb x) = GWait y -> rank y < rank x).
  { intros a q H x y. rewrite aupd_eq. destruct (agent_eqb_spec (Cb x) a) as [<-|N]; [intros Q; now apply (H x y)|apply I]. }
  destruct l as [a c|a|a x|x|x]; cbn beta iota delta [g_step] in E.
  - destruct (g_pc s a); try discriminate. destruct (can_call s a); [|discriminate]. destruct c as [|z].
    + injection E as <- <-. unfold rinv. cbn. apply M. discriminate.
    + destruct (g_st s z); try discriminate. injection E as <- <-. unfold rinv. cbn. apply M. intros x y -> [= <-]. now apply P.
  - destruct (g_pc s a) as [| | |x|x|x| |] eqn:EA; try discriminate.
    + destruct (g_lock s); [discriminate|]. injection E as <- <-. unfold rinv. cbn. apply M. discriminate.
    + injection E as <- <-. unfold rinv. cbn. apply M. discriminate.
    + destruct (g_run s x); [discriminate|]. injection E as <- <-. unfold rinv. cbn. apply M. discriminate.
    + destruct (g_lock s); [discriminate|]. injection E as <- <-. unfold rinv. cbn. apply M. discriminate.
    + injection E as <- <-. unfold rinv. cbn. apply M. discriminate.
    + injection E as <- <-. unfold rinv. cbn. apply M. discriminate.
    + injection E as <- <-. unfold rinv. cbn. apply M. discriminate.
  - destruct (g_pc s a); try discriminate. destruct (g_st s x); try discriminate. injection E as <- <-. unfold rinv. cbn. apply M. discriminate.
  - destruct (g_st s x); try discriminate; (destruct (g_run s x); [discriminate|]; injection E as <- <-; exact I).
  - destruct (g_pc s (Cb x)); try discriminate. destruct (g_run s x); [|discriminate]. injection E as <- <-. exact I.
Qed.
Theorem std_no_deadlock rank ls s es : exec (g_step false) g_init ls = Some (s, es) ->
  (forall x y, In (WCall (Cb x) (GDestroy y)) ls -> rank y < rank x) -> g_stuck false s -> g_quiet s.
Proof.
  intros E R ST. destruct (std_stuck_chain ls s es E ST) as (A & B).
  assert (RI : rinv rank s).
  { apply (exec_inv_lab (g_step false) (rinv rank) (rank_ok rank) (rinv_step rank) ls g_init s es); [intros x y H; discriminate| |exact E].
    intros l L x y ->. now apply R. }
  assert (NC : forall c : nat -> nat, ~ (forall n, g_pc s (Cb (c n)) = GWait (c (S n)))).
  { intros c H. assert (X : forall n, rank (c n) + n <= rank (c 0)).
    { induction n as [|n IH]; [lia|]. specialize (RI _ _ (H n)). lia. }
    specialize (X (S (rank (c 0)))). lia. }
  split.
  - intros a. destruct (A a) as [H|(c & _ & H)]; [exact H|]. now elim (NC c).
  - intros x. destruct (B x) as [H|(c & _ & H)]; [exact H|]. now elim (NC c).
Qed.
End Std.

(** ** Windows: destroy waits inside the lock *)
Definition no_cb_call (l : glab) : Prop := forall x c, l <> WCall (Cb x) c.
Lemma cb_idle_step win s l s' e : (forall x, g_pc s (Cb x) = GIdle) -> no_cb_call l -> g_step win s l = Some (s', e) -> forall x, g_pc s' (Cb x) = GIdle.
Proof.
  intros I P E.
  assert (M : forall a q, g_pc s a <> GIdle \/ (exists t, a = Cl t) -> forall x, aupd (g_pc s) a q (Cb x) = GIdle).
  { intros a q H x. rewrite aupd_other; [apply I|]. intros <-. destruct H as [H|(t & H)]; [now apply H, I|discriminate]. }
  destruct l as [a c|a|a x|x|x]; cbn beta iota delta [g_step] in E.
  - destruct a as [t|y]; [|now elim (P y c)]. destruct (g_pc s (Cl t)); try discriminate. destruct (can_call s (Cl t)); [|discriminate]. destruct c as [|z].
    + injection E as <- <-. cbn [g_pc]. apply M. eauto.
    + destruct (g_st s z); try discriminate. injection E as <- <-. cbn [g_pc]. apply M. eauto.
  - assert (NI : g_pc s a <> GIdle) by (intros H; rewrite H in E; discriminate). destruct (g_pc s a) as [| | |x|x|x| |] eqn:EA; try discriminate; try (now elim NI);
      (assert (NI' : g_pc s a <> GIdle \/ exists t, a = Cl t) by (left; rewrite EA; discriminate)).
    + destruct (g_lock s); [discriminate|]. injection E as <- <-. cbn [g_pc]. now apply M.
    + injection E as <- <-. cbn [g_pc]. now apply M.
    + destruct (g_run s x); [discriminate|]. injection E as <- <-. cbn [g_pc]. now apply M.
    + destruct (g_lock s); [discriminate|]. injection E as <- <-. cbn [g_pc]. now apply M.
    + injection E as <- <-. cbn [g_pc]. now apply M.
    + injection E as <- <-. cbn [g_pc]. now apply M.
    + injection E as <- <-. cbn [g_pc]. now apply M.
  - destruct (g_pc s a) eqn:EA; try discriminate. destruct (g_st s x); try discriminate. injection E as <- <-. cbn [g_pc]. apply M. left. rewrite EA. discriminate.
  - destruct (g_st s x); try discriminate; (destruct (g_run s x); [discriminate|]; injection E as <- <-; exact I).
  - destruct (g_pc s (Cb x)) eqn:EC; try discriminate. destruct (g_run s x); [|discriminate]. injection E as <- <-. exact I.
Qed.
Theorem win_no_deadlock ls s es : exec (g_step true) g_init ls = Some (s, es) -> (forall x c, ~ In (WCall (Cb x) c) ls) -> g_stuck true s -> g_quiet s.
Proof.
  intros E NC ST. pose proof (ginv_exec true ls s es E) as I.
  assert (CI : forall x, g_pc s (Cb x) = GIdle).
  { apply (exec_inv_lab (g_step true) (fun s => forall x, g_pc s (Cb x) = GIdle) no_cb_call (cb_idle_step true) ls g_init s es); [reflexivity| |exact E].
    intros l L x c ->. now apply (NC x c). }
  assert (RU : forall x, g_run s x = false).
  { intros x. pose proof (ST (WEnd x)) as A. cbn beta iota delta [g_step] in A. rewrite CI in A. destruct (g_run s x); [discriminate|reflexivity]. }
  split; [|exact RU]. assert (L : g_lock s = None).
  { destruct (g_lock s) as [b|] eqn:L; [|reflexivity]. apply (gi_lock true s I) in L. pose proof (ST (WStep b)) as A. cbn beta iota delta [g_step] in A.
    destruct (g_pc s b); cbn in L; try discriminate. rewrite RU in A. discriminate. }
  intros a. pose proof (ST (WStep a)) as A. cbn beta iota delta [g_step] in A. rewrite L in A. destruct (g_pc s a) as [| | |x|x|x| |]; try discriminate; auto.
  rewrite RU in A. discriminate.
Qed.
(** a callback that creates a timer while its own timer is being destroyed *)
Definition win_dead : list glab := [WCall (Cl 0) GCreate; WStep (Cl 0); WNew (Cl 0) 0; WStep (Cl 0); WStep (Cl 0); WFire 0; WCall (Cl 0) (GDestroy 0); WStep (Cl 0); WCall (Cb 0) GCreate].
Theorem win_deadlock : ~ (forall ls s es, exec (g_step true) g_init ls = Some (s, es) -> (forall x y, ~ In (WCall (Cb x) (GDestroy y)) ls) -> g_stuck true s -> g_quiet s).
Proof.
  intros H. specialize (H win_dead). destruct (exec (g_step true) g_init win_dead) as [[s es]|] eqn:E; [|vm_compute in E; discriminate].
  specialize (H s es eq_refl). vm_compute in E. injection E as <- <-.
  refine (False_rect _ _). match type of H with _ -> _ -> g_quiet ?x => assert (X : g_quiet x -> False) end.
  { intros (A & _). specialize (A (Cl 0)). discriminate. }
  apply X, H.
  - intros x y I. cbn in I. repeat (destruct I as [I|I]; [discriminate|]). exact I.
  - intros l. destruct l as [a c|a|a x|x|x]; auto; cbn.
    + destruct a as [[|t]|[|t]]; reflexivity.
    + destruct a as [[|t]|[|t]]; reflexivity.
    + destruct x as [|x]; reflexivity.
Qed.
