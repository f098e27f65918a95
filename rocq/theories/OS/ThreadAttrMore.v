(** More about OS/ThreadAttrModel.v: what follows from the invariants of ThreadAttrProofs.v *)
From Coq Require Import List ZArith Bool Arith Lia.
Import ListNotations.
From Verif Require Import Spec.Linear Spec.ThreadAttrSpec Spec.PrioritySpec OS.Sched OS.PriorityModel OS.PriorityProofs OS.ThreadAttrModel OS.ThreadAttrProofs OS.LinCheck.

Lemma In_history (t : nat) (c : acall) (es : list (event acall ares)) : In (Call t c) (history es) <-> In (Call t c) es.
Proof. unfold history. rewrite filter_In. cbn. tauto. Qed.
Lemma lin_mono {C R S} (p q : S -> nat -> C -> R -> S -> Prop) : (forall s t c r s', p s t c r s' -> q s t c r s') ->
  forall f s es f' s', lin_run p f s es f' s' -> lin_run q f s es f' s'.
Proof. intros H f s es f' s' L. induction L; econstructor; eauto. Qed.
Lemma sp_mono {C R S} (p q : S -> nat -> C -> R -> S -> Prop) : (forall s t c r s', p s t c r s' -> q s t c r s') ->
  forall s l s', sp_run p s l s' -> sp_run q s l s'.
Proof. intros H s l s' L. induction L; econstructor; eauto. Qed.

Ltac inv_step E :=
  repeat match type of E with
  | context [match ?c with _ => _ end] => is_var c; destruct c; try discriminate E
  | context [if ?c then _ else _] => let Q := fresh "Q" in destruct c eqn:Q; try discriminate E
  | context [match ?c with _ => _ end] => let Q := fresh "Q" in destruct c eqn:Q; try discriminate E
  end;
  injection E as <- <-.
Ltac cases E :=
  match type of E with a_step _ _ ?s ?l = _ => destruct l as [t c|t fail|t x]; cbn beta iota delta [a_step] in E; destruct (a_pc s t) eqn:ET; try discriminate end;
  inv_step E; try (match goal with c : acall |- _ => destruct c end); try (match goal with k : kont |- _ => destruct k end);
  try (match goal with k : option (Z * nat) |- _ => destruct k as [[? ?]|] end).

Section More.
  Variable pf : platform.
  Variable ext : nat -> bool.
  Notation step := (a_step pf ext).
  Notation spec := (attr_spec (pf_direct pf) (pf_normal pf)).
  Notation loose := (attr_spec_loose (pf_direct pf) (pf_normal pf)).

  Theorem a_linearizable ls s es : exec step a_init ls = Some (s, es) -> own_master (pf_direct pf) (history es) -> linearizable spec a_none (history es).
  Proof.
    intros E OM. destruct (a_reach pf ext true _ _ _ E) as (_ & H). destruct H as (_ & f & a & L & _).
    { intros _ t x p c H1 H2 H3. apply (OM t x p c); [now apply In_history|exact H2|now apply In_history]. }
    exists es, f, a. split; [reflexivity|]. eapply lin_mono; [|exact L]. apply bspec_true.
  Qed.
  Lemma bspec_false s t c r s' : bspec pf false s t c r s' -> loose s t c r s'.
  Proof.
    destruct c; cbn; auto.
    - destruct r; auto. intros (A & v & B & C). split; [exact A|]. exists v. split; [|exact C]. intros D. now rewrite D in B.
    - intros (o & v & A & B & C & D). exists o, v. split; [exact A|]. split; [exact B|]. split; [|exact D]. intros X. now rewrite X in C.
  Qed.
  Lemma a_loose ls s es : exec step a_init ls = Some (s, es) -> exists f a, lin_run loose (fun _ => Out) a_none es f a /\ aeq a (given_out s).
  Proof.
    intros E. destruct (a_reach pf ext false _ _ _ E) as (_ & H). destruct H as (_ & f & a & L & _ & A); [discriminate|].
    exists f, a. split; [|exact A]. eapply lin_mono; [|exact L]. apply bspec_false.
  Qed.
  Theorem a_linearizable_loose ls s es : exec step a_init ls = Some (s, es) -> linearizable loose a_none (history es).
  Proof. intros E. destruct (a_loose _ _ _ E) as (f & a & L & _). exists es, f, a. auto. Qed.

  (** the initial priority never changes *)
  Lemma loose_step s t c r s' x o : loose s t c r s' -> s x = Some o -> exists o', s' x = Some o' /\ at_init o' = at_init o.
  Proof.
    intros H O. destruct c; cbn in H.
    - destruct r; try tauto; [|exists o; now rewrite H]. destruct H as (A & v & B & C). exists o. rewrite C. unfold aset. destruct (Nat.eqb_spec x x0) as [K|K]; [congruence|auto].
    - destruct H as (o' & v & A & B & C & D). rewrite D. unfold aset. destruct (Nat.eqb_spec x x0) as [K|K]; [|eauto]. eexists. split; [reflexivity|]. cbn. congruence.
    - destruct H as (o' & A & B & C). rewrite C. eauto.
    - destruct H as (o' & A & B & C). rewrite C. eauto.
    - destruct H as (o' & A & B & C). rewrite C. unfold aset. destruct (Nat.eqb_spec x x0) as [K|K]; [|eauto]. eexists. split; [reflexivity|]. cbn. congruence.
    - destruct H as (o' & A & B & C). rewrite C. eauto.
  Qed.
  Lemma loose_run s l s' x o : sp_run loose s l s' -> s x = Some o ->
    (exists o', s' x = Some o' /\ at_init o' = at_init o) /\ (forall t r, In (t, AInit x, r) l -> r = RInt (at_init o)) /\ (forall t p n, ~ In (t, ACreate p n, RThread x) l).
  Proof.
    intros R. revert o. induction R as [s|s t c r s1 l s' SP R IH]; intros o O; [split; [eauto|]; split; [intros t r []|intros t p n []]|].
    destruct (loose_step _ _ _ _ _ _ _ SP O) as (o1 & O1 & O2). destruct (IH o1 O1) as (A & B & C). rewrite O2 in *. split; [exact A|]. split.
    - intros u q [H|H]; [|eauto]. injection H as -> -> ->. cbn in SP. destruct SP as (o' & X & Y & _). congruence.
    - intros u p n [H|H]; [|exact (C u p n H)]. injection H as -> -> ->. cbn in SP. destruct SP as (X & _). congruence.
  Qed.
  Lemma init_const s l s' x : sp_run loose s l s' -> forall t u r1 r2, In (t, AInit x, r1) l -> In (u, AInit x, r2) l -> r1 = r2.
  Proof.
    intros R. induction R as [s|s t c r s1 l s' SP R IH]; intros u v r1 r2 H1 H2; [destruct H1|].
    assert (G : forall o, s x = Some o -> r1 = r2).
    { intros o O. assert (R' : sp_run loose s ((t, c, r) :: l) s') by (econstructor; eauto). destruct (loose_run _ _ _ _ _ R' O) as (_ & B & _). rewrite (B _ _ H1), (B _ _ H2). reflexivity. }
    destruct H1 as [H1|H1]; [injection H1 as -> -> ->; cbn in SP; destruct SP as (o & O & _); eauto|].
    destruct H2 as [H2|H2]; [injection H2 as -> -> ->; cbn in SP; destruct SP as (o & O & _); eauto|]. eauto.
  Qed.
  Lemma init_created s l s' x : sp_run loose s l s' -> forall t u p n r, In (t, ACreate p n, RThread x) l -> In (u, AInit x, r) l -> pf_direct pf p = true -> r = RInt p.
  Proof.
    intros R. induction R as [s|s t c r s1 l s' SP R IH]; intros u v p n q H1 H2 D; [destruct H1|].
    destruct H1 as [H1|H1].
    - injection H1 as -> -> ->. destruct H2 as [H2|H2]; [discriminate|]. cbn in SP. destruct SP as (A & w & B & C). rewrite (B D) in C.
      assert (O : s1 x = Some (mkAttr p p n)) by (rewrite C; unfold aset; now rewrite Nat.eqb_refl). destruct (loose_run _ _ _ _ _ R O) as (_ & X & _). exact (X _ _ H2).
    - destruct H2 as [H2|H2]; [|eauto]. injection H2 as -> -> ->. exfalso. cbn in SP. destruct SP as (o & O & _ & C). rewrite <- C in O. destruct (loose_run _ _ _ _ _ R O) as (_ & _ & X). exact (X _ _ _ H1).
  Qed.
  Lemma created_once s l s' x : sp_run loose s l s' -> forall l1 l2 t p n u p' n', l = l1 ++ (t, ACreate p n, RThread x) :: l2 -> ~ In (u, ACreate p' n', RThread x) l2.
  Proof.
    intros R l1 l2 t p n u p' n' -> H. apply sp_run_app_inv in R. destruct R as (s1 & _ & R). inversion R as [|? ? ? ? s2 ? ? SP R2]; subst. cbn in SP. destruct SP as (A & v & B & C).
    assert (O : s2 x = Some (mkAttr v v n)) by (rewrite C; unfold aset; now rewrite Nat.eqb_refl). destruct (loose_run _ _ _ _ _ R2 O) as (_ & _ & X). exact (X _ _ _ H).
  Qed.
  Theorem a_initial_constant ls s es t u x r1 r2 : exec step a_init ls = Some (s, es) ->
    In (t, AInit x, r1) (effects es) -> In (u, AInit x, r2) (effects es) -> r1 = r2.
  Proof. intros E. destruct (a_loose _ _ _ E) as (f & a & L & _). apply lin_run_effects in L. apply (init_const _ _ _ _ L). Qed.
  Theorem a_initial_given ls s es t u x p n r : exec step a_init ls = Some (s, es) ->
    In (t, ACreate p n, RThread x) (effects es) -> In (u, AInit x, r) (effects es) -> pf_direct pf p = true -> r = RInt p.
  Proof. intros E. destruct (a_loose _ _ _ E) as (f & a & L & _). apply lin_run_effects in L. apply (init_created _ _ _ _ L). Qed.
  Theorem a_created_once ls s es x l1 l2 t p n u p' n' : exec step a_init ls = Some (s, es) ->
    effects es = l1 ++ (t, ACreate p n, RThread x) :: l2 -> ~ In (u, ACreate p' n', RThread x) l2.
  Proof. intros E. destruct (a_loose _ _ _ E) as (f & a & L & _). apply lin_run_effects in L. apply (created_once _ _ _ _ L). Qed.

  (** ** no data race *)
  Theorem a_race_free ls s es t u x : exec step a_init ls = Some (s, es) -> touches s t = Some x -> touches s u = Some x -> t = u.
  Proof.
    intros E. destruct (a_reach pf ext false _ _ _ E) as (I & _). clear E.
    assert (G : forall t, touches s t = Some x -> (holds t (a_pc s t) = Some x /\ a_pub s x = true) \/ (creating (a_pc s t) = Some x /\ a_pub s x = false)).
    { intros v H. pose proof (i_uses ext s I v) as US. pose proof (i_new ext s I v) as NW. unfold touches in H. destruct (a_pc s v); try discriminate; try (injection H as <-).
      - destruct k; [right; split; [reflexivity|apply (NW _ eq_refl)]|left; split; [reflexivity|apply US; reflexivity]].
      - left. split; [reflexivity|apply US; left; reflexivity].
      - destruct k; [left; split; [reflexivity|apply US; reflexivity]|right; split; [reflexivity|apply (NW _ eq_refl)]].
      - left. split; [reflexivity|apply US; reflexivity].
      - right; split; [reflexivity|apply (NW _ eq_refl)].
      - subst. right; split; [reflexivity|apply (NW _ eq_refl)]. }
    intros A B. destruct (G t A) as [(A1 & A2)|(A1 & A2)], (G u B) as [(B1 & B2)|(B1 & B2)]; try congruence.
    - apply (i_lock ext s I) in A1, B1. congruence.
    - exact (i_uniq ext s I _ _ _ A1 B1).
  Qed.

  (** ** m_prioMap.at never throws *)
  Definition fits : Prop := (forall p, pf_direct pf p = true -> pf_native pf p <> None) /\ pf_native pf (pf_normal pf) <> None.
  Definition okv (v : Z) : Prop := pf_direct pf v = true \/ v = pf_normal pf.
  Definition okpc (s : ast) (q : apc) : Prop :=
    match q with
    | PReadU _ v _ | PWriteL _ v _ | PWrite _ v _ => okv v
    | PNative x v k | PWriteU x v k => okv v /\ (knew k = true -> exists o, a_obj s x = Some o /\ at_prio o = v)
    | PInit x _ _ | PNewU x _ _ | PInsF x _ _ | PIns x _ _ => exists o, a_obj s x = Some o /\ okv (at_prio o)
    | PThrown _ => ~ fits
    | _ => True
    end.
  Definition okinv (s : ast) (es : list (event acall ares)) : Prop :=
    (forall x o, a_pub s x = true -> a_obj s x = Some o -> okv (at_prio o)) /\ (forall t, okpc s (a_pc s t)) /\
    (forall t x v, In (t, AGet x, RInt v) (effects es) -> okv v).
  Lemma okpc_frame s s' q : (forall x, creating q = Some x -> a_obj s' x = a_obj s x) -> okpc s q -> okpc s' q.
  Proof.
    intros H. destruct q; cbn; auto; try (destruct k; cbn; auto); cbn in H; try rewrite (H _ eq_refl); auto.
    all: intros (A & B); split; [exact A|]; discriminate.
  Qed.
  Lemma okv_fits v : fits -> okv v -> pf_native pf v <> None.
  Proof. intros (A & B) [H| ->]; auto. Qed.
  Lemma okinv_step s es l s' e : ainv ext s -> okinv s es -> step s l = Some (s', e) -> okinv s' (es ++ e).
  Proof.
    intros I (OB & PC & EF) E. pose proof (i_uses ext s I (mover l)) as US. pose proof (i_new ext s I (mover l)) as NW. pose proof (PC (mover l)) as PM.
    assert (NEW : (forall x o, a_pub s' x = true -> a_obj s' x = Some o -> okv (at_prio o)) /\ okpc s' (a_pc s' (mover l)) /\ forall t x v, In (t, AGet x, RInt v) (effects e) -> okv v).
    { cases E; cbn [mover] in *; rewrite ET in *; cbn [creating] in NW; cbn [okpc] in PM; cbn [go lock_go fac_go obj_go pub_go os_go a_pc]; rewrite fupd_same.
      all: split; [intros y o; cbn [go lock_go fac_go obj_go pub_go os_go a_pub a_obj]; rewrite ?fupd_eq; try apply OB|].
      all: try (destruct (Nat.eqb_spec y x) as [K|K]; [rewrite K in *|apply OB]).
      all: try (destruct (Nat.eqb_spec y n) as [K|K]; [rewrite K in *|apply OB]).
      all: try (destruct (NW _ eq_refl) as (A1 & A2 & A3); rewrite A2; discriminate).
      all: try (intros P H; injection H as <-; cbn [at_prio]; eauto; fail).
      all: try (split; [cbn; auto; fail|intros ? ? ? []]; fail).
      all: try (split; [cbn; auto; fail|cbn; intros ? ? ? [H|H]; [discriminate|destruct H]]; fail).
      - split; [cbn; left; assumption|intros ? ? ? []].
      - split; [cbn; left; assumption|intros ? ? ? []].
      - split; [cbn; now right|intros ? ? ? []].
      - split; [cbn; now right|intros ? ? ? []].
      - split; [cbn; eapply OB; [apply US; left; reflexivity|eassumption]|intros ? ? ? []].
      - split; [cbn; eapply OB; [apply US; left; reflexivity|eassumption]|intros ? ? ? []].
      - split; [cbn; split; [exact PM|discriminate]|cbn; intros ? ? ? [H|H]; [discriminate|destruct H]].
      - split; [cbn; split; [exact PM|]|intros ? ? ? []]. intros _. rewrite fupd_same. eauto.
      - split; [|intros ? ? ? []]. cbn. intros F. exact (okv_fits _ F (proj1 PM) Q).
      - split; [|intros ? ? ? []]. cbn. intros F. exact (okv_fits _ F (proj1 PM) Q).
      - split; [|intros ? ? ? []]. cbn. destruct PM as (A & B). destruct (B eq_refl) as (o & O1 & O2). exists o. split; [exact O1|congruence].
      - split; [exact Logic.I|]. destruct w; cbn; intros ? ? ? [H|[]]; try discriminate. injection H as _ <- <-. eapply OB; [apply US; reflexivity|eassumption].
      - split; [|intros ? ? ? []]. cbn. destruct PM as (o & O1 & O2). rewrite fupd_same. eexists. split; [reflexivity|]. cbn. congruence.
      - destruct PM as (o' & O1 & O2). congruence.
      - intros P. apply andb_true_iff in Q. destruct (a_obj s x) eqn:O; [destruct Q; discriminate|]. destruct (i_pub ext s I x P O). }
    destruct NEW as (N1 & N2 & N3). split; [exact N1|]. split.
    - intros u. destruct (Nat.eq_dec u (mover l)) as [->|N]; [exact N2|]. rewrite (pc_step pf ext _ _ _ _ E u N). apply (okpc_frame s); [|apply PC].
      intros x. exact (obj_same pf ext _ _ _ _ I E u x N).
    - intros u x v. unfold effects. rewrite flat_map_app, in_app_iff. intros [H|H]; [exact (EF u x v H)|exact (N3 u x v H)].
  Qed.
  Lemma ok_reach ls s es : exec step a_init ls = Some (s, es) -> ainv ext s /\ okinv s es.
  Proof.
    intros E. refine (exec_inv _ _ _ step (fun s es => ainv ext s /\ okinv s es) _ ls a_init [] s es (conj (ainv_init ext) _) E).
    - intros s0 es0 l s1 e1 (A & B) E1. split; [exact (ainv_step pf ext _ _ _ _ A E1)|exact (okinv_step _ _ _ _ _ A B E1)].
    - split; [intros x o H; discriminate|]. split; [intros t; exact Logic.I|intros t x v []].
  Qed.
  Theorem a_never_throws ls s es t x : fits -> exec step a_init ls = Some (s, es) -> a_pc s t <> PThrown x.
  Proof. intros F E H. destruct (ok_reach _ _ _ E) as (_ & _ & PC & _). specialize (PC t). rewrite H in PC. exact (PC F). Qed.
  Theorem a_get_valid ls s es t x v : exec step a_init ls = Some (s, es) -> In (t, AGet x, RInt v) (effects es) -> pf_direct pf v = true \/ v = pf_normal pf.
  Proof. intros E. destruct (ok_reach _ _ _ E) as (_ & _ & _ & EF). apply EF. Qed.

  (** ** the operating system's priority *)
  Definition has (s : ast) (t x : nat) : Prop := holds t (a_pc s t) = Some x \/ creating (a_pc s t) = Some x.
  Lemma holds_uses t q x : holds t q = Some x -> uses t q x \/ creating q = Some x.
  Proof.
    destruct q; cbn; try discriminate; intros H; injection H as <-; auto; try (destruct k as [[? ?]|]; auto); try (destruct k; auto).
  Qed.
  Lemma excl s t u x : ainv ext s -> has s t x -> has s u x -> t = u.
  Proof.
    intros I A B. destruct (Nat.eq_dec t u) as [K|K]; [exact K|exfalso].
    assert (X : forall v w, v <> w -> holds v (a_pc s v) = Some x -> creating (a_pc s w) = Some x -> False).
    { intros v w N H C. destruct (i_new ext s I w x C) as (_ & P & _). destruct (holds_uses _ _ _ H) as [U|U]; [rewrite (i_uses ext s I v x U) in P; discriminate|exact (N (i_uniq ext s I v w x U C))]. }
    destruct A as [A|A], B as [B|B].
    - apply (i_lock ext s I) in A, B. congruence.
    - eapply X; eauto.
    - eapply X; [|exact B|exact A]. auto.
    - exact (K (i_uniq ext s I t u x A B)).
  Qed.
  Lemma kept s l s' e : ainv ext s -> step s l = Some (s', e) -> forall u x, u <> mover l -> has s u x -> a_obj s' x = a_obj s x /\ a_os s' x = a_os s x.
  Proof.
    intros I E u y N H.
    assert (D : forall x, (has s (mover l) x \/ a_obj s x = None) -> y <> x).
    { intros x [A|A] ->; [exact (N (excl s _ _ _ I H A))|]. destruct H as [H|H].
      - destruct (holds_uses _ _ _ H) as [U|U]; [exact (i_pub ext s I x (i_uses ext s I u x U) A)|exact (proj1 (i_new ext s I u x U) A)].
      - exact (proj1 (i_new ext s I u x H) A). }
    unfold has in D at 1. cases E; cbn [mover] in *; rewrite ET in *; cbn [go lock_go fac_go obj_go pub_go os_go a_obj a_os]; try (split; reflexivity).
    all: rewrite fupd_other; [split; reflexivity|]; apply D; cbn; auto.
    right. apply andb_true_iff in Q. destruct (a_obj s x); [destruct Q; discriminate|reflexivity].
  Qed.
  Definition ospc (s : ast) (q : apc) : Prop :=
    match q with
    | PNative x v _ => exists o, a_obj s x = Some o /\ at_prio o = v
    | PWriteU x v _ => exists o, a_obj s x = Some o /\ at_prio o = v /\ pf_native pf v = Some (a_os s x)
    | PInit x _ _ | PNewU x _ _ | PInsF x _ _ | PIns x _ _ => exists o, a_obj s x = Some o /\ pf_native pf (at_prio o) = Some (a_os s x)
    | _ => True
    end.
  Definition osinv (s : ast) : Prop :=
    (forall x o, a_pub s x = true -> a_obj s x = Some o -> pf_native pf (at_prio o) = Some (a_os s x) \/ exists u v k, a_pc s u = PNative x v k) /\
    (forall t, ospc s (a_pc s t)).
  Lemma ospc_frame s s' t : (forall x, has s t x -> a_obj s' x = a_obj s x /\ a_os s' x = a_os s x) -> ospc s (a_pc s t) -> ospc s' (a_pc s t).
  Proof.
    intros H. unfold has in H. destruct (a_pc s t); cbn in *; auto; destruct (H x (or_introl eq_refl)) as (A & B) || destruct (H x (or_intror eq_refl)) as (A & B); rewrite A, ?B; auto.
  Qed.
  Lemma ok_step s l s' e : a_step_ok pf ext s l = Some (s', e) -> step s l = Some (s', e) /\ forall t x v k, l = AStep t true -> a_pc s t <> PNative x v k.
  Proof.
    intros E. destruct l as [t c|t [|]|t x]; cbn [a_step_ok] in E; try (split; [exact E|intros; discriminate]).
    destruct (a_pc s t) eqn:ET; try discriminate; (split; [exact E|]); intros ? ? ? ? H; injection H as <-; congruence.
  Qed.
  Lemma osinv_step s es l s' e : fits -> ainv ext s -> okinv s es -> osinv s -> a_step_ok pf ext s l = Some (s', e) -> osinv s'.
  Proof.
    intros F I OK (OS & PC) E. apply ok_step in E. destruct E as (E & NF). pose proof (PC (mover l)) as PM. pose proof (proj1 (proj2 OK) (mover l)) as OM. pose proof (i_new ext s I (mover l)) as NW.
    assert (G : ospc s' (a_pc s' (mover l)) /\ forall x o, a_pub s' x = true -> a_obj s' x = Some o ->
              pf_native pf (at_prio o) = Some (a_os s' x) \/ (exists v k, a_pc s' (mover l) = PNative x v k) \/
              (a_pub s x = true /\ (exists o', a_obj s x = Some o' /\ at_prio o' = at_prio o) /\ a_os s' x = a_os s x /\ forall v k, a_pc s (mover l) <> PNative x v k)).
    { cases E; cbn [mover] in *; rewrite ET in *; cbn [creating] in NW; cbn [go lock_go fac_go obj_go pub_go os_go a_pc a_obj a_os a_pub]; rewrite fupd_same.
      all: try (exfalso; exact (NF _ _ _ _ eq_refl ET)).
      all: try (exfalso; exact (okv_fits _ F (proj1 OM) Q)).
      all: cbn [ospc] in PM.
      all: split; [try exact Logic.I|try (intros y o P O; right; right; split; [exact P|]; split; [eauto|]; split; [reflexivity|discriminate])].
      all: try (intros y o P O; rewrite ?fupd_eq in *; match type of O with (if Nat.eqb y ?z then _ else _) = _ =>
                  destruct (Nat.eqb_spec y z) as [K|K]; [rewrite K in *|right; right; split; [exact P|]; split; [eauto|]; split; [reflexivity|discriminate]] end).
      all: try (destruct (NW _ eq_refl) as (A1 & A2 & A3); rewrite A2 in P; discriminate).
      - injection O as <-. right; right. split; [exact P|]. split; [exists a; split; [assumption|reflexivity]|]. split; [reflexivity|discriminate].
      - cbn. rewrite fupd_same. eauto.
      - right; left. eauto.
      - cbn. rewrite fupd_same. eauto.
      - cbn. rewrite fupd_same. destruct PM as (o & O1 & O2). exists o. auto.
      - intros y o P O. rewrite fupd_eq. destruct (Nat.eqb_spec y x) as [K|K].
        + left. rewrite K in *. destruct PM as (o' & O1 & O2). congruence.
        + right; right. split; [exact P|]. split; [eauto|]. split; [reflexivity|congruence].
      - cbn. rewrite fupd_same. destruct PM as (o & O1 & O2). exists o. auto.
      - intros y o P O. rewrite fupd_eq. destruct (Nat.eqb_spec y x) as [K|K].
        + left. rewrite K in *. destruct PM as (o' & O1 & O2). congruence.
        + right; right. split; [exact P|]. split; [eauto|]. split; [reflexivity|congruence].
      - cbn. destruct PM as (o & O1 & O2 & O3). exists o. split; [exact O1|]. congruence.
      - cbn. rewrite fupd_same. destruct PM as (o & O1 & O2). eexists. split; [reflexivity|]. cbn. congruence.
      - exact PM.
      - exact PM.
      - intros y o P O. rewrite fupd_eq in P. destruct (Nat.eqb_spec y x) as [K|K]; [|right; right; split; [exact P|]; split; [eauto|]; split; [reflexivity|discriminate]].
        left. rewrite K in *. destruct PM as (o' & O1 & O2). congruence.
      - apply andb_true_iff in Q. destruct (a_obj s x) eqn:OX; [destruct Q; discriminate|]. destruct (i_pub ext s I x P OX). }
    destruct G as (G1 & G2). split.
    - intros x o P O. destruct (G2 x o P O) as [H|[(v & k & H)|(P0 & (o' & O1 & O2) & OSX & NN)]]; [now left|right; eauto|].
      destruct (OS x o' P0 O1) as [H|(u & v & k & H)]; [left; now rewrite OSX, <- O2|]. right. exists u, v, k.
      rewrite (pc_step pf ext _ _ _ _ E u); [exact H|]. intros ->. exact (NN v k H).
    - intros u. destruct (Nat.eq_dec u (mover l)) as [->|N]; [exact G1|]. rewrite (pc_step pf ext _ _ _ _ E u N). apply (ospc_frame s); [|apply PC].
      intros x. exact (kept _ _ _ _ I E u x N).
  Qed.
  Lemma os_reach ls s es : fits -> exec (a_step_ok pf ext) a_init ls = Some (s, es) -> ainv ext s /\ okinv s es /\ osinv s.
  Proof.
    intros F E. refine (exec_inv _ _ _ (a_step_ok pf ext) (fun s es => ainv ext s /\ okinv s es /\ osinv s) _ ls a_init [] s es (conj (ainv_init ext) _) E).
    - intros s0 es0 l s1 e1 (A & B & C) E1. pose proof (proj1 (ok_step _ _ _ _ E1)) as E2. split; [exact (ainv_step pf ext _ _ _ _ A E2)|]. split; [exact (okinv_step _ _ _ _ _ A B E2)|exact (osinv_step _ _ _ _ _ F A B C E1)].
    - split; [split; [intros x o H; discriminate|split; [intros t; exact Logic.I|intros t x v []]]|]. split; [intros x o H; discriminate|intros t; exact Logic.I].
  Qed.
  Theorem a_native ls s es x o : fits -> exec (a_step_ok pf ext) a_init ls = Some (s, es) -> given_out s x = Some o -> a_lock s x = None ->
    pf_native pf (at_prio o) = Some (a_os s x).
  Proof.
    intros F E O L. destruct (os_reach _ _ _ F E) as (I & _ & OS & _). unfold given_out in O. destruct (a_pub s x) eqn:P; [|discriminate].
    destruct (OS x o P O) as [H|(u & v & k & H)]; [exact H|]. assert (X : holds u (a_pc s u) = Some x) by now rewrite H. apply (i_lock ext s I) in X. congruence.
  Qed.

  (** ** the inherited priority was the caller's at some time during the call *)
  Definition captured (ls : list alab) (t : nat) (v : Z) : Prop :=
    exists ls1 ls2 s1 es1 s2 es2, ls = ls1 ++ ls2 /\ exec step a_init ls1 = Some (s1, es1) /\ exec step s1 ls2 = Some (s2, es2) /\
      (forall c, ~ In (Call t c) es2) /\ v = own_priority (pf_normal pf) (given_out s1) t.
  Definition cappc (ls : list alab) (t : nat) (q : apc) : Prop :=
    match q with PReadU _ v k | PWriteL _ v k | PWrite _ v k => pf_direct pf (arg k) = false -> captured ls t v | _ => True end.
  Lemma captured_more ls s es l s' e t v : exec step a_init ls = Some (s, es) -> step s l = Some (s', e) -> (forall c, ~ In (Call t c) e) -> captured ls t v -> captured (ls ++ [l]) t v.
  Proof.
    intros E E1 NC (ls1 & ls2 & s1 & es1 & s2 & es2 & -> & X1 & X2 & X3 & X4). exists ls1, (ls2 ++ [l]), s1, es1, s', (es2 ++ e).
    split; [now rewrite app_assoc|]. split; [exact X1|]. rewrite exec_app, X1, X2 in E. injection E as -> _. split; [rewrite exec_app, X2; cbn; rewrite E1; now rewrite app_nil_r|].
    split; [|exact X4]. intros c H. apply in_app_iff in H. destruct H as [H|H]; [exact (X3 c H)|exact (NC c H)].
  Qed.
  Lemma cap_reach ls : forall s es, exec step a_init ls = Some (s, es) -> forall u, cappc ls u (a_pc s u).
  Proof.
    induction ls as [|l ls IH] using rev_ind; intros s' es E u.
    - injection E as <- <-. exact Logic.I.
    - rewrite exec_app in E. destruct (exec step a_init ls) as [[s es0]|] eqn:E0; [|discriminate]. cbn in E. destruct (step s l) as [[s1 e1]|] eqn:E1; [|discriminate]. injection E as <- <-.
      specialize (IH _ _ eq_refl u). destruct (ok_reach _ _ _ E0) as (I & _). destruct (a_reach pf ext false _ _ _ E0) as (_ & DL). destruct DL as (DT & _); [discriminate|]. specialize (DT u).
      destruct (Nat.eq_dec u (mover l)) as [->|N].
      2:{ rewrite (pc_step pf ext _ _ _ _ E1 u N). assert (NC : forall c, ~ In (Call u c) e1).
          { intros c0. clear IH DT. cases E1; cbn in N |- *; intuition congruence. }
          destruct (a_pc s u); cbn [cappc] in IH |- *; auto; intros D; (eapply captured_more; [exact E0|exact E1|exact NC|exact (IH D)]). }
      assert (HERE : forall v, (forall c, ~ In (Call (mover l) c) e1) -> v = own_priority (pf_normal pf) (given_out s) (mover l) -> captured (ls ++ [l]) (mover l) v).
      { intros v NC ->. exists ls, [l], s, es0, s1, (e1 ++ []). split; [reflexivity|]. split; [exact E0|]. split; [cbn; now rewrite E1|]. split; [|reflexivity]. now rewrite app_nil_r. }
      assert (MORE : forall v, (forall c, ~ In (Call (mover l) c) e1) -> captured ls (mover l) v -> captured (ls ++ [l]) (mover l) v) by (intros v NC; exact (captured_more _ _ _ _ _ _ _ _ E0 E1 NC)).
      pose proof (i_uses ext s I (mover l)) as US.
      cases E1; cbn [mover] in *; rewrite ET in *; cbn [go lock_go fac_go obj_go pub_go os_go a_pc]; rewrite fupd_same; try exact Logic.I; cbn [cappc start_of] in IH |- *; try exact Logic.I.
      all: intros D; try congruence.
      all: try (apply MORE; [intros ? []|exact (IH D)]).
      all: apply HERE; [intros ? []|]; unfold own_priority, given_out.
      all: try (rewrite Q0; reflexivity).
      all: rewrite (US t (or_introl eq_refl)), Q; reflexivity.
  Qed.
  Theorem a_inherited_was_current ls s0 es0 t f s1 x p : exec step a_init ls = Some (s0, es0) -> step s0 (AStep t f) = Some (s1, [Eff t (ASet x p) RVoid]) -> pf_direct pf p = false ->
    exists ls1 ls2 s2 es2 es3 o, ls = ls1 ++ ls2 /\ exec step a_init ls1 = Some (s2, es2) /\ exec step s2 ls2 = Some (s0, es3) /\ (forall c, ~ In (Call t c) es3) /\
      given_out s1 x = Some o /\ at_prio o = own_priority (pf_normal pf) (given_out s2) t.
  Proof.
    intros E E1 D. pose proof (cap_reach ls _ _ E t) as CP. destruct (ok_reach _ _ _ E) as (I & _). pose proof (i_uses ext s0 I t) as US.
    assert (G : exists v, a_pc s0 t = PWrite x v (KSet p) /\ exists o, a_obj s0 x = Some o /\ s1 = obj_go s0 x (Some (mkAttr v (at_init o) (at_name o))) t (PNative x v (KSet p))).
    { clear CP US. cbn beta iota delta [a_step] in E1. destruct (a_pc s0 t) eqn:ET; try discriminate;
        repeat match type of E1 with
        | context [match ?c with _ => _ end] => is_var c; destruct c; try discriminate E1
        | context [match ?c with _ => _ end] => let Q := fresh "Q" in destruct c eqn:Q; try discriminate E1
        end.
      - injection E1 as <- <- <-. exists v. split; [reflexivity|]. exists a. split; [assumption|reflexivity].
      - destruct w; discriminate. }
    destruct G as (v & ET & o & O & ->). rewrite ET in CP, US. destruct (CP D) as (ls1 & ls2 & s2 & es2 & s3 & es3 & -> & X1 & X2 & X3 & X4).
    rewrite exec_app, X1, X2 in E. injection E as -> _.
    exists ls1, ls2, s2, es2, es3, (mkAttr v (at_init o) (at_name o)). split; [reflexivity|]. split; [exact X1|]. split; [exact X2|]. split; [exact X3|].
    split; [|exact X4]. unfold given_out. cbn. now rewrite (US x eq_refl), fupd_same.
  Qed.

  (** ** nothing leaks *)
  Definition known (s : ast) : Prop := forall x, a_obj s x <> None -> a_pub s x = true \/ exists t, creating (a_pc s t) = Some x.
  Lemma known_step s l s' e : known s -> step s l = Some (s', e) -> known s'.
  Proof.
    intros K E.
    assert (G : exists q, a_pc s' = fupd (a_pc s) (mover l) q /\ (forall y, a_pub s y = true -> a_pub s' y = true) /\
      (forall y, a_obj s' y <> None -> a_obj s y <> None \/ creating q = Some y) /\
      (forall y, creating (a_pc s (mover l)) = Some y -> creating q = Some y \/ a_pub s' y = true \/ a_obj s' y = None)).
    { cases E; cbn [mover] in *; rewrite ET in *; eexists; (split; [reflexivity|]); (split; [cbn [go lock_go fac_go obj_go pub_go os_go a_pub]; intros y; rewrite ?fupd_eq; try (destruct (Nat.eqb y _); [reflexivity|]); tauto|]).
      all: split; [cbn [go lock_go fac_go obj_go pub_go os_go a_obj creating]; intros y; rewrite ?fupd_eq; try (match goal with |- context [Nat.eqb y ?z] => let K := fresh "KK" in destruct (Nat.eqb_spec y z) as [K|K]; [subst z|] end); intros H; try (left; congruence); try (right; reflexivity); try (now elim H)|].
      all: cbn [go lock_go fac_go obj_go pub_go os_go a_obj a_pub creating]; intros y C; try discriminate; try (left; exact C); try (injection C as ->; rewrite ?fupd_same; auto; fail); try (left; reflexivity). }
    destruct G as (q & EP & HP & HO & HC). intros x O. destruct (HO x O) as [O'|C].
    - destruct (K x O') as [P|(t & C)]; [left; now apply HP|]. destruct (Nat.eq_dec t (mover l)) as [->|N].
      + destruct (HC x C) as [C'|[P|Z]]; [right; exists (mover l); now rewrite EP, fupd_same|now left|contradiction].
      + right. exists t. now rewrite EP, fupd_other.
    - right. exists (mover l). now rewrite EP, fupd_same.
  Qed.
  Theorem a_nothing_leaks ls s es : exec step a_init ls = Some (s, es) -> (forall t, a_idle s t) -> forall x, a_obj s x <> None -> a_pub s x = true.
  Proof.
    intros E ID x O. assert (K : known s).
    { apply (exec_inv_st _ _ _ step known (fun s0 l s1 e1 k e => known_step s0 l s1 e1 k e) ls a_init s es); [|exact E]. intros y Y. now elim Y. }
    destruct (K x O) as [P|(t & C)]; [exact P|]. rewrite ID in C. discriminate.
  Qed.

  (** ** progress *)
  Theorem a_progress ls s es : fits -> exec step a_init ls = Some (s, es) -> a_stuck pf ext s -> forall t, a_idle s t.
  Proof.
    intros F E ST. destruct (ok_reach _ _ _ E) as (I & _ & PC & _). clear E.
    assert (M : forall t f, step s (AStep t f) = None) by (intros t f; apply ST; discriminate).
    assert (OB : forall t x, has s t x -> a_obj s x <> None).
    { intros t x [H|H]; [destruct (holds_uses _ _ _ H) as [U|U]; [exact (i_pub ext s I x (i_uses ext s I t x U))|exact (proj1 (i_new ext s I t x U))]|exact (proj1 (i_new ext s I t x H))]. }
    unfold has in OB.
    assert (NH : forall t x, holds t (a_pc s t) <> Some x).
    { intros t x H. specialize (M t false). specialize (OB t x (or_introl H)). cbn beta iota delta [a_step] in M. destruct (a_pc s t) eqn:ET; cbn in H; try discriminate; injection H as ->.
      all: try (destruct (a_obj s _); [discriminate|now apply OB]).
      destruct (pf_native pf v); [discriminate|destruct k; discriminate]. }
    assert (LF : forall x, a_lock s x = None) by (intros x; destruct (a_lock s x) as [u|] eqn:L; [apply (i_lock ext s I) in L; destruct (NH _ _ L)|reflexivity]).
    assert (NF : forall t, hfac (a_pc s t) = false).
    { intros t. destruct (hfac (a_pc s t)) eqn:H; [|reflexivity]. exfalso. pose proof (proj2 (i_fac ext s I t) H) as FT. pose proof (M t true) as MT. specialize (M t false). pose proof (NH t) as NT. specialize (OB t). specialize (PC t).
      cbn beta iota delta [a_step] in M, MT. unfold fac_free in M. destruct (a_pc s t) eqn:ET; cbn in H, NT, OB; try discriminate; rewrite ?LF, ?FT, ?Nat.eqb_refl in M; try discriminate; try (eapply NT; reflexivity).
      - destruct (a_obj s x) eqn:O; [discriminate|exact (OB x (or_intror eq_refl) O)]. }
    assert (FF : a_fac s = None) by (destruct (a_fac s) as [u|] eqn:L; [apply (i_fac ext s I) in L; rewrite NF in L; discriminate|reflexivity]).
    intros t. unfold a_idle. specialize (M t false). pose proof (NH t) as NT. specialize (NF t). specialize (PC t). cbn beta iota delta [a_step] in M. unfold fac_free in M.
    destruct (a_pc s t) eqn:ET; cbn in NT, NF, PC; try discriminate; rewrite ?LF, ?FF in M; try discriminate; try (exfalso; eapply NT; reflexivity); try reflexivity.
    destruct (PC F).
  Qed.
  Definition am (q : apc) : nat :=
    match q with
    | POut | PThrown _ => 0 | PRet _ => 1 | PGetU _ _ => 2 | PGet _ _ => 3 | PGetL _ _ => 4
    | PNameU _ None => 2 | PNameW _ _ None => 3 | PNameL _ _ None => 4
    | PWriteU _ _ (KSet _) => 2 | PNative _ _ (KSet _) => 3 | PWrite _ _ (KSet _) => 4 | PWriteL _ _ (KSet _) => 5 | PReadU _ _ (KSet _) => 6 | PRead _ (KSet _) => 7
    | PReadL _ (KSet _) => 8 | PCur _ (KSet _) => 9 | PSet _ (KSet _) => 10
    | PNewUR _ => 2 | PFail _ => 3 | PFailF _ => 4 | PFailU _ => 5 | PIns _ _ _ => 6 | PInsF _ _ _ => 7 | PNewU _ _ _ => 8 | PInit _ _ _ => 9
    | PWriteU _ _ (KNew _ _) => 10 | PNative _ _ (KNew _ _) => 11 | PWrite _ _ (KNew _ _) => 12 | PWriteL _ _ (KNew _ _) => 13 | PReadU _ _ (KNew _ _) => 14 | PRead _ (KNew _ _) => 15
    | PReadL _ (KNew _ _) => 16 | PCur _ (KNew _ _) => 17 | PSet _ (KNew _ _) => 18
    | PNameU _ (Some _) => 19 | PNameW _ _ (Some _) => 20 | PNameL _ _ (Some _) => 21 | PBegin _ _ _ => 22 | PNew _ _ => 23 | PNewF _ _ => 24
    end.
  Definition a_own_step (l : alab) : Prop := match l with ALCall _ _ => False | _ => True end.
  Lemma a_step_decr s l s' e : a_own_step l -> step s l = Some (s', e) -> exists t q, a_pc s' = fupd (a_pc s) t q /\ (am q < am (a_pc s t))%nat.
  Proof.
    intros P E. cases E; cbn in P; try tauto; exists t; eexists; (split; [reflexivity|]); rewrite ET; cbn; try lia.
    all: destruct p; cbn; lia.
  Qed.
  Theorem a_bounded n ls0 s es0 ls s' es : exec step a_init ls0 = Some (s, es0) -> (forall t, (n <= t)%nat -> a_idle s t) ->
    (forall l, In l ls -> a_own_step l) -> exec step s ls = Some (s', es) -> (length ls <= n * 24)%nat.
  Proof.
    intros _ ID OW E. set (m := fun s => sumn (fun t => am (a_pc s t)) n).
    assert (H : (length ls + m s' <= m s)%nat).
    { refine (exec_measure _ _ _ step (fun s => forall t, (n <= t)%nat -> a_idle s t) a_own_step m _ ls s s' es ID OW E).
      clear. intros s l s' e ID P E. destruct (a_step_decr s l s' e P E) as (t & q & ET & D).
      assert (T : (t < n)%nat). { destruct (Nat.lt_ge_cases t n) as [X|X]; [exact X|]. specialize (ID t X). unfold a_idle in ID. rewrite ID in D. cbn in D. lia. }
      split.
      - intros u U. unfold a_idle. rewrite ET, fupd_other by lia. now apply ID.
      - unfold m. pose proof (sumn_change n (fun u => am (a_pc s u)) (fun u => am (a_pc s' u)) t T) as C. cbn beta in C.
        rewrite ET, fupd_same in C. rewrite ET. assert (X : forall u, u <> t -> am (fupd (a_pc s) t q u) = am (a_pc s u)) by (intros u U; now rewrite fupd_other).
        specialize (C X). lia. }
    assert ((m s <= n * 24)%nat). { apply sumn_bound. intros k _. destruct (a_pc s k) as [| ? ? [|] | ? ? [|] | ? [|] |? []|? []|? []|? []|? ? []|? ? []|? ? []|? ? []|? ? []| | | | | | | | | | | | | | | |]; cbn; lia. }
    lia.
  Qed.
End More.

(** * The platforms *)
Lemma in_range_iff lo hi p : in_range lo hi p = true <-> valid lo hi p.
Proof. unfold in_range, valid. rewrite andb_true_iff, !Z.leb_le, min_ok, max_ok. tauto. Qed.
Lemma middle_valid lo hi : valid lo hi (middle lo hi).
Proof. unfold middle, valid. rewrite min_ok, max_ok. destruct (quot2 (Z.min lo hi + Z.max lo hi)) as [H|[(A & H)|(A & H)]]; lia. Qed.
Theorem std_fits : fits std_platform.
Proof. split; cbn; intros; discriminate. Qed.
Theorem posix_fits dflt pmin pmax lo hi : (pmin <= pmax)%Z -> fits (posix_platform dflt pmin pmax lo hi).
Proof.
  intros H. split; cbn [posix_platform pf_direct pf_native pf_normal].
  - intros p D. apply in_range_iff in D. rewrite posix_lookup by assumption. discriminate.
  - rewrite posix_lookup by (assumption || apply middle_valid). discriminate.
Qed.
Theorem windows_fits lo hi : fits (windows_platform lo hi).
Proof.
  split; cbn [windows_platform pf_direct pf_native pf_normal].
  - intros p D. apply in_range_iff in D. rewrite win_lookup by assumption. discriminate.
  - rewrite win_lookup by apply middle_valid. discriminate.
Qed.
Definition is_range_platform (pf : platform) (lo hi : Z) : Prop :=
  (exists dflt pmin pmax, pf = posix_platform dflt pmin pmax lo hi) \/ pf = windows_platform lo hi.
Theorem a_get_in_range pf ext lo hi ls s es t x v : is_range_platform pf lo hi -> exec (a_step pf ext) a_init ls = Some (s, es) ->
  In (t, AGet x, RInt v) (effects es) -> valid lo hi v.
Proof.
  intros P E H. destruct (a_get_valid pf ext _ _ _ _ _ _ E H) as [A|A]; destruct P as [(d & p1 & p2 & ->)| ->]; cbn in A; try (now apply in_range_iff); subst; apply middle_valid.
Qed.
Theorem inherit_in_range pf lo hi : is_range_platform pf lo hi -> (pf_direct pf INHERIT = false <-> ~ valid lo hi INHERIT).
Proof.
  intros P. assert (D : pf_direct pf INHERIT = in_range lo hi INHERIT) by (destruct P as [(d & p1 & p2 & ->)| ->]; reflexivity).
  rewrite D, <- in_range_iff. destruct (in_range lo hi INHERIT); split; congruence || tauto.
Qed.

(** * Counterexamples *)
Section Next.
  Variables (direct : Z -> bool) (normal : Z).
  Definition attr_next (s : astate) (t : nat) (c : acall) (r : ares) : option astate :=
    match c with
    | ACreate p n => match r with
                     | RThread x => match s x with None => Some (aset s x (mkAttr (resolved direct normal s t p) (resolved direct normal s t p) n)) | Some _ => None end
                     | RNull => Some s
                     | _ => None
                     end
    | ASet x p => match s x with Some o => Some (aset s x (mkAttr (resolved direct normal s t p) (at_init o) (at_name o))) | None => None end
    | AGet x => match s x, r with Some o, RInt v => if Z.eqb (at_prio o) v then Some s else None | _, _ => None end
    | AInit x => match s x, r with Some o, RInt v => if Z.eqb (at_init o) v then Some s else None | _, _ => None end
    | AName x n => match s x with Some o => Some (aset s x (mkAttr (at_prio o) (at_init o) n)) | None => None end
    | AGetName x => match s x, r with Some o, RStr n => if Nat.eqb (at_name o) n then Some s else None | _, _ => None end
    end.
  Lemma attr_next_ok s t c r s' a : attr_spec direct normal s t c r s' -> aeq s a -> exists a', attr_next a t c r = Some a' /\ aeq s' a'.
  Proof.
    intros H Q. assert (O : own_priority normal s t = own_priority normal a t) by (unfold own_priority; now rewrite Q).
    assert (RS : forall p, resolved direct normal s t p = resolved direct normal a t p) by (intros p; unfold resolved; now rewrite O).
    assert (T2 : forall z x o, aeq z (aset s x o) -> aeq z (aset a x o)) by (intros z x o X y; rewrite X; unfold aset; destruct (Nat.eqb y x); [reflexivity|]; apply Q).
    assert (T : forall z, aeq z s -> aeq z a) by (intros z X y; rewrite X; apply Q).
    destruct c; cbn in H |- *.
    - destruct r; try tauto.
      + destruct H as (H1 & H2). rewrite Q in H1. rewrite H1. eexists. split; [reflexivity|]. rewrite <- !RS. now apply T2.
      + eexists. split; [reflexivity|]. now apply T.
    - destruct H as (o & H1 & -> & H2). rewrite Q in H1. rewrite H1. eexists. split; [reflexivity|]. rewrite <- !RS. now apply T2.
    - destruct H as (o & H1 & -> & H2). rewrite Q in H1. rewrite H1, Z.eqb_refl. eauto.
    - destruct H as (o & H1 & -> & H2). rewrite Q in H1. rewrite H1, Z.eqb_refl. eauto.
    - destruct H as (o & H1 & -> & H2). rewrite Q in H1. rewrite H1. eauto.
    - destruct H as (o & H1 & -> & H2). rewrite Q in H1. rewrite H1, Nat.eqb_refl. eauto.
  Qed.
End Next.

Definition main_only (t : nat) : bool := Nat.eqb t 0.
Definition steps (n t : nat) : list alab := repeat (AStep t false) n.
(** thread [t] creates thread [x] with priority [p], given as such *)
Definition make (t x : nat) (p : Z) (n : nat) : list alab := [ALCall t (ACreate p n); AStep t false; AAlloc t x] ++ steps 15 t.
(** thread 1 asks for its own priority to be set to thread 2; meanwhile the main thread changes it *)
Definition inherit_run : list alab :=
  make 0 1 3 10 ++ make 0 2 4 20 ++ [ALCall 1 (ASet 2 INHERIT)] ++ steps 5 1 ++ [ALCall 0 (ASet 1 7)] ++ steps 6 0 ++ [ALCall 0 (AGet 2)] ++ steps 4 0 ++ steps 5 1 ++ [ALCall 0 (AGet 2)] ++ steps 4 0.
Theorem inherit_not_atomic : ~ (forall pf ext ls s es, exec (a_step pf ext) a_init ls = Some (s, es) -> linearizable (attr_spec (pf_direct pf) (pf_normal pf)) a_none (history es)).
Proof.
  intros H. specialize (H std_platform main_only inherit_run). destruct (exec (a_step std_platform main_only) a_init inherit_run) as [[s es]|] eqn:E; [|vm_compute in E; discriminate].
  specialize (H s es eq_refl). revert H.
  assert (X : history es = [Call 0 (ACreate 3 10); Ret 0 (RThread 1); Call 0 (ACreate 4 20); Ret 0 (RThread 2); Call 1 (ASet 2 (-1)); Call 0 (ASet 1 7); Ret 0 RVoid; Call 0 (AGet 2); Ret 0 (RInt 4);
           Ret 1 RVoid; Call 0 (AGet 2); Ret 0 (RInt 3)]) by (vm_compute in E; injection E as _ <-; reflexivity).
  rewrite X. eapply (not_linearizable _ (attr_next (pf_direct std_platform) (pf_normal std_platform)) aeq [0%nat; 1%nat] (fun a b c d e f => attr_next_ok _ _ a b c d e f) 60 _ a_none).
  - intros x. reflexivity.
  - intros t c I. repeat (destruct I as [I|I]; [try discriminate; injection I as <- _; cbn; auto|]). destruct I.
  - vm_compute. reflexivity.
Qed.
(** main creates thread 1, then sets its priority; the operating system refuses *)
Definition refused_run : list alab := make 0 1 3 10 ++ [ALCall 0 (ASet 1 7)] ++ steps 3 0 ++ [AStep 0 true] ++ steps 2 0.
Theorem native_refused : ~ (forall dflt pmin pmax lo hi ext ls s es x o, (pmin <= pmax)%Z -> exec (a_step (posix_platform dflt pmin pmax lo hi) ext) a_init ls = Some (s, es) ->
  given_out s x = Some o -> a_lock s x = None -> pf_native (posix_platform dflt pmin pmax lo hi) (at_prio o) = Some (a_os s x)).
Proof.
  intros H. specialize (H 0 1 99 0 9 main_only refused_run)%Z. destruct (exec (a_step (posix_platform 0 1 99 0 9) main_only) a_init refused_run) as [[s es]|] eqn:E; [|vm_compute in E; discriminate].
  vm_compute in E. injection E as <- <-. specialize (H _ _ 1%nat _ ltac:(lia) eq_refl eq_refl eq_refl). vm_compute in H. discriminate.
Qed.
Theorem platforms_never_throw pf ext lo hi ls s es t x :
  pf = std_platform \/ (exists dflt pmin pmax, (pmin <= pmax)%Z /\ pf = posix_platform dflt pmin pmax lo hi) \/ pf = windows_platform lo hi ->
  exec (a_step pf ext) a_init ls = Some (s, es) -> a_pc s t <> PThrown x.
Proof.
  intros P E. refine (a_never_throws pf ext _ _ _ _ _ _ E). destruct P as [->|[(d & p1 & p2 & L & ->)| ->]]; [apply std_fits|now apply posix_fits|apply windows_fits].
Qed.
