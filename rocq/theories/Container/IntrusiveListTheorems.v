(** IntrusiveList refines the family-of-sequences specification. *)
From Coq Require Import List Arith Bool Lia Permutation.
Import ListNotations.
From Verif Require Import Spec.ListFamSpec Container.IntrusiveListModel Container.IntrusiveListProofs Container.IntrusiveListRep.

Lemma node_links h F t C d D : Rep h F -> F t = Some (C ++ d :: D) ->
  nx h d = Some (hd t D) /\ pv h d = Some (last C t) /\ d <> t.
Proof.
  intros R H. pose proof (Rep_cn _ _ _ _ d R H) as X. rewrite cn_app in X. cbn in X. rewrite ind_same in X.
  split; [|split].
  - destruct (ring_pred _ _ t (C ++ [d]) D R) as (A & q & B & E1 & _ & _ & E4 & _); [rewrite <- app_assoc; exact H|].
    change (t :: C ++ [d]) with ((t :: C) ++ [d]) in E1. apply app_inj_tail in E1 as [_ <-].
    apply edges_split in E4 as (_ & [E _] & _). exact E.
  - destruct (ring_pred _ _ t C (d :: D) R H) as (A & q & B & E1 & _ & _ & E4 & _). cbn [hd] in E4.
    apply edges_split in E4 as (_ & [_ E] & _). rewrite E. f_equal.
    destruct (list_eq_dec Nat.eq_dec C []) as [->|N].
    + destruct A as [|? [|? ?]]; cbn in E1; [now injection E1|discriminate|discriminate].
    + destruct (exists_last N) as (C' & e & ->). rewrite last_last. change (t :: C' ++ [e]) with ((t :: C') ++ [e]) in E1.
      apply app_inj_tail in E1 as [_ ->]. reflexivity.
  - intros ->. rewrite ind_same in X. lia.
Qed.

Section Th.
  Variable dbg : bool.

  Lemma lassert_true h : lassert dbg true h = LOk tt h.
  Proof. unfold lassert. destruct dbg; reflexivity. Qed.

  Lemma size_loop_runs h F t D : Rep h F -> forall C fuel num, F t = Some (C ++ D) -> length D <= fuel ->
    size_loop dbg fuel t (Some (hd t D)) num h = LOk (num + length D) h.
  Proof.
    intros R. induction D as [|d D IH]; intros C fuel num H L.
    - destruct fuel; cbn; rewrite Nat.eqb_refl; unfold lret; f_equal; lia.
    - destruct fuel as [|fuel]; [cbn in L; lia|]. cbn [hd size_loop]. destruct (node_links _ _ _ _ _ _ R H) as (E1 & _ & N).
      cbn [onat_eqb l_end]. assert (X : (d =? t) = false) by now apply Nat.eqb_neq. rewrite X.
      unfold i_inc, lbind. cbn [nonnull]. rewrite lassert_true. unfold get_nx, lbind, deref. rewrite E1.
      rewrite (IH (C ++ [d])); [cbn; f_equal; lia|rewrite <- app_assoc; exact H|cbn in L; lia].
  Qed.
  Lemma fwd_loop_runs h F t D : Rep h F -> forall C fuel acc, F t = Some (C ++ D) -> length D <= fuel ->
    fwd_loop dbg fuel t (Some (hd t D)) acc h = LOk (acc ++ D) h.
  Proof.
    intros R. induction D as [|d D IH]; intros C fuel num H L.
    - destruct fuel; cbn; rewrite Nat.eqb_refl; unfold lret; now rewrite app_nil_r.
    - destruct fuel as [|fuel]; [cbn in L; lia|]. cbn [hd fwd_loop]. destruct (node_links _ _ _ _ _ _ R H) as (E1 & _ & N).
      cbn [onat_eqb l_end]. assert (X : (d =? t) = false) by now apply Nat.eqb_neq. rewrite X.
      unfold i_inc, i_deref, lbind. cbn [nonnull]. rewrite lassert_true. unfold get_nx, lbind, deref. rewrite lassert_true, E1.
      rewrite (IH (C ++ [d])); [now rewrite <- app_assoc|rewrite <- app_assoc; exact H|cbn in L; lia].
  Qed.
  Lemma bwd_loop_runs h F t : Rep h F -> forall n C D fuel acc, length C = n -> F t = Some (C ++ D) -> length C <= fuel ->
    bwd_loop dbg fuel t (Some (hd t D)) acc h = LOk (acc ++ rev C) h.
  Proof.
    intros R. induction n as [|n IH]; intros C D fuel acc EC H L.
    - destruct C; [|discriminate]. assert (X : l_begin t h = LOk (Some (hd t D)) h).
      { unfold l_begin, get_nx, lbind, deref. rewrite (ring_next _ _ _ _ R H). reflexivity. }
      destruct fuel; cbn [bwd_loop]; unfold lbind; rewrite X; cbn; rewrite Nat.eqb_refl; unfold lret; now rewrite app_nil_r.
    - assert (N : C <> []) by (intros ->; discriminate). destruct (exists_last N) as (C' & e & E). subst C.
      rewrite app_length in EC, L. cbn in EC, L. destruct fuel as [|fuel]; [lia|].
      assert (X : l_begin t h = LOk (Some (hd t (C' ++ [e]))) h).
      { unfold l_begin, get_nx, lbind, deref. rewrite (ring_next _ _ _ _ R H). destruct C'; reflexivity. }
      assert (NE : (hd t D =? hd t (C' ++ [e])) = false).
      { apply Nat.eqb_neq. intros Q. pose proof (Rep_cn _ _ _ _ (hd t D) R H) as W. rewrite !cn_app in W.
        assert (1 <= cn (hd t D) C' + cn (hd t D) [e]).
        { rewrite <- cn_app. apply cn_In. rewrite Q. destruct C'; cbn; auto. }
        assert (1 <= ind t (hd t D) + cn (hd t D) D) by (destruct D; cbn; rewrite ind_same; lia). lia. }
      cbn [bwd_loop]. unfold lbind at 1. rewrite X. cbn [onat_eqb]. rewrite NE.
      assert (P : pv h (hd t D) = Some e).
      { destruct D as [|d D]; cbn [hd].
        - rewrite (ring_prev _ _ _ _ R H), app_nil_r, last_last. reflexivity.
        - destruct (node_links _ _ _ _ _ _ R H) as (_ & E2 & _). rewrite E2, last_last. reflexivity. }
      unfold i_dec, i_deref, lbind. cbn [nonnull]. rewrite lassert_true. unfold get_pv, lbind, deref. rewrite P, lassert_true.
      specialize (IH C' (e :: D) fuel (acc ++ [e])). cbn [hd] in IH. rewrite IH.
      + rewrite rev_app_distr, <- app_assoc. reflexivity.
      + lia.
      + rewrite <- app_assoc in H. exact H.
      + lia.
  Qed.

  Lemma in_ring F h t pos : Rep h F -> live F t -> is_pos F t pos ->
    exists C D, F t = Some (C ++ D) /\ contents F t = C ++ D /\ pos = hd t D /\ before pos (contents F t) = C /\ from pos (contents F t) = D /\ cn pos C = 0.
  Proof.
    intros R L P. apply live_Some in L. destruct (Rep_pos _ _ _ _ _ R L P) as (C & D & E1 & E2 & E3 & E4 & E5).
    exists C, D. rewrite E3, E4. rewrite L. rewrite E1 at 1. auto 8.
  Qed.

  Definition good (h : heap) (F : fam) (o : lop) (N : nat) : Prop :=
    exists h', l_step dbg N o h = LOk (fst (lspec F o)) h' /\ Rep h' (snd (lspec F o)).

  (** the range functions against [move] *)
  Lemma splice_range_good h F t pos x first lst :
    Rep h F -> live F t -> live F x -> is_pos F t pos -> In first (contents F x) ->
    (lst = x \/ In lst (from first (contents F x))) -> first <> lst -> ~ In pos (before lst (from first (contents F x))) ->
    exists h', l_splice_range dbg t (Some pos) x (Some first) (Some lst) h = LOk tt h' /\ Rep h' (move F t pos x first lst).
  Proof.
    intros R Lt Lx Pp If Il Nfl Np.
    destruct (in_ring _ _ _ _ R Lx (or_intror If)) as (P & Q0 & Hx & Ex & Ef & EB & EF & CF).
    rewrite EF in *. assert (exists Q, Q0 = first :: Q) as (Q & ->).
    { destruct Q0 as [|q Q]; cbn in Ef; [|subst; eauto]. exfalso. subst. rewrite app_nil_r in Ex.
      pose proof (Rep_notin _ _ _ _ R Hx) as Z. rewrite app_nil_r, <- Ex in Z. apply cn_In in If. lia. }
    clear Ef. pose proof (Rep_notin _ _ _ _ R Hx) as Zx.
    assert (exists M' Rr, Q = M' ++ Rr /\ lst = hd x Rr /\ before lst (first :: Q) = first :: M' /\ from lst (first :: Q) = Rr)
      as (M' & Rr & EQ & El & EM & ER).
    { assert (Hl : lst = x \/ In lst Q) by (destruct Il as [|[|]]; [auto|congruence|auto]).
      assert (C1 : forall n, cn n (P ++ first :: Q) <= 1) by (intros; apply (Rep_cn1 _ _ _ _ _ R Hx)).
      destruct (pos_split x Q lst) as (M' & Rr & E1 & E2 & E3 & E4 & E5).
      - pose proof (Rep_cn _ _ _ _ x R Hx) as Z. rewrite cn_app in Z. cbn in Z. lia.
      - intros n. specialize (C1 n). rewrite cn_app in C1. cbn in C1. lia.
      - exact Hl.
      - exists M', Rr. cbn. apply Nat.eqb_neq in Nfl. rewrite Nfl, E3, E4. auto. }
    rewrite EM in Np. subst Q. rewrite app_comm_cons in Hx.
    unfold move. rewrite EF, EM, ER, EB. clear Il EB EF EM ER.
    assert (Wx : forall n, ind x n + cn n P + (ind first n + cn n M') + cn n Rr <= 1).
    { intros n. pose proof (Rep_cn _ _ _ _ n R Hx) as Z. rewrite !cn_app in Z. cbn in Z. lia. }
    destruct (Nat.eq_dec t x) as [<-|Ntx].
    - rewrite contents_fset.
      assert (Hpos : pos = t \/ In pos (P ++ Rr)).
      { destruct Pp as [->|Pp]; [auto|]. right. rewrite (contents_Some _ _ _ Hx) in Pp. apply in_app_or in Pp as [Pp|Pp]; [apply in_or_app; auto|].
        apply in_app_or in Pp as [Pp|Pp]; [contradiction|apply in_or_app; auto]. }
      assert (X : forall a b G, Rep a (fset F t b) -> Rep a (fset (fset F t G) t b)).
      { intros a b G HR. eapply Rep_ext; [|exact HR]. intros u. unfold fset. destruct (u =? t); reflexivity. }
      destruct (Nat.eq_dec pos lst) as [->|Npl].
      + exists h. split.
        * unfold l_splice_range, lbind. cbn [nonnull]. rewrite lassert_true, lassert_true, lassert_true. cbn [onat_eqb l_end].
          assert (first <> t) by (intros ->; specialize (Wx t); rewrite ind_same in Wx; lia).
          assert (Z : (first =? t) = false) by now apply Nat.eqb_neq. rewrite Z. cbn [negb]. rewrite lassert_true, lassert_true.
          apply Nat.eqb_neq in Nfl. rewrite Nfl, Nat.eqb_refl. reflexivity.
        * apply X. eapply Rep_ext; [|exact R]. intros u. unfold fset. destruct (Nat.eqb_spec u t) as [->|]; [|reflexivity].
          rewrite Hx. f_equal. rewrite El. destruct Rr as [|r Rr].
          -- cbn [hd]. rewrite !app_nil_r, before_none, from_none; [now rewrite ?app_nil_r| |]; specialize (Wx t); rewrite ind_same in Wx; lia.
          -- cbn [hd]. specialize (Wx r). cbn [cn] in Wx. rewrite ind_same in Wx. rewrite before_at, from_at by lia. reflexivity.
      + destruct (in_dec Nat.eq_dec pos P) as [Ip|Nip].
        * apply in_split in Ip as (P1 & P2 & EP). subst P. rewrite <- app_assoc in Hx.
          destruct (splice_same_before dbg h F t P1 pos P2 first M' Rr R Hx) as (h' & E1 & E2).
          exists h'. split; [rewrite El; exact E1|]. apply X. rewrite <- app_assoc. cbn [app].
          specialize (Wx pos). rewrite cn_app in Wx. cbn [cn] in Wx. rewrite ind_same in Wx.
          rewrite before_at, from_at by lia. exact E2.
        * destruct Rr as [|r Rr]; [cbn in El; subst lst|cbn [hd] in El; subst r].
          { exfalso. destruct Hpos as [->|Hpos]; [congruence|]. rewrite app_nil_r in Hpos. contradiction. }
          assert (exists S' R', Rr = S' ++ R' /\ pos = hd t R' /\ cn pos S' = 0 /\ before pos Rr = S' /\ from pos Rr = R') as (S' & R' & ER & Ep & Zs & _).
          { destruct (pos_split t Rr pos) as (S' & R' & E1 & E2 & E3 & E4 & E5).
            - specialize (Wx t). cbn in Wx. lia.
            - intros n. specialize (Wx n). cbn in Wx. lia.
            - destruct Hpos as [|Hpos]; [auto|]. right. apply in_app_or in Hpos as [|[|]]; [contradiction|congruence|assumption].
            - exists S', R'. auto 6. }
          subst Rr. rewrite app_comm_cons in Hx.
          destruct (splice_same_after dbg h F t P first M' lst S' R' R Hx) as (h' & E1 & E2).
          exists h'. split; [rewrite Ep; exact E1|]. apply X.
          replace (before pos (P ++ lst :: S' ++ R')) with (P ++ lst :: S').
          -- replace (from pos (P ++ lst :: S' ++ R')) with R'.
             ++ rewrite <- app_assoc. exact E2.
             ++ rewrite Ep. destruct R' as [|r R']; cbn [hd].
                ** rewrite from_none; [reflexivity|]. specialize (Wx t). rewrite cn_app in *. cbn [cn] in *. rewrite cn_app in *. rewrite ind_same in Wx. lia.
                ** rewrite app_comm_cons, app_assoc, from_at; [reflexivity|]. cbn [hd] in Ep. subst r.
                   apply cn_notIn in Nip. rewrite cn_app. cbn [cn]. rewrite (ind_diff lst pos) by congruence. lia.
          -- rewrite Ep. destruct R' as [|r R']; cbn [hd].
             ++ rewrite before_none; [now rewrite app_nil_r|]. specialize (Wx t). rewrite cn_app in *. cbn [cn] in *. rewrite cn_app in *. rewrite ind_same in Wx. lia.
             ++ rewrite app_comm_cons, app_assoc, before_at; [reflexivity|]. cbn [hd] in Ep. subst r.
                apply cn_notIn in Nip. rewrite cn_app. cbn [cn]. rewrite (ind_diff lst pos) by congruence. lia.
    - rewrite contents_fset_ne by auto.
      destruct (in_ring _ _ _ _ R Lt Pp) as (C & D & Ht & Et & Ep & EB & EF & CF'). rewrite EB, EF.
      destruct (splice_other_runs dbg h F t x P M' first Rr C D R Ntx Hx Ht) as (h' & E1 & E2).
      exists h'. split; [rewrite Ep, El; exact E1|exact E2].
  Qed.

  Lemma bind_ok {A C} (m : LM A) (k : A -> LM C) h a h' : m h = LOk a h' -> lbind m k h = k a h'.
  Proof. unfold lbind. now intros ->. Qed.

  Definition fuel_ok (F : fam) (o : lop) (N : nat) : Prop :=
    match o with LSize t | LForward t | LBackward t => length (contents F t) <= N | _ => True end.

  Lemma step_good h F o N : Rep h F -> lpre dbg F o -> fuel_ok F o N -> good h F o N.
  Proof.
    intros R P FN. unfold good. destruct o; cbn [lpre lspec l_step fst snd fuel_ok] in *.
    - destruct (new_runs h F t R P) as (h' & E1 & E2). exists h'. now rewrite (bind_ok _ _ _ _ _ E1).
    - exists h. split; [reflexivity|now apply Rep_drop].
    - destruct P as (L & Pp & U). destruct (in_ring _ _ _ _ R L Pp) as (C & D & Ht & Et & Ep & EB & EF & CF').
      destruct (insert_runs dbg h F t C D d R Ht U) as (h' & E1 & E2). exists h'. rewrite Ep at 1.
      rewrite (bind_ok _ _ _ _ _ E1), EB, EF. auto.
    - destruct P as (L & U). apply live_Some in L. destruct (insert_runs dbg h F t (contents F t) [] d R) as (h' & E1 & E2); [rewrite app_nil_r; exact L|exact U|].
      exists h'. unfold l_push_back, l_end. cbn [hd] in E1. unfold lbind. rewrite E1. auto.
    - destruct P as (L & U). apply live_Some in L. destruct (insert_runs dbg h F t [] (contents F t) d R L U) as (h' & E1 & E2).
      exists h'. unfold l_push_front, l_begin, get_nx, deref. unfold lbind. rewrite (ring_next _ _ _ _ R L). rewrite E1. auto.
    - destruct P as (L & I). destruct (in_ring _ _ _ _ R L (or_intror I)) as (C & D & Ht & Et & Ep & EB & EF & CF').
      rewrite EB, EF. destruct D as [|d D].
      { exfalso. cbn in Ep. subst pos. rewrite app_nil_r in *. pose proof (Rep_notin _ _ _ _ R Ht). rewrite Et in I. apply cn_In in I. lia. }
      cbn [hd] in Ep. subst d. destruct (erase_runs dbg h F t C pos D R Ht) as (h' & E1 & E2).
      exists h'. rewrite (bind_ok _ _ _ _ _ E1). auto.
    - destruct P as (L & I). apply live_Some in L. destruct (exists_last I) as (C & e & E). rewrite E in *. rewrite removelast_last.
      destruct (erase_runs dbg h F t C e [] R L) as (h' & E1 & E2). exists h'. rewrite app_nil_r in E2. split; [|exact E2].
      unfold l_pop_back, l_end, i_dec. unfold lbind. rewrite (empty_runs _ _ _ _ R L).
      replace (match C ++ [e] with [] => true | _ => false end) with false by (destruct C; reflexivity).
      cbn [negb nonnull]. rewrite lassert_true, lassert_true. unfold get_pv, lbind, deref. rewrite (ring_prev _ _ _ _ R L), last_last, E1. reflexivity.
    - destruct P as (L & I). apply live_Some in L. destruct (contents F t) as [|e D] eqn:E; [congruence|]. cbn [tl].
      destruct (erase_runs dbg h F t [] e D R L) as (h' & E1 & E2). exists h'. split; [|exact E2].
      unfold l_pop_front, l_begin. unfold lbind. rewrite (empty_runs _ _ _ _ R L).
      cbn [negb]. rewrite lassert_true. unfold get_nx, lbind, deref. rewrite (ring_next _ _ _ _ R L). cbn [hd]. rewrite E1. reflexivity.
    - destruct P as (L & Lx & N1 & Pp). destruct (in_ring _ _ _ _ R L Pp) as (C & D & Ht & Et & Ep & EB & EF & CF').
      destruct (splice_all_runs dbg h F t x C D (contents F x) R N1 (live_Some _ _ Lx) Ht) as (h' & E1 & E2).
      exists h'. rewrite Ep at 1. rewrite (bind_ok _ _ _ _ _ E1), EB, EF. auto.
    - destruct P as (L & Lx & Pp & I).
      destruct (in_ring _ _ _ _ R Lx (or_intror I)) as (C & D & Hx & Ex & Ep & EB & EF & CF').
      destruct D as [|d D].
      { exfalso. cbn in Ep. subst i. rewrite app_nil_r in *. pose proof (Rep_notin _ _ _ _ R Hx). rewrite Ex in I. apply cn_In in I. lia. }
      cbn [hd] in Ep. subst d. pose proof (node_links _ _ _ _ _ _ R Hx) as (E1 & _ & E3).
      assert (Nit : i <> t).
      { intros ->. destruct (Nat.eq_dec t x) as [|N1]; [congruence|]. destruct R as [[_ W2] _].
        pose proof (W2 _ _ _ _ N1 (live_Some _ _ L) Hx t) as Z. rewrite ind_same, cn_app in Z. cbn in Z. rewrite ind_same in Z. lia. }
      pose proof (Rep_cn _ _ _ _ i R Hx) as Wi. rewrite cn_app in Wi. cbn [cn] in Wi. rewrite ind_same in Wi.
      assert (Nih : i <> hd x D).
      { destruct D as [|d D]; cbn [hd]; [congruence|]. intros <-. cbn in Wi. rewrite ind_same in Wi. lia. }
      assert (Mv : pos <> i -> ~ In pos (before (hd x D) (from i (contents F x)))).
      { intros N1. rewrite EF. cbn [before]. apply Nat.eqb_neq in Nih. rewrite Nih.
        assert (Z : before (hd x D) D = []) by (destruct D; cbn; [reflexivity|now rewrite Nat.eqb_refl]). rewrite Z. intros [|[]]. congruence. }
      pose proof (splice_range_good h F t pos x i (hd x D) R L Lx Pp I) as SR.
      rewrite EF in SR |- *. cbn [tl].
      assert (Pre : l_splice_one dbg t (Some pos) x (Some i) h =
              (if pos =? i then LOk tt h else if pos =? hd x D then LOk tt h else l_splice_range dbg t (Some pos) x (Some i) (Some (hd x D)) h)).
      { unfold l_splice_one, lbind, l_end. cbn [onat_eqb].
        assert (Z1 : (i =? t) = false) by now apply Nat.eqb_neq. assert (Z2 : (i =? x) = false) by now apply Nat.eqb_neq. rewrite Z1, Z2.
        cbn [negb]. rewrite lassert_true, lassert_true. destruct (pos =? i); [reflexivity|].
        unfold i_inc, lbind. cbn [nonnull]. rewrite lassert_true. unfold get_nx, lbind, deref. rewrite E1. cbn [onat_eqb]. destruct (pos =? hd x D); reflexivity. }
      destruct (Nat.eqb_spec pos i) as [->|Npi].
      + exists h. split; [|exact R]. unfold lbind. rewrite Pre. reflexivity.
      + destruct SR as (h' & E4 & E5).
        { destruct D as [|d D]; cbn; auto. }
        { exact Nih. }
        { rewrite <- EF. apply Mv. exact Npi. }
        exists h'. split; [|exact E5]. unfold lbind. rewrite Pre. destruct (Nat.eqb_spec pos (hd x D)) as [->|]; [|now rewrite E4].
        unfold l_splice_range, lbind in E4. cbn [nonnull] in E4. rewrite !lassert_true in E4. cbn [onat_eqb l_end] in E4.
        assert (Z1 : (i =? t) = false) by now apply Nat.eqb_neq. assert (Z2 : (i =? x) = false) by now apply Nat.eqb_neq. rewrite Z1, Z2 in E4.
        cbn [negb] in E4. rewrite !lassert_true in E4. apply Nat.eqb_neq in Nih. rewrite Nih, Nat.eqb_refl in E4. unfold lret in E4. injection E4 as ->. reflexivity.
    - destruct P as (L & Lx & Pp & Cs). destruct Cs as [(E & Q)|(I & Il & N1 & Np)].
      + subst last. rewrite Nat.eqb_refl. exists h. split; [|exact R]. unfold l_splice_range, lbind, l_end. cbn [nonnull onat_eqb].
        rewrite !lassert_true, Nat.eqb_refl. destruct Q as [(-> & ->)|I].
        * reflexivity.
        * assert (Z2 : (first =? x) = false).
          { apply Nat.eqb_neq. intros ->. pose proof (Rep_notin _ _ _ _ R (live_Some _ _ Lx)). apply cn_In in I. lia. }
          assert (Z1 : (first =? t) = false).
          { apply Nat.eqb_neq. intros ->. destruct (Nat.eq_dec t x) as [->|N1]; [rewrite Nat.eqb_refl in Z2; discriminate|].
            destruct R as [[_ W2] _]. pose proof (W2 _ _ _ _ N1 (live_Some _ _ L) (live_Some _ _ Lx) t) as Z. rewrite ind_same in Z. apply cn_In in I. lia. }
          rewrite Z1, Z2. cbn [negb]. rewrite !lassert_true. reflexivity.
      + destruct (splice_range_good h F t pos x first last R L Lx Pp I Il N1 Np) as (h' & E1 & E2).
        apply Nat.eqb_neq in N1. rewrite N1. exists h'. rewrite (bind_ok _ _ _ _ _ E1). auto.
    - destruct P as (L & Lx & U). unfold l_swap. destruct (Nat.eqb_spec t x) as [->|N1].
      + exists h. split; [reflexivity|]. eapply Rep_ext; [|exact R]. intros u. unfold fset.
        destruct (Nat.eqb_spec u x) as [->|]; [now apply live_Some|reflexivity].
      + apply live_Some in L. apply live_Some in Lx. destruct (U _ _ L) as [Ut _]. destruct (U _ _ Lx) as [Ux _].
        set (lt := contents F t) in *. set (lx := contents F x) in *.
        destruct (new_runs h F tmp R U) as (h1 & E1 & R1).
        destruct (splice_all_runs dbg h1 _ tmp x [] [] lx R1 Ux) as (h2 & E2 & R2).
        { rewrite fset_ne by congruence. exact Lx. } { now rewrite fset_eq. }
        destruct (splice_all_runs dbg h2 _ x t [] [] lt R2) as (h3 & E3 & R3).
        { congruence. } { rewrite !fset_ne by congruence. exact L. } { rewrite fset_ne, fset_eq by auto. reflexivity. }
        destruct (splice_all_runs dbg h3 _ t tmp [] [] lx R3) as (h4 & E4 & R4).
        { congruence. } { rewrite !fset_ne, fset_eq, app_nil_r by auto. reflexivity. } { rewrite fset_ne, fset_eq by auto. reflexivity. }
        cbn [hd] in *. exists h4. split.
        * unfold lbind, l_end. rewrite E1, E2, E3, E4. reflexivity.
        * eapply Rep_ext; [|apply (Rep_drop _ _ tmp R4)]. intros u. cbn [app]. rewrite !app_nil_r. unfold fset.
          destruct (Nat.eqb_spec u tmp) as [->|Nu].
          -- assert (Z1 : (tmp =? t) = false) by now apply Nat.eqb_neq. assert (Z2 : (tmp =? x) = false) by now apply Nat.eqb_neq. rewrite Z1, Z2.
             destruct (F tmp) eqn:Q; [|reflexivity]. destruct (U _ _ Q). congruence.
          -- destruct (Nat.eqb_spec u t) as [->|]; [|destruct (u =? x); reflexivity]. assert (Z1 : (t =? x) = false) by now apply Nat.eqb_neq. rewrite Z1. reflexivity.
    - apply live_Some in P. exists h. split; [|exact R]. unfold l_size, l_begin, lbind, get_nx, lbind, deref.
      rewrite (ring_next _ _ _ _ R P). rewrite (size_loop_runs h F t (contents F t) R [] N 0 P FN). reflexivity.
    - apply live_Some in P. exists h. split; [|exact R]. unfold lbind. rewrite (empty_runs _ _ _ _ R P). reflexivity.
    - destruct P as (L & I). apply live_Some in L. exists h. split; [|exact R]. unfold l_front, l_begin, lbind. rewrite (empty_runs _ _ _ _ R L).
      destruct (contents F t) as [|e D]; [congruence|]. cbn [negb hd]. rewrite lassert_true. unfold get_nx, lbind, deref.
      rewrite (ring_next _ _ _ _ R L). unfold i_deref, lbind. cbn [nonnull]. rewrite lassert_true. reflexivity.
    - destruct P as (L & I). apply live_Some in L. exists h. split; [|exact R]. unfold l_back, l_end, lbind. rewrite (empty_runs _ _ _ _ R L).
      destruct (exists_last I) as (C & e & E). rewrite E in *. replace (match C ++ [e] with [] => true | _ => false end) with false by (destruct C; reflexivity).
      cbn [negb]. rewrite lassert_true. unfold i_dec, lbind. cbn [nonnull]. rewrite lassert_true. unfold get_pv, lbind, deref.
      rewrite (ring_prev _ _ _ _ R L), last_last. unfold i_deref, lbind. cbn [nonnull]. rewrite lassert_true, last_last. reflexivity.
    - apply live_Some in P. exists h. split; [|exact R]. unfold l_forward, l_begin, lbind, get_nx, lbind, deref.
      rewrite (ring_next _ _ _ _ R P). rewrite (fwd_loop_runs h F t (contents F t) R [] N [] P FN). reflexivity.
    - apply live_Some in P. exists h. split; [|exact R]. unfold l_backward, l_end, lbind.
      pose proof (bwd_loop_runs h F t R _ (contents F t) [] N [] eq_refl) as X. cbn [hd] in X. rewrite X; [reflexivity|rewrite app_nil_r; exact P|exact FN].
  Qed.

  (** a run of any number of calls *)
  Lemma run_good os : forall h F, Rep h F -> lpres dbg F os ->
    exists N0, forall N, N0 <= N -> exists h', l_run dbg N h os = Some (fst (lspec_run F os), h') /\ Rep h' (snd (lspec_run F os)).
  Proof.
    induction os as [|o os IH]; intros h F R P.
    - exists 0. intros N _. exists h. auto.
    - destruct P as [P Ps]. cbn [lspec_run].
      (* the heap after the first call does not depend on the fuel once it is large enough *)
      pose (n1 := match o with LSize t | LForward t | LBackward t => length (contents F t) | _ => 0 end).
      assert (FO : forall N, n1 <= N -> fuel_ok F o N) by (intros N; destruct o; cbn; auto).
      destruct (step_good h F o n1 R P (FO n1 (le_n n1))) as (h1 & E1 & R1).
      assert (Same : forall N, n1 <= N -> l_step dbg N o h = LOk (fst (lspec F o)) h1).
      { intros N LN. destruct (step_good h F o N R P (FO N LN)) as (h2 & E2 & R2).
        assert (h2 = h1); [|subst; exact E2].
        destruct o; try (cbn in E1, E2; congruence).
        - assert (X : forall N h', l_step dbg N (LSize t) h = LOk (fst (lspec F (LSize t))) h' -> h' = h).
          { clear -R P. intros N h' E. cbn in E, P. apply live_Some in P. unfold l_size, l_begin, lbind, get_nx, lbind, deref in E.
            rewrite (ring_next _ _ _ _ R P) in E.
            assert (Y : forall N i num r h', size_loop dbg N t i num h = LOk r h' -> h' = h).
            { clear. induction N; intros i num r h' E; cbn in E; destruct (onat_eqb i (l_end t)); try (unfold lret in E; congruence); try discriminate.
              unfold i_inc, lbind, lassert, get_nx, deref in E. destruct dbg, i; cbn in E; try discriminate; eapply IHN; exact E. }
            destruct (size_loop _ _ _ _ _ _) as [r h2| | |] eqn:Q; try discriminate. apply Y in Q. unfold lret in E. congruence. }
          rewrite (X _ _ E1), (X _ _ E2). reflexivity.
        - assert (X : forall N h', l_step dbg N (LForward t) h = LOk (fst (lspec F (LForward t))) h' -> h' = h).
          { clear -R P. intros N h' E. cbn in E, P. apply live_Some in P. unfold l_forward, l_begin, lbind, get_nx, lbind, deref in E.
            rewrite (ring_next _ _ _ _ R P) in E.
            assert (Y : forall N i num r h', fwd_loop dbg N t i num h = LOk r h' -> h' = h).
            { clear. induction N; intros i num r h' E; cbn in E; destruct (onat_eqb i (l_end t)); try (unfold lret in E; congruence); try discriminate.
              unfold i_inc, i_deref, lbind, lassert, get_nx, deref in E. destruct dbg, i; cbn in E; try discriminate; eapply IHN; exact E. }
            destruct (fwd_loop _ _ _ _ _ _) as [r h2| | |] eqn:Q; try discriminate. apply Y in Q. unfold lret in E. congruence. }
          rewrite (X _ _ E1), (X _ _ E2). reflexivity.
        - assert (X : forall N h', l_step dbg N (LBackward t) h = LOk (fst (lspec F (LBackward t))) h' -> h' = h).
          { clear -R P. intros N h' E. cbn in E, P. apply live_Some in P. unfold l_backward, lbind in E.
            assert (Y : forall N i num r h', bwd_loop dbg N t i num h = LOk r h' -> h' = h).
            { clear. induction N; intros i num r h' E; cbn in E; unfold lbind, l_begin, get_nx, lbind, deref in E; cbn in E;
                destruct (onat_eqb i (nx h t)); try (unfold lret in E; congruence); try discriminate.
              unfold i_dec, i_deref, lbind, lassert, get_pv, deref in E. destruct dbg, i; cbn in E; try discriminate;
                destruct (pv h n); cbn in E; try discriminate; eapply IHN; exact E. }
            destruct (bwd_loop _ _ _ _ _ _) as [r h2| | |] eqn:Q; try discriminate. apply Y in Q. unfold lret in E. congruence. }
          rewrite (X _ _ E1), (X _ _ E2). reflexivity. }
      destruct (IH h1 _ R1 Ps) as (N1 & HN). exists (max n1 N1). intros N LN.
      destruct (HN N) as (h' & E3 & R3); [lia|]. exists h'. cbn [l_run]. rewrite Same by lia. rewrite E3.
      destruct (lspec F o) as [r F']. cbn [fst snd] in *. destruct (lspec_run F' os) as [rs F'']. auto.
  Qed.
End Th.


Lemma unused_F0 d : unused F0 d.
Proof. intros t l E. discriminate. Qed.
Lemma unused_fset F t l d : unused F d -> d <> t -> ~ In d l -> unused (fset F t (Some l)) d.
Proof.
  intros U N I u m E. unfold fset in E. destruct (Nat.eqb_spec u t) as [->|]; [injection E as <-; auto|eauto].
Qed.
Lemma Rep0 : Rep h0 F0.
Proof. split; [split|]; discriminate. Qed.

Lemma lspec_run_app os1 : forall F os2,
  lspec_run F (os1 ++ os2) = (fst (lspec_run F os1) ++ fst (lspec_run (snd (lspec_run F os1)) os2),
                              snd (lspec_run (snd (lspec_run F os1)) os2)).
Proof.
  induction os1 as [|o os1 IH]; intros F os2; cbn; [now destruct (lspec_run F os2)|].
  destruct (lspec F o) as [r F']. rewrite IH. destruct (lspec_run F' os1). reflexivity.
Qed.
Lemma lpres_app dbg os1 : forall F os2, lpres dbg F (os1 ++ os2) <-> lpres dbg F os1 /\ lpres dbg (snd (lspec_run F os1)) os2.
Proof.
  induction os1 as [|o os1 IH]; intros F os2; cbn; [tauto|]. rewrite IH.
  destruct (lspec F o) as [r F']. cbn. destruct (lspec_run F' os1). cbn. tauto.
Qed.

Section Hist.
  Variable dbg : bool.
  Theorem history os : lpres dbg F0 os ->
    exists N0, forall N, N0 <= N -> exists h, l_run dbg N h0 os = Some (fst (lspec_run F0 os), h).
  Proof.
    intros P. destruct (run_good dbg os h0 F0 Rep0 P) as (N0 & H). exists N0. intros N L.
    destruct (H N L) as (h & E & _). eauto.
  Qed.
  Theorem extended os os2 : lpres dbg F0 os -> lpres dbg (after os) os2 ->
    exists N0, forall N, N0 <= N -> exists h,
      l_run dbg N h0 (os ++ os2) = Some (fst (lspec_run F0 os) ++ fst (lspec_run (after os) os2), h).
  Proof.
    intros P P2. destruct (history (os ++ os2)) as (N0 & H); [apply lpres_app; auto|].
    exists N0. intros N L. destruct (H N L) as (h & E). exists h. rewrite E, lspec_run_app. reflexivity.
  Qed.
  Lemma after_wf os : lpres dbg F0 os -> exists h, Rep h (after os).
  Proof.
    intros P. destruct (run_good dbg os h0 F0 Rep0 P) as (N0 & H). destruct (H N0 (le_n _)) as (h & _ & R). eauto.
  Qed.

  Theorem disjoint os : lpres dbg F0 os ->
    (forall t l, after os t = Some l -> NoDup (t :: l)) /\
    (forall t u l m n, t <> u -> after os t = Some l -> after os u = Some m -> In n (t :: l) -> ~ In n (u :: m)).
  Proof.
    intros P. destruct (after_wf _ P) as (h & [[W1 W2] _]). split.
    - intros t l E. apply (NoDup_count_occ Nat.eq_dec). intros n. specialize (W1 _ _ E n).
      assert (X : forall l, count_occ Nat.eq_dec l n = cn n l).
      { clear. induction l as [|a l IH]; cbn; [reflexivity|]. unfold ind. destruct (Nat.eq_dec a n), (Nat.eqb_spec a n); try congruence; lia. }
      rewrite X. exact W1.
    - intros t u l m n N E1 E2 I1 I2. specialize (W2 _ _ _ _ N E1 E2 n). apply cn_In in I1, I2. cbn in I1, I2. lia.
  Qed.

  (** lists that are not arguments *)
  Lemma lspec_frame F o u : ~ In u (largs o) -> snd (lspec F o) u = F u.
  Proof.
    intros N. destruct o; cbn in N |- *; rewrite ?fset_ne by (intros ->; apply N; tauto); auto.
    - destruct (pos =? i); [reflexivity|]. unfold move. rewrite ?fset_ne by (intros ->; apply N; tauto). reflexivity.
    - destruct (first =? last); [reflexivity|]. unfold move. rewrite ?fset_ne by (intros ->; apply N; tauto). reflexivity.
  Qed.
  Theorem frame os o u : lpres dbg F0 (os ++ [o]) -> live (after os) u -> ~ In u (largs o) ->
    exists N0, forall N, N0 <= N -> exists r l h,
      l_run dbg N h0 (os ++ [LForward u; LBackward u; o; LForward u; LBackward u]) =
      Some (fst (lspec_run F0 os) ++ [LSeq l; LSeq (rev l); r; LSeq l; LSeq (rev l)], h).
  Proof.
    intros P L N. apply lpres_app in P as [P1 [P2 _]]. fold (after os) in P2. 
    assert (X : snd (lspec (after os) o) u = after os u) by now apply lspec_frame.
    assert (Y : contents (snd (lspec (after os) o)) u = contents (after os) u) by (unfold contents; now rewrite X).
    destruct (extended os [LForward u; LBackward u; o; LForward u; LBackward u] P1) as (N0 & H).
    { cbn. unfold live in *. rewrite X. auto 7. }
    exists N0. intros M LM. destruct (H M LM) as (h & E).
    exists (fst (lspec (after os) o)), (contents (after os) u), h. rewrite E.
    cbn. destruct (lspec (after os) o) as [r F']. cbn in *. now rewrite Y.
  Qed.

  (** splice *)
  Lemma hd_neq h F t C D : Rep h F -> F t = Some (C ++ D) -> cn (hd t D) C = 0.
  Proof.
    intros R E. pose proof (Rep_cn _ _ _ _ (hd t D) R E) as X. rewrite cn_app in X.
    destruct D; cbn in *; rewrite ind_same in X; lia.
  Qed.
  Lemma before_hd t C D : cn (hd t D) C = 0 -> before (hd t D) (C ++ D) = C /\ from (hd t D) (C ++ D) = D.
  Proof.
    destruct D as [|d D]; cbn; intros X.
    - rewrite app_nil_r. rewrite before_none, from_none by assumption. auto.
    - rewrite before_at, from_at by assumption. auto.
  Qed.
  Lemma is_pos_hd F t C D : F t = Some (C ++ D) -> is_pos F t (hd t D).
  Proof.
    intros E. unfold is_pos. rewrite (contents_Some _ _ _ E). destruct D as [|d D]; cbn; [auto|]. right. apply in_or_app. cbn. auto.
  Qed.

  Lemma range_parts h F x P m M' R : Rep h F -> F x = Some (P ++ (m :: M') ++ R) ->
    In m (contents F x) /\ before m (contents F x) = P /\ from m (contents F x) = (m :: M') ++ R /\
    m <> hd x R /\ before (hd x R) ((m :: M') ++ R) = m :: M' /\ from (hd x R) ((m :: M') ++ R) = R /\
    (hd x R = x \/ In (hd x R) (from m (contents F x))).
  Proof.
    intros HR E. rewrite (contents_Some _ _ _ E).
    pose proof (hd_neq _ _ _ _ _ HR E) as Z1. cbn [app hd] in Z1.
    assert (E' : F x = Some ((P ++ m :: M') ++ R)) by (rewrite <- app_assoc; exact E).
    pose proof (hd_neq _ _ _ _ _ HR E') as Z2. rewrite cn_app in Z2.
    destruct (before_hd x (m :: M') R) as [B1 B2]; [lia|].
    destruct (before_hd x P (m :: M' ++ R)) as [B3 B4]; [exact Z1|]. cbn [hd] in B3, B4.
    cbn [app] in *. split; [apply in_or_app; cbn; auto|]. split; [exact B3|]. split; [exact B4|].
    assert (N : m <> hd x R). { intros ->. cbn [cn] in Z2. rewrite ind_same in Z2. lia. }
    split; [exact N|]. split; [exact B1|]. split; [exact B2|].
    destruct R as [|r R]; [now left|right]. cbn [hd]. rewrite B4. right. apply in_or_app. cbn. auto.
  Qed.

  Theorem splice_other os t x P M R C D :
    lpres dbg F0 os -> t <> x -> after os x = Some (P ++ M ++ R) -> after os t = Some (C ++ D) -> M <> [] ->
    exists N0, forall N, N0 <= N -> exists h,
      l_run dbg N h0 (os ++ [LSpliceRange t (hd t D) x (hd x M) (hd x R); LForward t; LForward x]) =
      Some (fst (lspec_run F0 os) ++ [LUnit; LSeq (C ++ M ++ D); LSeq (P ++ R)], h).
  Proof.
    intros Ps N Ex Et NM. destruct M as [|m M']; [congruence|]. destruct (after_wf _ Ps) as (h & HR).
    destruct (range_parts _ _ _ _ _ _ _ HR Ex) as (I & B & Fr & Ne & B2 & F2 & Il).
    destruct (before_hd t C D (hd_neq _ _ _ _ _ HR Et)) as [B3 F3].
    destruct (extended os [LSpliceRange t (hd t D) x m (hd x R); LForward t; LForward x] Ps) as (N0 & H).
    - cbn. split; [|split; [|split; [|exact Logic.I]]].
      + unfold live. rewrite Ex, Et. split; [congruence|]. split; [congruence|]. split; [apply (is_pos_hd _ _ _ _ Et)|].
        right. split; [exact I|]. split; [exact Il|]. split; [exact Ne|]. rewrite Fr, B2. intros Z.
        destruct HR as [[_ W2] _]. pose proof (W2 _ _ _ _ N Et Ex (hd t D)) as W. rewrite !cn_app in W. apply cn_In in Z.
        assert (1 <= ind t (hd t D) + cn (hd t D) D) by (destruct D; cbn; rewrite ind_same; lia). cbn [app cn] in *. rewrite ?cn_app in W. lia.
      + apply Nat.eqb_neq in Ne. rewrite Ne. unfold move, live. cbn. rewrite fset_eq. discriminate.
      + apply Nat.eqb_neq in Ne. rewrite Ne. unfold move, live. cbn. rewrite fset_ne, fset_eq by auto. discriminate.
    - exists N0. intros K LK. destruct (H K LK) as (h' & E). exists h'. cbn [hd]. rewrite E.
      cbn [lspec_run lspec]. apply Nat.eqb_neq in Ne. rewrite Ne. cbn [fst]. unfold move.
      rewrite Fr, B, B2, F2. rewrite contents_fset. rewrite !contents_fset_ne with (u := x) by auto. rewrite contents_fset.
      rewrite contents_fset_ne by auto. rewrite (contents_Some _ _ _ Et), B3, F3. reflexivity.
  Qed.

  Theorem splice_same_backward os t P Q M R :
    lpres dbg F0 os -> after os t = Some (P ++ Q ++ M ++ R) -> Q <> [] -> M <> [] ->
    exists N0, forall N, N0 <= N -> exists h,
      l_run dbg N h0 (os ++ [LSpliceRange t (hd t Q) t (hd t M) (hd t R); LForward t]) =
      Some (fst (lspec_run F0 os) ++ [LUnit; LSeq (P ++ M ++ Q ++ R)], h).
  Proof.
    intros Ps Ex NQ NM. destruct M as [|m M']; [congruence|]. destruct Q as [|q Q']; [congruence|].
    destruct (after_wf _ Ps) as (h & HR).
    assert (Ex' : after os t = Some ((P ++ q :: Q') ++ (m :: M') ++ R)) by (rewrite <- app_assoc; exact Ex).
    destruct (range_parts _ _ _ _ _ _ _ HR Ex') as (I & B & Fr & Ne & B2 & F2 & Il).
    pose proof (Rep_cn _ _ _ _ q HR Ex) as W. rewrite !cn_app in W. cbn in W. rewrite ind_same in W.
    destruct (extended os [LSpliceRange t q t m (hd t R); LForward t] Ps) as (N0 & H).
    - cbn. split; [|split; [|exact Logic.I]].
      + unfold live. rewrite Ex. split; [congruence|]. split; [congruence|].
        split; [right; rewrite (contents_Some _ _ _ Ex); apply in_or_app; cbn; auto|].
        right. split; [exact I|]. split; [exact Il|]. split; [exact Ne|]. rewrite Fr, B2. intros Z. apply cn_In in Z. cbn in Z. lia.
      + apply Nat.eqb_neq in Ne. rewrite Ne. unfold move, live. cbn. rewrite fset_eq. discriminate.
    - exists N0. intros K LK. destruct (H K LK) as (h' & E). exists h'. cbn [hd]. rewrite E.
      cbn [lspec_run lspec]. apply Nat.eqb_neq in Ne. rewrite Ne. cbn [fst]. unfold move.
      rewrite Fr, B, B2, F2, !contents_fset. rewrite <- app_assoc. cbn [app]. rewrite before_at, from_at by lia. reflexivity.
  Qed.
  Theorem splice_same_forward os t P M Q R :
    lpres dbg F0 os -> after os t = Some (P ++ M ++ Q ++ R) -> M <> [] ->
    exists N0, forall N, N0 <= N -> exists h,
      l_run dbg N h0 (os ++ [LSpliceRange t (hd t R) t (hd t M) (hd t (Q ++ R)); LForward t]) =
      Some (fst (lspec_run F0 os) ++ [LUnit; LSeq (P ++ Q ++ M ++ R)], h).
  Proof.
    intros Ps Ex NM. destruct M as [|m M']; [congruence|].
    destruct (after_wf _ Ps) as (h & HR).
    destruct (range_parts _ _ _ _ _ _ _ HR Ex) as (I & B & Fr & Ne & B2 & F2 & Il).
    assert (Ex' : after os t = Some ((P ++ (m :: M') ++ Q) ++ R)) by (rewrite <- !app_assoc; exact Ex).
    pose proof (hd_neq _ _ _ _ _ HR Ex') as W. rewrite !cn_app in W.
    destruct (extended os [LSpliceRange t (hd t R) t m (hd t (Q ++ R)); LForward t] Ps) as (N0 & H).
    - cbn. split; [|split; [|exact Logic.I]].
      + unfold live. rewrite Ex. split; [congruence|]. split; [congruence|].
        split; [apply (is_pos_hd _ _ _ _ Ex')|].
        right. split; [exact I|]. split; [exact Il|]. split; [exact Ne|]. rewrite Fr, B2. intros Z. apply cn_In in Z. cbn in Z, W. lia.
      + apply Nat.eqb_neq in Ne. rewrite Ne. unfold move, live. cbn. rewrite fset_eq. discriminate.
    - exists N0. intros K LK. destruct (H K LK) as (h' & E). exists h'. cbn [hd]. rewrite E.
      cbn [lspec_run lspec]. apply Nat.eqb_neq in Ne. rewrite Ne. cbn [fst]. unfold move.
      rewrite Fr, B, B2, F2, !contents_fset. rewrite (app_assoc P Q R).
      destruct (before_hd t (P ++ Q) R) as [B3 F3]; [rewrite cn_app; lia|]. rewrite B3, F3, <- app_assoc. reflexivity.
  Qed.
  Theorem swap_exchanges os t x tmp lt lx :
    lpres dbg F0 os -> after os t = Some lt -> after os x = Some lx -> unused (after os) tmp ->
    exists N0, forall N, N0 <= N -> exists h,
      l_run dbg N h0 (os ++ [LSwap t x tmp; LForward t; LForward x]) =
      Some (fst (lspec_run F0 os) ++ [LUnit; LSeq lx; LSeq lt], h).
  Proof.
    intros Ps Et Ex U. destruct (extended os [LSwap t x tmp; LForward t; LForward x] Ps) as (N0 & H).
    - cbn. unfold live. rewrite Et, Ex. split; [split; [|split; [|exact U]]; congruence|].
      split; [|split; [|exact I]].
      + unfold fset. destruct (t =? x); [discriminate|]. rewrite Nat.eqb_refl. discriminate.
      + rewrite fset_eq. discriminate.
    - exists N0. intros K LK. destruct (H K LK) as (h' & E). exists h'. rewrite E. cbn. rewrite contents_fset.
      rewrite (contents_Some _ _ _ Et), (contents_Some _ _ _ Ex). do 3 f_equal.
      destruct (Nat.eq_dec t x) as [->|N].
      + rewrite contents_fset. rewrite Et in Ex. congruence.
      + rewrite contents_fset_ne by auto. rewrite contents_fset. reflexivity.
  Qed.
  Theorem traversals os t l : lpres dbg F0 os -> after os t = Some l ->
    exists N0, forall N, N0 <= N -> exists h,
      l_run dbg N h0 (os ++ [LForward t; LBackward t; LSize t; LEmpty t]) =
      Some (fst (lspec_run F0 os) ++ [LSeq l; LSeq (rev l); LNum (length l); LBool (match l with [] => true | _ => false end)], h).
  Proof.
    intros Ps Et. destruct (extended os [LForward t; LBackward t; LSize t; LEmpty t] Ps) as (N0 & H).
    - cbn. unfold live. rewrite Et. repeat split; congruence.
    - exists N0. intros K LK. destruct (H K LK) as (h' & E). exists h'. rewrite E. cbn. rewrite (contents_Some _ _ _ Et). reflexivity.
  Qed.

  (** an element erased from a list is in no list *)
  Theorem erased_unused os t pos : lpres dbg F0 (os ++ [LErase t pos]) -> unused (after (os ++ [LErase t pos])) pos.
  Proof.
    intros P u l E. pose proof (lpres_app dbg os F0 [LErase t pos]) as X. apply X in P as [P1 [P2 _]]. clear X. cbn in P2.
    destruct P2 as [L I]. fold (after os) in L, I. destruct (after_wf _ P1) as (h & HR).
    unfold after in E. rewrite lspec_run_app in E. fold (after os) in E. cbn in E.
    pose proof (live_Some _ _ L) as Et. destruct (in_ring _ _ _ _ HR L (or_intror I)) as (C & D & Ht & Ec & Ep & EB & EF & Z).
    assert (Q : 1 <= cn pos (contents (after os) t)) by now apply cn_In.
    unfold fset in E. destruct (Nat.eqb_spec u t) as [->|Nu].
    - injection E as <-. rewrite EB, EF. pose proof (Rep_cn _ _ _ _ pos HR Ht) as W. rewrite cn_app in W. rewrite Ec, cn_app in Q.
      split.
      + intros ->. rewrite ind_same in W. lia.
      + rewrite cn_notIn, cn_app. destruct D as [|d D]; [cbn in *; lia|]. cbn in Ep. subst d. cbn in W |- *. rewrite ind_same in W. lia.
    - destruct HR as [[_ W2] _]. pose proof (W2 _ _ _ _ Nu E Et pos) as W. split.
      + intros ->. rewrite ind_same in W. lia.
      + rewrite cn_notIn. lia.
  Qed.

  Theorem reinsert os t pos u q :
    lpres dbg F0 (os ++ [LErase t pos]) -> live (after (os ++ [LErase t pos])) u -> is_pos (after (os ++ [LErase t pos])) u q ->
    exists N0, forall N, N0 <= N -> exists outs h,
      l_run dbg N h0 ((os ++ [LErase t pos]) ++ [LInsert u q pos; LForward u]) =
      Some (outs ++ [LIter pos; LSeq (before q (contents (after (os ++ [LErase t pos])) u) ++ pos :: from q (contents (after (os ++ [LErase t pos])) u))], h).
  Proof.
    intros P L Q. destruct (extended (os ++ [LErase t pos]) [LInsert u q pos; LForward u] P) as (N0 & H).
    - cbn. split; [split; [exact L|split; [exact Q|now apply erased_unused]]|]. split; [|exact I]. unfold live. rewrite fset_eq. discriminate.
    - exists N0. intros N LN. destruct (H N LN) as (h & E). rewrite E. do 2 eexists. cbn. rewrite contents_fset. reflexivity.
  Qed.
  Theorem splice_one_other os t x i P R C D :
    lpres dbg F0 os -> t <> x -> after os x = Some (P ++ i :: R) -> after os t = Some (C ++ D) ->
    exists N0, forall N, N0 <= N -> exists h,
      l_run dbg N h0 (os ++ [LSpliceOne t (hd t D) x i; LForward t; LForward x]) =
      Some (fst (lspec_run F0 os) ++ [LUnit; LSeq (C ++ i :: D); LSeq (P ++ R)], h).
  Proof.
    intros Ps N Ex Et. destruct (after_wf _ Ps) as (h & HR).
    destruct (range_parts _ _ x P i [] R HR Ex) as (I & B & Fr & Ne & B2 & F2 & Il).
    destruct (before_hd t C D (hd_neq _ _ _ _ _ HR Et)) as [B3 F3].
    assert (Np : (hd t D =? i) = false).
    { apply Nat.eqb_neq. intros Z. destruct HR as [[_ W2] _]. pose proof (W2 _ _ _ _ N Et Ex i) as W. rewrite !cn_app in W. cbn in W. rewrite ind_same in W.
      assert (1 <= ind t i + cn i D) by (destruct D; cbn in Z |- *; subst; rewrite ind_same; lia). lia. }
    destruct (extended os [LSpliceOne t (hd t D) x i; LForward t; LForward x] Ps) as (N0 & H).
    - cbn. rewrite Np. split; [|split; [|split; [|exact Logic.I]]].
      + unfold live. rewrite Ex, Et. split; [congruence|]. split; [congruence|]. split; [apply (is_pos_hd _ _ _ _ Et)|exact I].
      + unfold move, live. cbn. rewrite fset_eq. discriminate.
      + unfold move, live. cbn. rewrite fset_ne, fset_eq by auto. discriminate.
    - exists N0. intros K LK. destruct (H K LK) as (h' & E). exists h'. rewrite E.
      cbn [lspec_run lspec]. rewrite Np. cbn [fst]. unfold move.
      rewrite Fr. cbn [app tl] in *. rewrite B, B2, F2. rewrite contents_fset. rewrite !contents_fset_ne with (u := x) by auto. rewrite contents_fset.
      rewrite contents_fset_ne by auto. rewrite (contents_Some _ _ _ Et), B3, F3. reflexivity.
  Qed.
  Theorem splice_whole os t x M C D :
    lpres dbg F0 os -> t <> x -> after os x = Some M -> after os t = Some (C ++ D) ->
    exists N0, forall N, N0 <= N -> exists h,
      l_run dbg N h0 (os ++ [LSpliceAll t (hd t D) x; LForward t; LForward x]) =
      Some (fst (lspec_run F0 os) ++ [LUnit; LSeq (C ++ M ++ D); LSeq []], h).
  Proof.
    intros Ps N Ex Et. destruct (after_wf _ Ps) as (h & HR).
    destruct (before_hd t C D (hd_neq _ _ _ _ _ HR Et)) as [B3 F3].
    destruct (extended os [LSpliceAll t (hd t D) x; LForward t; LForward x] Ps) as (N0 & H).
    - cbn. split; [|split; [|split; [|exact Logic.I]]].
      + unfold live. rewrite Ex, Et. split; [congruence|]. split; [congruence|]. split; [exact N|]. apply (is_pos_hd _ _ _ _ Et).
      + unfold live. rewrite fset_eq. discriminate.
      + unfold live. rewrite fset_ne, fset_eq by auto. discriminate.
    - exists N0. intros K LK. destruct (H K LK) as (h' & E). exists h'. rewrite E. cbn.
      rewrite contents_fset. rewrite !contents_fset_ne with (u := x) by auto. rewrite contents_fset.
      rewrite (contents_Some _ _ _ Et), (contents_Some _ _ _ Ex), B3, F3. reflexivity.
  Qed.

  (** copying a node *)
  Theorem copy_construct os d s : lpres dbg F0 os -> unused (after os) d ->
    forall t, live (after os) t ->
    exists N0, forall N, N0 <= N -> exists outs h h' h'', l_run dbg N h0 os = Some (outs, h) /\
      l_node_assign d s h = LOk tt h' /\
      l_run dbg N h' [LForward t; LBackward t] = Some ([LSeq (contents (after os) t); LSeq (rev (contents (after os) t))], h'').
  Proof.
    intros P U t L. destruct (run_good dbg os h0 F0 Rep0 P) as (N0 & H).
    exists (max N0 (length (contents (after os) t))). intros N LN. destruct (H N ltac:(lia)) as (h & E & R). fold (after os) in R.
    pose (h' := mkh (hupd (nx h) d (nx h s)) (hupd (pv h) d (pv h s))).
    assert (R' : Rep h' (after os)).
    { split; [apply R|]. intros u l Hu. eapply frame_list; [apply R; exact Hu|]. intros n Hn. cbn.
      rewrite !hupd_ne; [auto| |]; intros ->; pose proof (unused_cn _ _ _ _ U Hu); lia. }
    destruct (step_good dbg h' (after os) (LForward t) N R') as (h1 & E1 & R1); [exact L|cbn; lia|].
    destruct (step_good dbg h1 (after os) (LBackward t) N R1) as (h2 & E2 & R2); [exact L|cbn; lia|].
    exists (fst (lspec_run F0 os)), h, h', h2. split; [exact E|]. split; [reflexivity|].
    cbn [l_run]. rewrite E1, E2. reflexivity.
  Qed.
End Hist.

Theorem empty_range_at_end h t pos x : l_splice_range true t (Some pos) x (Some x) (Some x) h = LAssert h.
Proof.
  unfold l_splice_range, lbind, lassert. cbn. destruct (x =? t); cbn; [reflexivity|]. rewrite Nat.eqb_refl. reflexivity.
Qed.

(** concrete histories *)
Ltac solve_pre :=
  repeat match goal with
  | |- _ /\ _ => split
  | |- unused F0 _ => apply unused_F0
  | |- unused (fset _ _ _) _ => apply unused_fset
  | |- live _ _ => cbv; discriminate
  | |- is_pos _ _ _ => cbv; tauto
  | |- _ => progress cbn
  | |- _ => solve [cbv; auto 10; intuition (discriminate || lia)]
  end.

(** lists 0 and 1, elements 10.. *)
Definition sample : list lop :=
  [LNew 0; LNew 1; LPushBack 0 10; LPushBack 0 11; LPushFront 0 12; LInsert 0 11 13; LPushBack 1 20; LPushBack 1 21].


Lemma assign_breaks :
  lpres true F0 sample /\ after sample 0 = Some [12; 10; 13; 11] /\
  match l_run true 20 h0 sample with
  | Some (_, h) => match l_node_assign 10 11 h with
                   | LOk _ h' => match l_run true 20 h' [LForward 0] with Some (r, _) => r = [LSeq [12; 10]] | None => False end
                   | _ => False
                   end
  | None => False
  end.
Proof. split; [solve_pre|]. split; [reflexivity|]. vm_compute. reflexivity. Qed.
