(** Proofs about Container.VectorModel. *)
From Verif Require Import Base.ZList Spec.SeqSpec Container.Mem Container.Triple Container.Rep Container.Loops
  Container.GenInsert Container.ListRep Container.VectorModel.

Section VP.
  Context {V : Type}.
  Variable cap : Z.
  Variable torn dflt : V.
  Variable dbg : bool.
  Hypothesis Hcap : 0 <= cap < 2 ^ 63.

  Definition vph (a : Z) : Z := a.
  Definition vok (lo : Z) : Prop := lo = 0.

  Lemma vgeo : geo cap cap vph vok Z.add Z.sub.
  Proof.
    unfold vph, vok. split; intros; subst; try lia; auto.
  Qed.

  Notation VR := (fun nf s l => LRep cap cap vph vok dflt nf s 0 l).
  Notation vexc := (@Exc V cap cap vph vok).

  Lemma vinc_ok : inc_ok cap vph (@v_inc_end V) 0.
  Proof.
    intros s a Ha Hm Hlt. unfold v_inc_end, bind, get_me, set_me. rewrite Hm. unfold vph.
    rewrite w64_small by (rewrite W64_val; lia). reflexivity.
  Qed.
  Lemma vend (s : st V) : v_end s = Ok (me s) s.
  Proof. reflexivity. Qed.
  Lemma vfuel_ok : cap <= Z.of_nat (vfuel cap).
  Proof. unfold vfuel. lia. Qed.
  Hint Resolve vgeo vinc_ok vend vfuel_ok : core.

  Lemma VR_me nf s l : VR nf s l -> me s = lenz l.
  Proof. intros R. exact (R_me _ _ _ _ _ _ _ _ _ R). Qed.
  Lemma VR_len nf s l : VR nf s l -> 0 <= lenz l <= cap.
  Proof. intros R. apply (LRep_len _ _ _ _ _ _ _ _ _ R). Qed.

  Lemma vexc_LRep nf e s : vexc nf e s -> e = ElemExn /\ nf = false /\ exists l, VR nf s l.
  Proof.
    intros H. destruct (Exc_LRep _ _ _ _ dflt _ _ _ H) as (-> & Hn & lo & l & R). repeat split; auto.
    pose proof (R_ok _ _ _ _ _ _ _ _ _ R) as ->. eauto.
  Qed.

  Definition vrefok (l : list V) (r : ref V) (v : V) : Prop :=
    r = RVal v \/ exists i, 0 <= i < lenz l /\ r = RSlot i /\ nthz dflt l i = v.

  Lemma vrefok_refok l r v : vrefok l r v -> refok vph (fun _ => True) 0 (0 + lenz l) (fun a => nthz dflt l (a - 0)) r v.
  Proof.
    intros [->|(i & Hi & -> & Hv)]; [now left|]. right. exists i. repeat split; try lia; auto.
    rewrite <- Hv. f_equal; lia.
  Qed.
  Lemma vrefok_app l l' r v : vrefok l r v -> vrefok (l ++ l') r v.
  Proof.
    intros [->|(i & Hi & -> & Hv)]; [now left|]. right. exists i.
    pose proof (lenz_nonneg l'). rewrite lenz_app. repeat split; try lia; auto.
    rewrite nthz_app by lia. destruct (Z.ltb_spec i (lenz l)); [exact Hv|lia].
  Qed.

  (** push_back, including a reference to an own element *)
  Lemma v_push_back_runs nf s l r v :
    VR nf s l -> vrefok l r v ->
    runs (v_push_back cap r) s
      (fun _ s' => lenz l < cap /\ VR nf s' (l ++ [v]))
      (fun e s' => (e = BadAlloc /\ lenz l = cap /\ s' = s) \/ (e = ElemExn /\ nf = false /\ VR nf s' l)).
  Proof.
    intros R Hr. pose proof (VR_me _ _ _ R) as Hme. pose proof (VR_len _ _ _ R) as Hlen.
    unfold v_push_back, v_full, v_size.
    eapply runs_bind_ok with (a := (me s =? cap)); [reflexivity|].
    destruct (Z.eqb_spec (me s) cap) as [He|He].
    - left. repeat split; congruence || auto.
    - eapply runs_bind_ok; [apply vend|].
      eapply runs_bind_ok; [eapply (deref_ok cap cap vph vok Z.add Z.sub vgeo); [exact R|apply vrefok_refok; exact Hr]|].
      change (me s) with (vph (me s)). rewrite Hme.
      pose proof (runs_ctor_back cap cap vph vok (g_cap _ _ _ _ _ _ vgeo) (g_range _ _ _ _ _ _ vgeo)
        (g_inj _ _ _ _ _ _ vgeo) nf s 0 (0 + lenz l) _ v v_inc_end (fun u => ret u)
        (fun _ s' => lenz l < cap /\ VR nf s' (l ++ [v]))
        (fun e s' => (e = BadAlloc /\ lenz l = cap /\ s' = s) \/ (e = ElemExn /\ nf = false /\ VR nf s' l))
        vinc_ok R) as H.
      assert (H' : runs (ctor cap (vph (0 + lenz l)) v;;; (x <- v_inc_end;; ret x)) s
        (fun _ s' => lenz l < cap /\ VR nf s' (l ++ [v]))
        (fun e s' => (e = BadAlloc /\ lenz l = cap /\ s' = s) \/ (e = ElemExn /\ nf = false /\ VR nf s' l))).
      { apply H; clear H; [lia| |].
        - intros s' R'. apply runs_ret. split; [lia|]. eapply LRep_intro; [exact R'| |].
          + rewrite lenz_app, lenz_1. lia.
          + rewrite lenz_app, lenz_1. intros k Hk. unfold setF. rewrite nthz_app by lia.
            bcase; try lia; try (f_equal; lia).
            replace (k - lenz l) with 0 by lia. reflexivity.
        - intros Hn s' R'. right. auto. }
      unfold runs, bind, ret in *. unfold vph in *. replace (0 + lenz l) with (lenz l) in H' by lia.
      destruct (ctor cap (lenz l) v s); auto.
  Qed.

  Lemma v_destroy_range_runs nf s l x y E :
    VR nf s l -> 0 <= x <= y -> y <= lenz l ->
    runs (v_destroy_range cap x y) s
      (fun _ s' => Hole cap cap vph vok nf s' 0 (0 + lenz l) x y (fun a => nthz dflt l (a - 0))) E.
  Proof.
    intros R Hx Hy. pose proof (VR_len _ _ _ R) as Hlen. unfold v_destroy_range.
    eapply runs_bind.
    - apply (loop_destroy cap cap vph vok Z.add Z.sub vgeo (vfuel cap) nf s 0 (0 + lenz l) (fun a => nthz dflt l (a - 0)) x y E); auto; try lia.
      pose proof vfuel_ok. lia.
    - intros a s' H. apply runs_ret. exact H.
  Qed.

  (** truncation: destroy [n, size) and set m_end *)
  Lemma v_truncate nf s l n (setter : M V unit) E :
    VR nf s l -> 0 <= n <= lenz l ->
    (forall s', me s' = lenz l -> setter s' = Ok tt (mkst (mem s') (mb s') n (fuse s'))) ->
    runs (v_destroy_range cap n (lenz l) ;;; setter) s (fun _ s' => VR nf s' (takez n l)) E.
  Proof.
    intros R Hn Hset. eapply runs_bind; [eapply (v_destroy_range_runs nf s l n (lenz l)); [exact R|lia|lia]|].
    cbn beta. intros _ s' H.
    assert (Hm : me s' = lenz l) by (rewrite (H_me _ _ _ _ _ _ _ _ _ _ _ H); reflexivity).
    unfold runs. rewrite (Hset s' Hm). 
    assert (R' : Rep cap cap vph vok nf (mkst (mem s') (mb s') n (fuse s')) 0 n (fun a => nthz dflt l (a - 0))).
    { eapply Hole_back; [exact H|lia|..]; reflexivity. }
    eapply LRep_intro; [exact R'| |].
    - rewrite lenz_takez; lia.
    - rewrite lenz_takez by lia. intros k Hk. rewrite nthz_takez by lia. f_equal; lia.
  Qed.

  Lemma v_clear_runs nf s l E : VR nf s l -> runs (v_clear cap) s (fun _ s' => VR nf s' []) E.
  Proof.
    intros R. pose proof (VR_me _ _ _ R) as Hme. pose proof (VR_len _ _ _ R) as Hlen.
    unfold v_clear. eapply runs_bind_ok; [apply vend|]. rewrite Hme.
    apply (v_truncate nf s l 0 (set_me 0) E R); [lia|]. reflexivity.
  Qed.

  Lemma v_pop_back_runs nf s l E :
    VR nf s l -> l <> [] -> runs (v_pop_back cap dbg) s (fun _ s' => VR nf s' (takez (lenz l - 1) l)) E.
  Proof.
    intros R Hne. pose proof (VR_me _ _ _ R) as Hme. pose proof (VR_len _ _ _ R) as Hlen.
    pose proof (lenz_pos _ Hne) as Hpos.
    unfold v_pop_back, v_empty, v_size. eapply runs_bind_ok; [reflexivity|].
    eapply runs_dassert; [intros _; destruct (Z.eqb_spec (me s) 0); [lia|reflexivity]|].
    eapply runs_bind_ok; [apply vend|]. rewrite Hme.
    pose proof (runs_dtor cap cap vph vok (g_cap _ _ _ _ _ _ vgeo) (g_range _ _ _ _ _ _ vgeo) (g_inj _ _ _ _ _ _ vgeo)
      nf s 0 (0 + lenz l) (lenz l - 1) (lenz l - 1) (fun a => nthz dflt l (a - 0))
      (fun _ => e' <- get_me ;; set_me (w64 (e' - 1))) (fun _ s' => VR nf s' (takez (lenz l - 1) l)) E) as H.
    apply H; [apply Rep_Hole; exact R|lia|lia|].
    intros s' H'. eapply runs_get_me.
    assert (Hm : me s' = lenz l) by (rewrite (H_me _ _ _ _ _ _ _ _ _ _ _ H'); reflexivity).
    rewrite Hm, w64_small by (rewrite W64_val; lia).
    unfold runs, set_me.
    assert (R' : Rep cap cap vph vok nf (mkst (mem s') (mb s') (lenz l - 1) (fuse s')) 0 (lenz l - 1)
                     (fun a => nthz dflt l (a - 0))).
    { apply (Hole_back cap cap vph vok nf s' 0 (0 + lenz l) (lenz l - 1)); [|lia|reflexivity..].
      replace (lenz l - 1 + 1) with (0 + lenz l) in H' by lia. exact H'. }
    eapply LRep_intro; [exact R'| |].
    - rewrite lenz_takez; lia.
    - rewrite lenz_takez by lia. intros k Hk. rewrite nthz_takez by lia. f_equal; lia.
  Qed.

  (** resize, including a reference to an own element *)
  Definition vspecE (nf : bool) (l : list V) (o : op V) (e : exn) (s' : st V) : Prop :=
    (fst (seq_step dflt cap l o) = OExn e /\ VR nf s' l) \/ vexc nf e s'.

  Lemma v_resize_runs nf s l n r v :
    VR nf s l -> 0 <= n < 2 ^ 64 -> (lenz l < n <= cap -> vrefok l r v) ->
    runs (v_resize cap n r) s
      (fun _ s' => fst (seq_step dflt cap l (Resize n v)) = OUnit /\ VR nf s' (snd (seq_step dflt cap l (Resize n v))))
      (vspecE nf l (Resize n v)).
  Proof.
    intros R Hn Hr. pose proof (VR_me _ _ _ R) as Hme. pose proof (VR_len _ _ _ R) as Hlen.
    unfold v_resize, v_size. eapply runs_get_me. rewrite Hme. unfold vspecE. cbn [seq_step].
    destruct (Z.leb_spec n (lenz l)) as [H1|H1].
    - eapply runs_bind_ok; [apply vend|]. rewrite Hme. cbn [fst snd].
      eapply runs_weaken; [apply (v_truncate nf s l n (set_me n) (fun _ _ => False) R); [lia|reflexivity]| |].
      + auto.
      + contradiction.
    - destruct (Z.ltb_spec cap n) as [H2|H2].
      + left. split; auto.
      + cbn [fst snd]. rewrite w64_small by (rewrite W64_val; lia).
        specialize (Hr ltac:(lia)).
        eapply runs_bind.
        * eapply (loop_rule (fun k a s' => a = k /\ VR nf s' (l ++ repz v k)) _ _ _ (n - lenz l)); [lia| | | |].
          -- pose proof vfuel_ok. lia.
          -- split; [reflexivity|]. cbn. rewrite app_nil_r. exact R.
          -- intros k a s0 Hk [-> R0]. split; [unfold ret; bcase; [reflexivity|lia]|].
             pose proof (VR_len _ _ _ R0) as Hl0. rewrite lenz_app, lenz_repz in Hl0 by lia.
             eapply runs_bind.
             ++ eapply runs_weaken; [eapply (v_push_back_runs nf s0 _ r v R0); apply vrefok_app; exact Hr| |].
                ** intros a s' H. exact H.
                ** intros e s' [(-> & Hc & _)|(-> & Hnf & R')].
                   --- rewrite lenz_app, lenz_repz in Hc by lia. lia.
                   --- right. eapply Exc_intro; [exact Hnf|exact R'].
             ++ intros u s' [_ R']. apply runs_ret. split; [lia|].
                rewrite repz_snoc by lia. rewrite app_assoc. exact R'.
          -- intros a s0 [-> _]. unfold ret. bcase; [lia|reflexivity].
        * intros a s' [_ R']. apply runs_ret. auto.
  Qed.

  Lemma v_assign_n_runs nf s l n v :
    VR nf s l -> 0 <= n < 2 ^ 64 ->
    runs (v_assign_n cap n (RVal v)) s
      (fun _ s' => fst (seq_step dflt cap l (AssignN n v)) = OUnit /\ VR nf s' (snd (seq_step dflt cap l (AssignN n v))))
      (vspecE nf l (AssignN n v)).
  Proof.
    intros R Hn. unfold v_assign_n, vspecE. cbn [seq_step]. destruct (Z.ltb_spec cap n) as [H2|H2].
    - left. split; auto.
    - cbn [fst snd]. eapply runs_bind; [apply (v_clear_runs nf s l); exact R|]. cbn beta. intros _ s1 R1.
      eapply runs_weaken; [eapply (v_resize_runs nf s1 [] n (RVal v) v R1 ltac:(lia) (fun _ => or_introl eq_refl))| |].
      + intros a s' [_ R']. split; [reflexivity|]. cbn [seq_step] in R'.
        change (lenz (@nil V)) with 0 in R'. destruct (Z.leb_spec n 0).
        * cbn [snd] in R'. replace n with 0 in * by lia. exact R'.
        * destruct (Z.ltb_spec cap n); [lia|]. cbn [snd app] in R'. now replace (n - 0) with n in R' by lia.
      + intros e s' [[He _]|H]; [|right; exact H]. cbn [seq_step fst] in He. change (lenz (@nil V)) with 0 in He.
        destruct (Z.leb_spec n 0); [discriminate|]. destruct (Z.ltb_spec cap n); [lia|discriminate].
  Qed.

  Lemma v_assign_range_runs nf s l xs :
    VR nf s l -> lenz xs < 2 ^ 64 ->
    runs (v_assign_range cap xs) s
      (fun _ s' => fst (seq_step dflt cap l (AssignRange xs)) = OUnit /\
                   VR nf s' (snd (seq_step dflt cap l (AssignRange xs))))
      (vspecE nf l (AssignRange xs)).
  Proof.
    intros R Hn. pose proof (lenz_nonneg xs). unfold v_assign_range, vspecE. cbn [seq_step].
    rewrite w64_small by (rewrite W64_val; lia). destruct (Z.ltb_spec cap (lenz xs)) as [H2|H2].
    - left. split; auto.
    - cbn [fst snd]. eapply runs_bind; [apply (v_clear_runs nf s l); exact R|]. cbn beta. intros _ s1 R1.
      eapply runs_bind.
      + eapply (loop_rule (fun k a s' => a = k /\ VR nf s' (takez k xs)) _ _ _ (lenz xs)); [lia|unfold lenz; lia| | |].
        * split; [reflexivity|exact R1].
        * intros k a s0 Hk [-> R0]. split; [unfold ret; bcase; [lia|reflexivity]|].
          eapply (runs_rdin dflt); [lia|].
          eapply runs_bind.
          -- eapply runs_weaken; [eapply (v_push_back_runs nf s0 _ (RVal (nthz dflt xs k)) _ R0); now left| |].
             ++ intros a s' H3. exact H3.
             ++ intros e s' [(-> & Hc & _)|(-> & Hnf & R')].
                ** rewrite lenz_takez in Hc by lia. lia.
                ** right. eapply Exc_intro; [exact Hnf|exact R'].
          -- intros u s' [_ R']. apply runs_ret. split; [lia|]. rewrite (takez_snoc dflt) by lia. exact R'.
        * intros a s0 [-> _]. unfold ret. bcase; [reflexivity|lia].
      + intros a s' [_ R']. apply runs_ret. rewrite takez_all in R'. auto.
  Qed.

  Lemma avail_ok nf s l : VR nf s l -> v_available_size cap s = Ok (cap - lenz l) s.
  Proof.
    intros R. pose proof (VR_me _ _ _ R) as Hme. pose proof (VR_len _ _ _ R) as Hlen.
    unfold v_available_size, v_size, bind, get_me, ret. rewrite Hme, w64_small by (rewrite W64_val; lia). reflexivity.
  Qed.

  (** insert_n, including a reference to an own element: the value stored is read after the move, so an element
      moved up by n that lies at or behind p + n is seen as the one n places before it *)
  Lemma v_insert_n_runs nf s l p n r v :
    VR nf s l -> 0 <= p <= lenz l -> 0 <= n < 2 ^ 64 ->
    (r = RVal v \/ exists i, 0 <= i < lenz l /\ r = RSlot i /\ v = nthz dflt l (if p + n <=? i then i - n else i)) ->
    runs (v_insert_n cap torn dflt p n r) s
      (fun _ s' => cap - lenz l >= n /\ VR nf s' (insert_seq l p (repz v n)))
      (fun e s' => (e = BadAlloc /\ cap - lenz l < n /\ s' = s) \/ vexc nf e s').
  Proof.
    intros R Hp Hn Hr. pose proof (VR_me _ _ _ R) as Hme. pose proof (VR_len _ _ _ R) as Hlen.
    unfold v_insert_n, v_insert_n_rest. eapply runs_bind_ok; [exact (avail_ok nf s l R)|].
    destruct (Z.ltb_spec (cap - lenz l) n) as [H1|H1]; [left; auto|].
    eapply runs_bind_ok; [apply vend|]. rewrite Hme. rewrite !(w64_small (lenz l - p)) by (rewrite W64_val; lia).
    destruct (Z.ltb_spec n (lenz l - p)) as [Hlt|Hge].
    2: rewrite w64_small by (rewrite W64_val; lia).
    all: eapply runs_weaken;
      [ pose proof (gen_insert_n_end cap cap vph vok Z.add Z.sub torn dflt vgeo (vfuel cap) vfuel_ok v_end vend v_inc_end
          nf s 0 (0 + lenz l) _ p n r v vinc_ok R ltac:(lia) ltac:(lia)) as H;
        unfold g_insert_n_end in H; replace (0 + lenz l) with (lenz l) in H by lia;
        destruct (Z.ltb_spec n (lenz l - p)); try lia; apply H; clear H;
        destruct Hr as [->|(i & Hi & -> & Hv)];
          [left; reflexivity|right; exists i; repeat split; try lia; rewrite Hv; bcase; f_equal; lia]
      | cbn beta; intros _ s' R'; split; [lia|];
        eapply LRep_intro; [exact R'| |];
          [rewrite lenz_insert_seq, lenz_repz by lia; lia
          |rewrite lenz_insert_seq, lenz_repz by lia; intros k Hk; rewrite nthz_insert_seq by lia;
           rewrite lenz_repz by lia; unfold insF; bcase; try lia; try (f_equal; lia);
           rewrite nthz_repz by lia; reflexivity]
      | intros e s' H; right; exact H ].
  Qed.

  Lemma v_insert_range_runs nf s l p xs :
    VR nf s l -> 0 <= p <= lenz l -> lenz xs < 2 ^ 64 ->
    runs (v_insert_range cap torn dflt p xs) s
      (fun _ s' => cap - lenz l >= lenz xs /\ VR nf s' (insert_seq l p xs))
      (fun e s' => (e = BadAlloc /\ cap - lenz l < lenz xs /\ s' = s) \/ vexc nf e s').
  Proof.
    intros R Hp Hn. pose proof (VR_me _ _ _ R) as Hme. pose proof (VR_len _ _ _ R) as Hlen.
    pose proof (lenz_nonneg xs) as Hx.
    unfold v_insert_range, v_insert_range_rest. eapply runs_bind_ok; [exact (avail_ok nf s l R)|].
    rewrite !(w64_small (lenz xs)) by (rewrite W64_val; lia).
    destruct (Z.ltb_spec (cap - lenz l) (lenz xs)) as [H1|H1]; [left; auto|].
    eapply runs_bind_ok; [apply vend|]. rewrite Hme. rewrite !(w64_small (lenz l - p)) by (rewrite W64_val; lia).
    destruct (Z.ltb_spec (lenz xs) (lenz l - p)) as [Hlt|Hge].
    2: rewrite w64_small by (rewrite W64_val; lia).
    all: eapply runs_weaken;
      [ pose proof (gen_insert_range_end cap cap vph vok Z.add Z.sub torn dflt vgeo (vfuel cap) vfuel_ok v_end vend v_inc_end
          nf s 0 (0 + lenz l) _ p (lenz xs) xs vinc_ok R ltac:(lia) ltac:(lia) eq_refl) as H;
        unfold g_insert_range_end in H; replace (0 + lenz l) with (lenz l) in H by lia;
        destruct (Z.ltb_spec (lenz xs) (lenz l - p)); try lia; apply H
      | cbn beta; intros _ s' R'; split; [lia|];
        eapply LRep_intro; [exact R'| |];
          [rewrite lenz_insert_seq by lia; lia
          |rewrite lenz_insert_seq by lia; intros k Hk; rewrite nthz_insert_seq by lia;
           unfold insF; bcase; try lia; try (f_equal; lia)]
      | intros e s' H; right; exact H ].
  Qed.

  Lemma v_erase_range_runs nf s l p q :
    VR nf s l -> 0 <= p <= q -> q <= lenz l -> (dbg = true -> p < q) ->
    runs (v_erase_range cap torn dbg p q) s
      (fun it s' => it = p /\ VR nf s' (erase_seq l p q)) (vexc nf).
  Proof.
    intros R Hp Hq Hd. pose proof (VR_me _ _ _ R) as Hme. pose proof (VR_len _ _ _ R) as Hlen.
    unfold v_erase_range, v_begin.
    eapply runs_dassert; [intros H; specialize (Hd H); bcase; [reflexivity|lia]|].
    eapply runs_bind_ok; [apply vend|]. rewrite Hme.
    eapply runs_dassert; [intros H; specialize (Hd H); bcase; try reflexivity; lia|].
    eapply runs_dassert; [intros H; specialize (Hd H); bcase; try reflexivity; lia|].
    eapply runs_bind.
    { eapply (loop_shift_down cap cap vph vok Z.add Z.sub torn vgeo (vfuel cap)
        (fun it => e <- v_end ;; ret (negb (it =? e))) nf s 0 (0 + lenz l) (fun a => nthz dflt l (a - 0)) q (lenz l) (q - p)); try lia.
      - pose proof vfuel_ok. lia.
      - exact R.
      - intros s' a F' R' Ha. unfold bind, v_end, get_me, ret, v_begin. cbn.
        rewrite (R_me _ _ _ _ _ _ _ _ _ R'). unfold vph. reflexivity. }
    cbn beta. intros _ s1 R1. pose proof (R_me _ _ _ _ _ _ _ _ _ R1) as Hme1. unfold vph in Hme1.
    eapply runs_bind_ok; [apply vend|]. rewrite Hme1. replace (0 + lenz l) with (lenz l) by lia.
    unfold v_destroy_range. apply runs_assoc.
    eapply runs_bind.
    { eapply (loop_destroy cap cap vph vok Z.add Z.sub vgeo (vfuel cap) nf s1 0 (0 + lenz l) _ (lenz l - (q - p)) (lenz l));
        try lia; [pose proof vfuel_ok; lia|exact R1]. }
    cbn beta. intros _ s2 H2. eapply runs_bind_ok; [reflexivity|]. eapply runs_get_me.
    rewrite (H_me _ _ _ _ _ _ _ _ _ _ _ H2). unfold vph. 
    rewrite w64_small by (rewrite W64_val; lia).
    eapply runs_bind_ok; [reflexivity|]. apply runs_ret. split; [reflexivity|].
    eapply LRep_intro with (hi := lenz l - (q - p)).
    - eapply (Hole_back cap cap vph vok); [exact H2|lia|reflexivity|reflexivity|reflexivity|].
      cbn [me]. unfold vph. lia.
    - rewrite lenz_erase_seq by lia. lia.
    - rewrite lenz_erase_seq by lia. intros k Hk. rewrite nthz_erase_seq by lia.
      bcase; try lia; f_equal; lia.
  Qed.

  Lemma v_rd_ok nf s l i : VR nf s l -> 0 <= i < lenz l -> rd cap i s = Ok (nthz dflt l i) s.
  Proof.
    intros R Hi. pose proof (Rep_rd cap cap vph vok (g_cap _ _ _ _ _ _ vgeo) (g_range _ _ _ _ _ _ vgeo) nf s 0 _ _ i R) as H.
    unfold vph in H. rewrite H by lia. do 2 f_equal. lia.
  Qed.

  Lemma v_read_all_runs nf s l E : VR nf s l -> runs (v_read_all cap) s (fun r s' => s' = s /\ r = l) E.
  Proof.
    intros R. pose proof (VR_len _ _ _ R) as Hlen. unfold v_read_all.
    eapply runs_bind.
    - apply (loop_read cap cap vph vok Z.add Z.sub vgeo (vfuel cap) _ nf s 0 (0 + lenz l)
        (fun a => nthz dflt l (a - 0))); auto.
      + pose proof vfuel_ok. lia.
      + intros a la Ha. unfold bind, v_end, get_me, ret, v_begin. cbn.
        rewrite (R_me _ _ _ _ _ _ _ _ _ R). reflexivity.
    - cbn beta. intros r s' [-> Hr]. apply runs_ret. split; [reflexivity|]. rewrite Hr.
      rewrite <- (tabz_nthz dflt l) at 2. replace (0 + lenz l - 0) with (lenz l) by lia.
      apply tabz_ext. intros k Hk. f_equal; lia.
  Qed.

  (** the main refinement lemma *)
  Lemma v_step_runs nf s l o :
    VR nf s l -> seq_pre dbg false l o ->
    runs (v_step cap torn dflt dbg o) s
      (fun r s' => r = fst (seq_step dflt cap l o) /\ VR nf s' (snd (seq_step dflt cap l o)))
      (vspecE nf l o).
  Proof.
    intros R Hpre. pose proof (VR_me _ _ _ R) as Hme. pose proof (VR_len _ _ _ R) as Hlen.
    assert (Hpos : forall p, 0 <= p <= lenz l -> v_pos_ok (v_begin + p) s = Ok true s).
    { intros p Hp. unfold v_pos_ok, v_begin, bind, v_end, get_me, ret. cbn. rewrite Hme.
      f_equal. bcase; try reflexivity; lia. }
    destruct o as [v| |v| |p v|p n v|p n v|p xs|p|p q|n v|xs|n v| |i|i| | | | | | |];
      cbn [seq_pre] in Hpre; try (destruct Hpre; discriminate); try discriminate; cbn [v_step].
    - (* PushBack *)
      eapply runs_bind; [eapply runs_weaken; [eapply (v_push_back_runs nf s l (RVal v) v R); now left| |]|].
      + intros a s' H. exact H.
      + unfold vspecE; cbn [seq_step]. intros e s' [(-> & Hc & ->)|(-> & Hn & R')].
        * left. rewrite Hc, Z.eqb_refl. auto.
        * right. eapply Exc_intro; [exact Hn|exact R'].
      + cbn beta. intros _ s' [Hlt R']. apply runs_ret. cbn [seq_step].
        destruct (Z.eqb_spec (lenz l) cap); [lia|]. auto.
    - (* PopBack *)
      eapply runs_bind; [exact (v_pop_back_runs nf s l _ R Hpre)|]. cbn beta. intros _ s' R'. apply runs_ret. auto.
    - (* InsertOne *)
      unfold v_insert_one. apply runs_assoc. eapply runs_bind_ok; [apply Hpos; lia|].
      apply runs_assoc. eapply runs_dassert; [reflexivity|]. apply runs_assoc.
      eapply runs_bind; [eapply runs_weaken; [eapply (v_insert_n_runs nf s l p 1 (RVal v) v R); auto; lia| |]|].
      + intros a s' H. exact H.
      + unfold vspecE; cbn [seq_step]. intros e s' [(-> & Hc & ->)|H]; [left|right; exact H].
        destruct (Z.ltb_spec (cap - lenz l) 1); [auto|lia].
      + cbn beta. intros _ s' [Hlt R']. apply runs_ret. cbn [seq_step].
        destruct (Z.ltb_spec (cap - lenz l) 1); [lia|]. cbn [fst snd]. split; [f_equal; unfold v_begin; lia|exact R'].
    - (* InsertN *)
      destruct Hpre as [Hp Hn]. unfold szt in Hn.
      unfold v_insert_cnt. apply runs_assoc. eapply runs_bind_ok; [apply Hpos; lia|].
      apply runs_assoc. eapply runs_dassert; [reflexivity|].
      eapply runs_bind; [eapply runs_weaken; [eapply (v_insert_n_runs nf s l p n (RVal v) v R); auto; lia| |]|].
      + intros a s' H. exact H.
      + unfold vspecE; cbn [seq_step]. intros e s' [(-> & Hc & ->)|H]; [left|right; exact H].
        destruct (Z.ltb_spec (cap - lenz l) n); [auto|lia].
      + cbn beta. intros _ s' [Hlt R']. apply runs_ret. cbn [seq_step].
        destruct (Z.ltb_spec (cap - lenz l) n); [lia|]. auto.
    - (* InsertInt *)
      assert (Hn : 0 <= n mod 2 ^ 64 < 2 ^ 64) by (apply Z.mod_pos_bound; lia).
      unfold v_insert_int. apply runs_assoc. eapply runs_bind_ok; [apply Hpos; lia|].
      apply runs_assoc. eapply runs_dassert; [reflexivity|].
      change (w64 n) with (n mod 2 ^ 64).
      eapply runs_bind; [eapply runs_weaken; [eapply (v_insert_n_runs nf s l p (n mod 2 ^ 64) (RVal v) v R); auto; lia| |]|].
      + intros a s' H. exact H.
      + unfold vspecE; cbn [seq_step]. intros e s' [(-> & Hc & ->)|H]; [left|right; exact H].
        destruct (Z.ltb_spec (cap - lenz l) (n mod 2 ^ 64)); [auto|lia].
      + cbn beta. intros _ s' [Hlt R']. apply runs_ret. cbn [seq_step].
        destruct (Z.ltb_spec (cap - lenz l) (n mod 2 ^ 64)); [lia|]. auto.
    - (* InsertRange *)
      destruct Hpre as [Hp Hn]. unfold szt in Hn.
      unfold v_insert_rng. apply runs_assoc. eapply runs_bind_ok; [apply Hpos; lia|].
      apply runs_assoc. eapply runs_dassert; [reflexivity|].
      eapply runs_bind; [eapply runs_weaken; [eapply (v_insert_range_runs nf s l p xs R); auto; lia| |]|].
      + intros a s' H. exact H.
      + unfold vspecE; cbn [seq_step]. intros e s' [(-> & Hc & ->)|H]; [left|right; exact H].
        destruct (Z.ltb_spec (cap - lenz l) (lenz xs)); [auto|lia].
      + cbn beta. intros _ s' [Hlt R']. apply runs_ret. cbn [seq_step].
        destruct (Z.ltb_spec (cap - lenz l) (lenz xs)); [lia|]. auto.
    - (* EraseOne *)
      unfold v_erase_one. apply runs_assoc. eapply runs_bind_ok; [apply vend|].
      apply runs_assoc. eapply runs_dassert; [intros _; unfold v_begin; bcase; try reflexivity; lia|].
      eapply runs_bind; [eapply runs_weaken; [eapply (v_erase_range_runs nf s l p (p + 1) R); intros; lia| |]|].
      + intros a s' H. exact H.
      + intros e s' H. right. exact H.
      + cbn beta. intros a s' [-> R']. apply runs_ret. cbn [seq_step fst snd].
        split; [f_equal; unfold v_begin; lia|exact R'].
    - (* EraseRange *)
      destruct Hpre as (Hp & Hq & Hd).
      eapply runs_bind; [eapply runs_weaken; [eapply (v_erase_range_runs nf s l p q R); auto| |]|].
      + intros a s' H. exact H.
      + intros e s' H. right. exact H.
      + cbn beta. intros a s' [-> R']. apply runs_ret. cbn [seq_step fst snd].
        split; [f_equal; unfold v_begin; lia|exact R'].
    - (* AssignN *)
      eapply runs_bind; [exact (v_assign_n_runs nf s l n v R Hpre)|]. cbn beta. intros _ s' [H1 H2]. apply runs_ret. auto.
    - (* AssignRange *)
      eapply runs_bind; [exact (v_assign_range_runs nf s l xs R (proj2 Hpre))|].
      cbn beta. intros _ s' [H1 H2]. apply runs_ret. auto.
    - (* Resize *)
      eapply runs_bind; [eapply (v_resize_runs nf s l n (RVal v) v R Hpre); intros; now left|].
      cbn beta. intros _ s' [H1 H2]. apply runs_ret. auto.
    - (* Clear *)
      eapply runs_bind; [apply (v_clear_runs nf s l); exact R|]. cbn beta. intros _ s' R'. apply runs_ret. auto.
    - (* At *)
      unfold v_at, v_size, vspecE. cbn [seq_step]. apply runs_assoc. eapply runs_get_me. rewrite Hme.
      unfold szt in Hpre.
      destruct (Z.leb_spec (lenz l) i), (Z.ltb_spec i (lenz l)); try lia.
      + left. auto.
      + eapply runs_bind_ok; [unfold v_begin; apply (v_rd_ok nf s l); [exact R|lia]|]. apply runs_ret. auto.
    - (* Index *)
      unfold v_index. eapply runs_bind_ok; [unfold v_begin; apply (v_rd_ok nf s l); [exact R|lia]|]. apply runs_ret. auto.
    - (* Front *)
      pose proof (lenz_pos _ Hpre) as Hp.
      unfold v_front, v_empty, v_size. apply runs_assoc. eapply runs_bind_ok; [reflexivity|]. apply runs_assoc.
      eapply runs_dassert; [intros _; destruct (Z.eqb_spec (me s) 0); [lia|reflexivity]|].
      eapply runs_bind_ok; [unfold v_begin; apply (v_rd_ok nf s l); [exact R|lia]|]. apply runs_ret. auto.
    - (* Back *)
      pose proof (lenz_pos _ Hpre) as Hp.
      unfold v_back, v_empty, v_size. apply runs_assoc. eapply runs_bind_ok; [reflexivity|]. apply runs_assoc.
      eapply runs_dassert; [intros _; destruct (Z.eqb_spec (me s) 0); [lia|reflexivity]|].
      apply runs_assoc. eapply runs_bind_ok; [apply vend|]. rewrite Hme.
      eapply runs_bind_ok; [apply (v_rd_ok nf s l); [exact R|lia]|]. apply runs_ret. auto.
    - (* Size *)
      eapply runs_get_me. apply runs_ret. rewrite Hme. auto.
    - (* AvailableSize *)
      eapply runs_bind_ok; [exact (avail_ok nf s l R)|]. apply runs_ret. auto.
    - (* IsEmpty *)
      eapply runs_bind_ok; [reflexivity|]. apply runs_ret. rewrite Hme. auto.
    - (* IsFull *)
      eapply runs_bind_ok; [reflexivity|]. apply runs_ret. rewrite Hme. auto.
    - (* ReadAll *)
      eapply runs_bind; [exact (v_read_all_runs nf s l _ R)|]. cbn beta. intros r s' [-> ->]. apply runs_ret. auto.
  Qed.
End VP.
