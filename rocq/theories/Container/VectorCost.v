(** Copy counts and frames of the vector operations. *)
From Verif Require Import Base.ZList Spec.SeqSpec Spec.CopySpec Container.Mem Container.Triple Container.Rep Container.Loops
  Container.GenInsert Container.ListRep Container.Cost Container.GenCost Container.VectorModel Container.VectorProofs.

Section VC.
  Context {V : Type}.
  Variable cap : Z.
  Variable torn dflt : V.
  Variable dbg : bool.
  Hypothesis Hcap : 0 <= cap < 2 ^ 63.
  Variable R : Z -> Prop.

  Notation ends hi := (@at_ends V 0 hi).
  Notation G := (vgeo cap Hcap).

  Ltac look := let s2 := fresh "s2" in let F1 := fresh "F" in let F2 := fresh "F" in intros s2 F1 F2;
    cbv beta iota delta [v_size v_available_size v_empty v_full v_end v_begin v_pos_ok bind get_me get_mb ret];
    rewrite ?F1, ?F2; reflexivity.

  Lemma vlooks_end (s : st V) : looks v_end s (me s).
  Proof. look. Qed.
  Lemma vlooks_mb (s : st V) : looks get_mb s (mb s).
  Proof. look. Qed.

  Lemma vc_inc lo s : ends lo s -> 0 <= lo < cap -> acts R 0 (fun _ s' => ends (lo + 1) s') v_inc_end s.
  Proof.
    intros [H1 H2] Hlo. unfold v_inc_end. apply (acts_look _ _ _ _ _ _ (me s)); [look|]. rewrite H2.
    rewrite w64_small by (rewrite W64_val; lia).
    intros u s' E. pose proof (acts_set_me R 0 (fun _ s1 => ends (lo + 1) s1) (lo + 1) (fun u => ret u) s) as H.
    apply (H (acts_ret _ _ _ _ (conj H1 eq_refl)) u s'). exact E.
  Qed.

  Lemma vc_push_back sz v s :
    ends sz s -> 0 <= sz < cap -> ~ R sz -> acts R 1 (fun _ s' => ends (sz + 1) s') (v_push_back cap (RVal v)) s.
  Proof.
    intros [H1 H2] Hsz HR. unfold v_push_back. apply (acts_look _ _ _ _ _ _ (me s =? cap)); [look|]. rewrite H2.
    destruct (Z.eqb_spec sz cap); [lia|]. apply (acts_look _ _ _ _ _ _ (me s)); [look|]. rewrite H2.
    apply (acts_look _ _ _ _ _ _ v); [look|].
    apply (acts_bind R 1 0 (still s)); [lia|now apply acts_ctor|]. intros [] s1 [E1 E2].
    apply vc_inc; [split; congruence|lia].
  Qed.

  Lemma vc_destroy sz x y s :
    ends sz s -> 0 <= sz <= cap -> 0 <= x <= y -> y <= sz -> (forall a, x <= a < y -> ~ R a) ->
    acts R 0 (fun _ s' => ends sz s') (v_destroy_range cap x y) s.
  Proof.
    intros Hs Hsz Hx Hy HR. unfold v_destroy_range.
    apply (acts_bind R 0 0 (fun _ s' => ends sz s')); [lia| |intros _ s' H; now apply acts_ret].
    apply (cost_destroy cap cap vph vok Z.add Z.sub G (vfuel cap) R 0 sz x y s); auto; lia.
  Qed.

  Lemma vc_set_me x (sz : Z) s : ends sz s -> acts R 0 (fun (_ : unit) s' => ends x s') (set_me x) s.
  Proof.
    intros [H1 H2] u s' E. pose proof (acts_set_me R 0 (fun _ s1 => ends x s1) x (fun u => ret u) s) as H.
    apply (H (acts_ret _ _ _ _ (conj H1 eq_refl)) u s'). exact E.
  Qed.

  Lemma vc_clear sz s :
    ends sz s -> 0 <= sz <= cap -> (forall a, 0 <= a < sz -> ~ R a) -> acts R 0 (fun _ s' => ends 0 s') (v_clear cap) s.
  Proof.
    intros Hs Hsz HR. unfold v_clear. apply (acts_look _ _ _ _ _ _ (me s)); [look|]. rewrite (proj2 Hs).
    apply (acts_bind R 0 0 (fun _ s' => ends sz s')); [lia|apply vc_destroy; auto; unfold v_begin; lia|].
    intros _ s1 H1. eapply vc_set_me; exact H1.
  Qed.

  Lemma vc_resize sz n v s :
    ends sz s -> 0 <= sz <= cap -> 0 <= n <= cap ->
    (forall a, n <= a < sz -> ~ R a) -> (forall a, sz <= a < n -> ~ R a) ->
    acts R (Z.max 0 (n - sz)) (fun _ s' => ends n s') (v_resize cap n (RVal v)) s.
  Proof.
    intros Hs Hsz Hn HR1 HR2. unfold v_resize. apply (acts_look _ _ _ _ _ _ (me s)); [look|]. rewrite (proj2 Hs).
    destruct (Z.leb_spec n sz) as [Hle|Hgt].
    - replace (Z.max 0 (n - sz)) with 0 by lia. apply (acts_look _ _ _ _ _ _ (me s)); [look|]. rewrite (proj2 Hs).
      apply (acts_bind R 0 0 (fun _ s' => ends sz s')); [lia|apply vc_destroy; auto; unfold v_begin; lia|].
      intros _ s1 H1. eapply vc_set_me; exact H1.
    - destruct (Z.ltb_spec cap n); [lia|]. rewrite w64_small by (rewrite W64_val; lia).
      replace (Z.max 0 (n - sz)) with (n - sz) by lia.
      apply (acts_bind R (n - sz) 0 (fun (_ : Z) s' => ends n s')); [lia| |intros _ s1 H1; now apply acts_ret].
      apply (acts_weaken R _ (fun i s' => i = n - sz /\ ends (sz + (n - sz)) s')).
      2:{ intros a s' [_ H1]. now replace (sz + (n - sz)) with n in H1 by lia. }
      apply (acts_loop1 R (fun k i s' => i = k /\ ends (sz + k) s')); [lia| | |].
      + split; [reflexivity|]. now replace (sz + 0) with sz by lia.
      + intros k a s1 Hk [-> H1]. split; [apply looks_ret_eq; bcase; [reflexivity|lia]|].
        apply (acts_bind R 1 0 (fun _ s' => ends (sz + k + 1) s')); [lia|apply vc_push_back; [exact H1|lia|apply HR2; lia]|].
        intros _ s2 H2. apply acts_ret. split; [reflexivity|]. now replace (sz + (k + 1)) with (sz + k + 1) by lia.
      + intros a s1 [-> H1]. apply looks_ret_eq. bcase; [lia|reflexivity].
  Qed.

  Lemma vc_assign_n sz n v s :
    ends sz s -> 0 <= sz <= cap -> 0 <= n <= cap -> (forall a, 0 <= a < cap -> ~ R a) ->
    acts R n (fun _ s' => ends n s') (v_assign_n cap n (RVal v)) s.
  Proof.
    intros Hs Hsz Hn HR. unfold v_assign_n. destruct (Z.ltb_spec cap n); [lia|].
    apply (acts_bind R 0 n (fun _ s' => ends 0 s')); [lia|apply (vc_clear sz); auto; intros; apply HR; lia|].
    intros _ s1 H1. replace n with (Z.max 0 (n - 0)) at 1 by lia. apply vc_resize; auto; try lia; intros; apply HR; lia.
  Qed.

  Lemma vc_assign_range sz xs s :
    ends sz s -> 0 <= sz <= cap -> lenz xs <= cap -> (forall a, 0 <= a < cap -> ~ R a) ->
    acts R (lenz xs) (fun _ s' => ends (lenz xs) s') (v_assign_range cap xs) s.
  Proof.
    intros Hs Hsz Hn HR. pose proof (lenz_nonneg xs) as H0. unfold v_assign_range.
    rewrite w64_small by (rewrite W64_val; lia). destruct (Z.ltb_spec cap (lenz xs)); [lia|].
    apply (acts_bind R 0 (lenz xs) (fun _ s' => ends 0 s')); [lia|apply (vc_clear sz); auto; intros; apply HR; lia|].
    intros _ s1 H1.
    apply (acts_bind R (lenz xs) 0 (fun (_ : Z) s' => ends (lenz xs) s')); [lia| |intros _ s2 H2; now apply acts_ret].
    eapply acts_drop.
    apply (acts_loop1 R (fun k i s' => i = k /\ ends k s')); [lia|split; [reflexivity|exact H1]| |].
    - intros k a s2 Hk [-> H2]. split; [apply looks_ret_eq; bcase; [lia|reflexivity]|].
      apply (acts_bind R 0 1 (fun _ s' => s' = s2)); [lia|apply acts_rdin|]. intros x s3 ->.
      apply (acts_bind R 1 0 (fun _ s' => ends (k + 1) s')); [lia|apply vc_push_back; [exact H2|lia|apply HR; lia]|].
      intros _ s4 H4. apply acts_ret. split; [reflexivity|exact H4].
    - intros a s2 [-> H2]. apply looks_ret_eq. bcase; [reflexivity|lia].
  Qed.

  Lemma vc_insert_n sz p n v s :
    ends sz s -> 0 <= p <= sz -> sz <= cap -> 0 <= n <= cap - sz -> (forall a, p <= a < sz + n -> ~ R a) ->
    acts R (insert_copies n (sz - p)) (fun _ s' => ends (sz + n) s') (v_insert_n cap torn dflt p n (RVal v)) s.
  Proof.
    intros Hs Hp Hsz Hn HR. unfold v_insert_n, v_insert_n_rest.
    apply (acts_look _ _ _ _ _ _ (w64 (cap - me s))); [look|]. rewrite (proj2 Hs).
    rewrite w64_small by (rewrite W64_val; lia). destruct (Z.ltb_spec (cap - sz) n); [lia|].
    apply (acts_look _ _ _ _ _ _ (me s)); [look|]. rewrite (proj2 Hs).
    rewrite (w64_small (sz - p)) by (rewrite W64_val; lia). cbn beta zeta.
    pose proof (cost_insert_n_end cap cap vph vok Z.add Z.sub torn dflt G (vfuel cap) v_end vlooks_end v_inc_end R
      0 sz p n v s (vinc_ok cap Hcap) Hs ltac:(lia) ltac:(lia) HR) as H1.
    unfold g_insert_n_end in H1. destruct (Z.ltb_spec n (sz - p)); [exact H1|].
    rewrite (w64_small (n - _)) by (rewrite W64_val; lia). exact H1.
  Qed.

  Lemma vc_insert_range sz p xs s :
    ends sz s -> 0 <= p <= sz -> sz <= cap -> lenz xs <= cap - sz -> (forall a, p <= a < sz + lenz xs -> ~ R a) ->
    acts R (insert_copies (lenz xs) (sz - p)) (fun _ s' => ends (sz + lenz xs) s') (v_insert_range cap torn dflt p xs) s.
  Proof.
    intros Hs Hp Hsz Hn HR. pose proof (lenz_nonneg xs) as H0. unfold v_insert_range, v_insert_range_rest.
    rewrite !(w64_small (lenz xs)) by (rewrite W64_val; lia).
    apply (acts_look _ _ _ _ _ _ (w64 (cap - me s))); [look|]. rewrite (proj2 Hs).
    rewrite w64_small by (rewrite W64_val; lia). destruct (Z.ltb_spec (cap - sz) (lenz xs)); [lia|].
    apply (acts_look _ _ _ _ _ _ (me s)); [look|]. rewrite (proj2 Hs).
    rewrite (w64_small (sz - p)) by (rewrite W64_val; lia). cbn beta zeta.
    pose proof (cost_insert_range_end cap cap vph vok Z.add Z.sub torn dflt G (vfuel cap) v_end vlooks_end v_inc_end R
      0 sz p (lenz xs) xs s (vinc_ok cap Hcap) Hs ltac:(lia) ltac:(lia) eq_refl HR) as H1.
    unfold g_insert_range_end in H1. destruct (Z.ltb_spec (lenz xs) (sz - p)); [exact H1|].
    rewrite (w64_small (lenz xs - _)) by (rewrite W64_val; lia). exact H1.
  Qed.

  Lemma vc_erase_range sz p q s :
    ends sz s -> 0 <= p <= q -> q <= sz -> sz <= cap -> (forall a, p <= a < sz -> ~ R a) ->
    acts R (sz - q) (fun _ s' => ends (sz - (q - p)) s') (v_erase_range cap torn dbg p q) s.
  Proof.
    intros Hs Hp Hq Hsz HR. unfold v_erase_range. apply acts_dassert.
    apply (acts_look _ _ _ _ _ _ (me s)); [look|]. rewrite (proj2 Hs). apply acts_dassert, acts_dassert. cbn beta zeta.
    apply (acts_bind R (sz - q) 0 (fun _ s' => ends sz s')); [lia| |].
    { apply (cost_shift_down cap cap vph vok Z.add Z.sub torn G (vfuel cap) R _ 0 sz q sz (q - p) s); auto; try lia.
      - intros a s1 Ha [H1 H2]. intros s2 E1 E2.
        cbv beta iota delta [v_end v_begin bind get_me ret]. rewrite E2, H2. reflexivity.
      - intros a Ha. unfold vph. apply HR. lia.
      - intros a Ha. unfold vph. apply HR. lia. }
    intros _ s1 H1. apply (acts_look _ _ _ _ _ _ (me s1)); [look|]. rewrite (proj2 H1).
    apply (acts_bind R 0 0 (fun _ s' => ends sz s')); [lia|apply vc_destroy; auto; try lia; intros; apply HR; lia|].
    intros _ s2 H2. apply (acts_look _ _ _ _ _ _ (me s2)); [look|]. rewrite (proj2 H2).
    rewrite w64_small by (rewrite W64_val; lia).
    apply (acts_bind R 0 0 (fun _ s' => ends (sz - (q - p)) s')); [lia|eapply vc_set_me; exact H2|].
    intros _ s3 H3. now apply acts_ret.
  Qed.

  Lemma vc_read_all sz s :
    ends sz s -> 0 <= sz <= cap -> (forall a, 0 <= a < sz -> ~ R a) ->
    acts R 0 (fun _ s' => s' = s) (v_read_all cap) s.
  Proof.
    intros Hs Hsz HR. unfold v_read_all.
    apply (acts_bind R 0 0 (fun _ s' => s' = s)); [lia| |intros r s1 ->; now apply acts_ret].
    eapply acts_drop.
    apply (acts_loop0 R (fun k ia s' => fst ia = k /\ s' = s) _ _ sz); [lia|split; reflexivity| |].
    - intros k a s1 Hk [Ha ->]. split.
      + intros s2 E1 E2. cbv beta iota delta [v_end v_begin bind get_me ret]. rewrite E2, (proj2 Hs), Ha.
        cbn [Z.add]. bcase; [lia|reflexivity].
      + apply (acts_bind R 0 0 (fun _ s' => s' = s)); [lia|apply acts_rd, HR; lia|]. intros x s2 ->.
        apply acts_ret. cbn [fst]. split; [lia|reflexivity].
    - intros a s1 [Ha ->]. intros s2 E1 E2. cbv beta iota delta [v_end v_begin bind get_me ret].
      rewrite E2, (proj2 Hs), Ha. cbn [Z.add]. bcase; [reflexivity|lia].
  Qed.

  (** every call that does not report an exception *)
  Lemma vc_step l o s :
    ends (lenz l) s -> lenz l <= cap -> seq_pre dbg false l o ->
    (forall e, fst (seq_step dflt cap l o) <> OExn e) ->
    (forall i, R i -> 0 <= i < lenz l /\ stays false cap l o i <> None) ->
    acts R (copies false cap l o) (fun _ s' => mb s' = 0) (v_step cap torn dflt dbg o) s.
  Proof.
    intros Hs Hl Hpre Hok HR. pose proof (lenz_nonneg l) as H0.
    assert (HT : forall i, (0 <= i < lenz l -> stays false cap l o i = None) -> ~ R i).
    { intros i H Hi. destruct (HR i Hi) as [Hr Hn]. apply Hn, H, Hr. }
    clear HR.
    assert (E : forall sz' (a : out V) (s' : st V), ends sz' s' -> acts R 0 (fun _ s' => mb s' = 0) (ret a) s').
    { intros sz' a s' [H _]. now apply acts_ret. }
    destruct o as [v| |v| |p v|p n v|p n v|p xs|p|p q|n v|xs|n v| |i|i| | | | | | |];
      cbn [seq_pre seq_step copies stays v_step] in *; unfold ins, stays_insert, stays_erase, moved_by_insert, moved_by_erase,
        towards_end, closes_from_end in *; cbn [negb orb] in *.
    - destruct (Z.eqb_spec (lenz l) cap) as [Hf|Hf]; [exfalso; eapply Hok; reflexivity|].
      apply (acts_bind R 1 0 (fun _ s' => ends (lenz l + 1) s')); [lia|apply vc_push_back; auto; [lia|apply HT; lia]|].
      intros _ s1 H1. eapply E; exact H1.
    - apply (acts_bind R 0 0 (fun _ s' => ends (lenz l - 1) s')); [lia| |intros _ s1 H1; eapply E; exact H1].
      pose proof (lenz_pos l Hpre) as Hpos.
      unfold v_pop_back. apply (acts_look _ _ _ _ _ _ (me s =? 0)); [look|]. apply acts_dassert.
      apply (acts_look _ _ _ _ _ _ (me s)); [look|].
      apply (acts_bind R 0 0 (still s)); [lia|apply acts_dtor; rewrite (proj2 Hs); apply HT; intros; bcase; [lia|reflexivity]|].
      intros [] s1 [E1 E2]. apply (acts_look _ _ _ _ _ _ (me s1)); [look|]. rewrite E2, (proj2 Hs).
      rewrite w64_small by (rewrite W64_val; lia). eapply (vc_set_me _ (lenz l)). split; [rewrite E1; apply Hs|].
      rewrite E2. apply Hs.
    - discriminate Hpre.
    - destruct Hpre; discriminate.
    - destruct (Z.ltb_spec (cap - lenz l) 1) as [Hf|Hf]; [exfalso; eapply Hok; reflexivity|].
      unfold v_insert_one, v_begin. rewrite Z.add_0_l.
      apply (acts_bind R (insert_copies 1 (lenz l - p)) 0 (fun _ s' => ends (lenz l + 1) s'));
        [lia| |intros it s1 H1; eapply E; exact H1].
      apply (acts_look _ _ _ _ _ _ ((0 <=? p) && (p <=? me s))); [look|]. apply acts_dassert.
      apply (acts_bind R (insert_copies 1 (lenz l - p)) 0 (fun _ s' => ends (lenz l + 1) s'));
        [lia| |intros [] s1 H1; now apply acts_ret].
      apply vc_insert_n; auto; try lia. intros a Ha. apply HT. intros. bcase; [lia|reflexivity].
    - destruct Hpre as [Hp Hn]. unfold szt in Hn.
      destruct (Z.ltb_spec (cap - lenz l) n) as [Hf|Hf]; [exfalso; eapply Hok; reflexivity|].
      unfold v_insert_cnt, v_begin. rewrite Z.add_0_l.
      apply (acts_bind R (insert_copies n (lenz l - p)) 0 (fun _ s' => ends (lenz l + n) s'));
        [lia| |intros [] s1 H1; eapply E; exact H1].
      apply (acts_look _ _ _ _ _ _ ((0 <=? p) && (p <=? me s))); [look|]. apply acts_dassert.
      apply vc_insert_n; auto; try lia. intros a Ha. apply HT. intros. bcase; [lia|reflexivity].
    - pose proof (Z.mod_pos_bound n (2 ^ 64) ltac:(lia)) as Hn.
      destruct (Z.ltb_spec (cap - lenz l) (n mod 2 ^ 64)) as [Hf|Hf]; [exfalso; eapply Hok; reflexivity|].
      unfold v_insert_int, v_begin. rewrite Z.add_0_l. change (w64 n) with (n mod 2 ^ 64).
      apply (acts_bind R (insert_copies (n mod 2 ^ 64) (lenz l - p)) 0 (fun _ s' => ends (lenz l + n mod 2 ^ 64) s'));
        [lia| |intros [] s1 H1; eapply E; exact H1].
      apply (acts_look _ _ _ _ _ _ ((0 <=? p) && (p <=? me s))); [look|]. apply acts_dassert.
      apply vc_insert_n; auto; try lia. intros a Ha. apply HT. intros. bcase; [lia|reflexivity].
    - destruct Hpre as [Hp Hn]. unfold szt in Hn.
      destruct (Z.ltb_spec (cap - lenz l) (lenz xs)) as [Hf|Hf]; [exfalso; eapply Hok; reflexivity|].
      unfold v_insert_rng, v_begin. rewrite Z.add_0_l.
      apply (acts_bind R (insert_copies (lenz xs) (lenz l - p)) 0 (fun _ s' => ends (lenz l + lenz xs) s'));
        [lia| |intros [] s1 H1; eapply E; exact H1].
      apply (acts_look _ _ _ _ _ _ ((0 <=? p) && (p <=? me s))); [look|]. apply acts_dassert.
      apply vc_insert_range; auto; try lia. intros a Ha. apply HT. intros. bcase; [lia|reflexivity].
    - unfold v_erase_one, v_begin. rewrite Z.add_0_l.
      apply (acts_bind R (lenz l - (p + 1)) 0 (fun _ s' => ends (lenz l - (p + 1 - p)) s'));
        [lia| |intros it s1 H1; eapply E; exact H1].
      apply (acts_look _ _ _ _ _ _ (me s)); [look|]. apply acts_dassert.
      apply vc_erase_range; auto; try lia. intros a Ha. apply HT. intros. bcase; [lia|reflexivity].
    - destruct Hpre as (Hp & Hq & _). unfold v_begin. rewrite !Z.add_0_l.
      apply (acts_bind R (lenz l - q) 0 (fun _ s' => ends (lenz l - (q - p)) s'));
        [lia| |intros it s1 H1; eapply E; exact H1].
      apply vc_erase_range; auto; try lia. intros a Ha. apply HT. intros. bcase; [lia|reflexivity].
    - unfold szt in Hpre. destruct (Z.ltb_spec cap n) as [Hf|Hf]; [exfalso; eapply Hok; reflexivity|].
      apply (acts_bind R n 0 (fun _ s' => ends n s')); [lia| |intros [] s1 H1; eapply E; exact H1].
      apply (vc_assign_n (lenz l)); auto; try lia.
    - unfold szt in Hpre. destruct (Z.ltb_spec cap (lenz xs)) as [Hf|Hf]; [exfalso; eapply Hok; reflexivity|].
      apply (acts_bind R (lenz xs) 0 (fun _ s' => ends (lenz xs) s')); [lia| |intros [] s1 H1; eapply E; exact H1].
      apply (vc_assign_range (lenz l)); auto; try lia.
    - unfold szt in Hpre. destruct (Z.ltb_spec cap n) as [Hf|Hf].
      { destruct (Z.leb_spec n (lenz l)); [lia|]. exfalso; eapply Hok; reflexivity. }
      rewrite orb_false_r.
      replace (if n <=? lenz l then 0 else n - lenz l) with (Z.max 0 (n - lenz l)) by (bcase; lia).
      apply (acts_bind R (Z.max 0 (n - lenz l)) 0 (fun _ s' => ends n s')); [lia| |intros [] s1 H1; eapply E; exact H1].
      apply vc_resize; auto; try lia; intros a Ha; apply HT; intros; [bcase; [lia|reflexivity]|lia].
    - apply (acts_bind R 0 0 (fun _ s' => ends 0 s')); [lia| |intros [] s1 H1; eapply E; exact H1].
      apply (vc_clear (lenz l)); auto; try lia.
    - unfold szt in Hpre. destruct (Z.ltb_spec i (lenz l)) as [Hf|Hf]; [|exfalso; eapply Hok; reflexivity].
      apply (acts_bind R 0 0 (fun _ s' => s' = s)); [lia| |intros x s1 ->; eapply E; exact Hs].
      unfold v_at, v_begin. rewrite Z.add_0_l. apply (acts_look _ _ _ _ _ _ (me s)); [look|]. rewrite (proj2 Hs).
      destruct (Z.leb_spec (lenz l) i); [lia|]. apply acts_rd, HT. intros. now rewrite Z.eqb_refl.
    - apply (acts_bind R 0 0 (fun _ s' => s' = s)); [lia| |intros x s1 ->; eapply E; exact Hs].
      unfold v_index, v_begin. rewrite Z.add_0_l. apply acts_rd, HT. intros. now rewrite Z.eqb_refl.
    - apply (acts_bind R 0 0 (fun _ s' => s' = s)); [lia| |intros x s1 ->; eapply E; exact Hs].
      unfold v_front. apply (acts_look _ _ _ _ _ _ (me s =? 0)); [look|]. apply acts_dassert. apply acts_rd, HT. reflexivity.
    - apply (acts_bind R 0 0 (fun _ s' => s' = s)); [lia| |intros x s1 ->; eapply E; exact Hs].
      unfold v_back. apply (acts_look _ _ _ _ _ _ (me s =? 0)); [look|]. apply acts_dassert.
      apply (acts_look _ _ _ _ _ _ (me s)); [look|]. rewrite (proj2 Hs). apply acts_rd, HT. intros. now rewrite Z.eqb_refl.
    - apply (acts_look _ _ _ _ _ _ (me s)); [look|]. eapply E; exact Hs.
    - apply (acts_look _ _ _ _ _ _ (w64 (cap - me s))); [look|]. eapply E; exact Hs.
    - apply (acts_look _ _ _ _ _ _ (me s =? 0)); [look|]. eapply E; exact Hs.
    - apply (acts_look _ _ _ _ _ _ (me s =? cap)); [look|]. eapply E; exact Hs.
    - apply (acts_bind R 0 0 (fun _ s' => s' = s)); [lia| |intros x s1 ->; eapply E; exact Hs].
      apply (vc_read_all (lenz l)); auto; try lia.
  Qed.
End VC.
