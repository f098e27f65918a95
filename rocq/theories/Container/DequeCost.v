(** Copy counts and frames of the deque operations. *)
From Verif Require Import Base.ZList Spec.SeqSpec Spec.CopySpec Container.Mem Container.Triple Container.Rep Container.Loops
  Container.GenInsert Container.ListRep Container.Cost Container.GenCost Container.DequeModel Container.DequeProofs.

Section DC.
  Context {V : Type}.
  Variable cap bufsize : Z.
  Variable torn dflt : V.
  Variable dbg : bool.
  Hypothesis HBuf : bufsize = cap + 1.
  Hypothesis Hcap : 0 <= cap /\ bufsize < 2 ^ 63.
  Variable R : Z -> Prop.

  Notation ph := (dph bufsize).
  Notation fwd := (fun i n => it_add bufsize i (s64 n)).
  Notation bwd := (fun i n => it_sub bufsize i (s64 n)).
  Notation ends lo hi := (@at_ends V (ph lo) (ph hi)).
  Notation G := (dgeo cap bufsize HBuf Hcap).
  Let HBd : 1 <= bufsize < 2 ^ 63 := HB cap bufsize HBuf Hcap.
  Notation dfw := (dfwd cap bufsize HBuf Hcap).
  Notation dbw := (dbwd cap bufsize HBuf Hcap).

  Ltac look := let s2 := fresh "s2" in let F1 := fresh "F" in let F2 := fresh "F" in intros s2 F1 F2;
    cbv beta iota delta [d_size d_available_size d_empty d_full d_end d_begin d_pos_ok d_at_off d_off bind get_me get_mb ret];
    rewrite ?F1, ?F2; reflexivity.

  Lemma dlooks_end (s : st V) : looks d_end s (me s).
  Proof. look. Qed.
  Lemma dlooks_begin (s : st V) : looks d_begin s (mb s).
  Proof. look. Qed.
  Lemma dlooks_size lo hi (s : st V) : ends lo hi s -> 0 <= hi - lo <= cap -> looks (d_size bufsize) s (hi - lo).
  Proof.
    intros [H1 H2] H s2 F1 F2. unfold d_size, bind, get_mb, get_me, ret. rewrite F1, F2, H1, H2.
    now rewrite (dist_ok _ HBd) by lia.
  Qed.
  Lemma dlooks_avail lo hi (s : st V) :
    ends lo hi s -> 0 <= hi - lo <= cap -> looks (d_available_size cap bufsize) s (cap - (hi - lo)).
  Proof.
    intros Hs H s2 F1 F2. unfold d_available_size, bind. rewrite (dlooks_size lo hi s Hs H s2 F1 F2).
    unfold ret. now rewrite w64_small by (rewrite W64_val; lia).
  Qed.
  Lemma dlooks_full lo hi (s : st V) :
    ends lo hi s -> 0 <= hi - lo <= cap -> looks (d_full cap bufsize) s (hi - lo =? cap).
  Proof. intros Hs H s2 F1 F2. unfold d_full, bind. now rewrite (dlooks_size lo hi s Hs H s2 F1 F2). Qed.

  Lemma dc_set_me lo hi x s : ends lo hi s -> acts R 0 (fun (_ : unit) s' => ends lo x s') (set_me (ph x)) s.
  Proof.
    intros [H1 H2] u s' E. pose proof (acts_set_me R 0 (fun _ s1 => ends lo x s1) (ph x) (fun u => ret u) s) as H.
    apply (H (acts_ret _ _ _ _ (conj H1 eq_refl)) u s'). exact E.
  Qed.
  Lemma dc_set_mb lo hi x s : ends lo hi s -> acts R 0 (fun (_ : unit) s' => ends x hi s') (set_mb (ph x)) s.
  Proof.
    intros [H1 H2] u s' E. pose proof (acts_set_mb R 0 (fun _ s1 => ends x hi s1) (ph x) (fun u => ret u) s) as H.
    apply (H (acts_ret _ _ _ _ (conj eq_refl H2)) u s'). exact E.
  Qed.

  Lemma dc_push_back lo hi v s :
    ends lo hi s -> 0 <= hi - lo < cap -> ~ R (ph hi) ->
    acts R 1 (fun _ s' => ends lo (hi + 1) s') (d_push_back cap bufsize (RVal v)) s.
  Proof.
    intros Hs Hsz HR. unfold d_push_back. apply (acts_look _ _ _ _ _ _ _ (dlooks_full lo hi s Hs ltac:(lia))).
    destruct (Z.eqb_spec (hi - lo) cap); [lia|]. apply (acts_look _ _ _ _ _ _ (me s)); [look|]. rewrite (proj2 Hs).
    apply (acts_look _ _ _ _ _ _ v); [look|].
    apply (acts_bind R 1 0 (still s)); [lia|now apply acts_ctor|]. intros [] s1 [E1 E2].
    unfold d_inc_end. apply (acts_look _ _ _ _ _ _ (me s1)); [look|]. rewrite E2, (proj2 Hs).
    rewrite (next_ok _ HBd) by lia. apply (dc_set_me lo hi). destruct Hs. split; congruence.
  Qed.
  Lemma dc_push_front lo hi v s :
    ends lo hi s -> 0 <= hi - lo < cap -> ~ R (ph (lo - 1)) ->
    acts R 1 (fun _ s' => ends (lo - 1) hi s') (d_push_front cap bufsize (RVal v)) s.
  Proof.
    intros Hs Hsz HR. unfold d_push_front. apply (acts_look _ _ _ _ _ _ _ (dlooks_full lo hi s Hs ltac:(lia))).
    destruct (Z.eqb_spec (hi - lo) cap); [lia|]. apply (acts_look _ _ _ _ _ _ (mb s)); [look|]. rewrite (proj1 Hs).
    apply (acts_look _ _ _ _ _ _ v); [look|]. rewrite (dbw lo 1) by lia.
    apply (acts_bind R 1 0 (still s)); [lia|now apply acts_ctor|]. intros [] s1 [E1 E2].
    unfold d_dec_begin. apply (acts_look _ _ _ _ _ _ (mb s1)); [look|]. rewrite E1, (proj1 Hs).
    rewrite (prev_ok _ HBd) by lia. apply (dc_set_mb lo hi). destruct Hs. split; congruence.
  Qed.

  Lemma dc_destroy lo hi x y s :
    ends lo hi s -> 0 <= hi - lo <= cap -> lo <= x <= y -> y <= hi -> (forall a, x <= a < y -> ~ R (ph a)) ->
    acts R 0 (fun _ s' => ends lo hi s') (d_destroy_range bufsize (ph x) (ph y)) s.
  Proof.
    intros Hs Hsz Hx Hy HR. unfold d_destroy_range.
    apply (acts_bind R 0 0 (fun _ s' => ends lo hi s')); [lia| |intros _ s' H; now apply acts_ret].
    apply (cost_destroy bufsize cap ph dok fwd bwd G (dfuel bufsize) R lo hi x y s); auto; lia.
  Qed.

  Lemma dc_clear lo hi s :
    ends lo hi s -> 0 <= hi - lo <= cap -> (forall a, lo <= a < hi -> ~ R (ph a)) ->
    acts R 0 (fun _ s' => ends lo lo s') (d_clear bufsize) s.
  Proof.
    intros Hs Hsz HR. unfold d_clear. apply (acts_look _ _ _ _ _ _ (mb s)); [look|].
    apply (acts_look _ _ _ _ _ _ (me s)); [look|]. rewrite (proj2 Hs), (proj1 Hs).
    apply (acts_bind R 0 0 (fun _ s' => ends lo hi s')); [lia|apply dc_destroy; auto; lia|].
    intros _ s1 H1. apply (acts_look _ _ _ _ _ _ (mb s1)); [look|]. rewrite (proj1 H1).
    eapply dc_set_me; exact H1.
  Qed.

  Lemma dc_resize lo hi n v s :
    ends lo hi s -> 0 <= hi - lo <= cap -> 0 <= n <= cap ->
    (forall a, lo + n <= a < hi -> ~ R (ph a)) -> (forall a, hi <= a < lo + n -> ~ R (ph a)) ->
    acts R (Z.max 0 (n - (hi - lo))) (fun _ s' => ends lo (lo + n) s') (d_resize cap bufsize n (RVal v)) s.
  Proof.
    intros Hs Hsz Hn HR1 HR2. unfold d_resize. apply (acts_look _ _ _ _ _ _ _ (dlooks_size lo hi s Hs ltac:(lia))).
    destruct (Z.leb_spec n (hi - lo)) as [Hle|Hgt].
    - replace (Z.max 0 (n - (hi - lo))) with 0 by lia. apply (acts_look _ _ _ _ _ _ (mb s)); [look|].
      apply (acts_look _ _ _ _ _ _ (me s)); [look|]. rewrite (proj2 Hs), (proj1 Hs).
      rewrite (dfw lo n) by lia.
      apply (acts_bind R 0 0 (fun _ s' => ends lo hi s')); [lia|apply dc_destroy; auto; lia|].
      intros _ s1 H1. apply (acts_look _ _ _ _ _ _ (me s1)); [look|].
      apply (acts_look _ _ _ _ _ _ _ (dlooks_size lo hi s1 H1 ltac:(lia))). rewrite (proj2 H1).
      rewrite w64_small by (rewrite W64_val; lia). rewrite (prev_ok _ HBd) by lia.
      replace (hi - (hi - lo - n)) with (lo + n) by lia. eapply dc_set_me; exact H1.
    - destruct (Z.ltb_spec cap n); [lia|]. rewrite w64_small by (rewrite W64_val; lia).
      replace (Z.max 0 (n - (hi - lo))) with (n - (hi - lo)) by lia.
      apply (acts_bind R (n - (hi - lo)) 0 (fun (_ : Z) s' => ends lo (lo + n) s')); [lia| |intros _ s1 H1; now apply acts_ret].
      apply (acts_weaken R _ (fun i s' => i = n - (hi - lo) /\ ends lo (hi + (n - (hi - lo))) s')).
      2:{ intros a s' [_ H1]. now replace (hi + (n - (hi - lo))) with (lo + n) in H1 by lia. }
      apply (acts_loop1 R (fun k i s' => i = k /\ ends lo (hi + k) s')); [lia| | |].
      + split; [reflexivity|]. now replace (hi + 0) with hi by lia.
      + intros k a s1 Hk [-> H1]. split; [apply looks_ret_eq; bcase; [reflexivity|lia]|].
        apply (acts_bind R 1 0 (fun _ s' => ends lo (hi + k + 1) s')); [lia|apply dc_push_back; [exact H1|lia|apply HR2; lia]|].
        intros _ s2 H2. apply acts_ret. split; [reflexivity|]. now replace (hi + (k + 1)) with (hi + k + 1) by lia.
      + intros a s1 [-> H1]. apply looks_ret_eq. bcase; [lia|reflexivity].
  Qed.

  Lemma dc_assign_n lo hi n v s :
    ends lo hi s -> 0 <= hi - lo <= cap -> 0 <= n <= cap -> (forall a, lo <= a < lo + cap -> ~ R (ph a)) ->
    acts R n (fun _ s' => ends lo (lo + n) s') (d_assign_n cap bufsize n (RVal v)) s.
  Proof.
    intros Hs Hsz Hn HR. unfold d_assign_n. destruct (Z.ltb_spec cap n); [lia|].
    apply (acts_bind R 0 n (fun _ s' => ends lo lo s')); [lia|apply (dc_clear lo hi); auto; intros; apply HR; lia|].
    intros _ s1 H1. replace n with (Z.max 0 (n - (lo - lo))) at 1 by lia. apply dc_resize; auto; try lia; intros; apply HR; lia.
  Qed.

  Lemma dc_assign_range lo hi xs s :
    ends lo hi s -> 0 <= hi - lo <= cap -> lenz xs <= cap -> (forall a, lo <= a < lo + cap -> ~ R (ph a)) ->
    acts R (lenz xs) (fun _ s' => ends lo (lo + lenz xs) s') (d_assign_range cap bufsize xs) s.
  Proof.
    intros Hs Hsz Hn HR. pose proof (lenz_nonneg xs) as H0. unfold d_assign_range.
    rewrite w64_small by (rewrite W64_val; lia). destruct (Z.ltb_spec cap (lenz xs)); [lia|].
    apply (acts_bind R 0 (lenz xs) (fun _ s' => ends lo lo s')); [lia|apply (dc_clear lo hi); auto; intros; apply HR; lia|].
    intros _ s1 H1.
    apply (acts_bind R (lenz xs) 0 (fun (_ : Z) s' => ends lo (lo + lenz xs) s')); [lia| |intros _ s2 H2; now apply acts_ret].
    eapply acts_drop.
    apply (acts_loop1 R (fun k i s' => i = k /\ ends lo (lo + k) s')); [lia| | |].
    - split; [reflexivity|]. now replace (lo + 0) with lo by lia.
    - intros k a s2 Hk [-> H2]. split; [apply looks_ret_eq; bcase; [lia|reflexivity]|].
      apply (acts_bind R 0 1 (fun _ s' => s' = s2)); [lia|apply acts_rdin|]. intros x s3 ->.
      apply (acts_bind R 1 0 (fun _ s' => ends lo (lo + k + 1) s')); [lia|apply dc_push_back; [exact H2|lia|apply HR; lia]|].
      intros _ s4 H4. apply acts_ret. split; [reflexivity|]. now replace (lo + (k + 1)) with (lo + k + 1) by lia.
    - intros a s2 [-> H2]. apply looks_ret_eq. bcase; [reflexivity|lia].
  Qed.

  (** where begin() is after an insertion *)
  Definition ilo (lo hi p n : Z) : Z := if (hi - lo) / 2 <? p then lo else lo - n.
  Definition ihi (lo hi p n : Z) : Z := if (hi - lo) / 2 <? p then hi + n else hi.

  Lemma dc_insert_n lo hi p n v s :
    ends lo hi s -> 0 <= p <= hi - lo -> hi - lo <= cap -> 0 <= n <= cap - (hi - lo) ->
    (forall a, ilo lo hi p n <= a < ihi lo hi p n ->
       (if (hi - lo) / 2 <? p then lo + p <= a else a < lo + p) -> ~ R (ph a)) ->
    acts R (insert_copies n (moved_by_insert true (hi - lo) p)) (fun _ s' => ends (ilo lo hi p n) (ihi lo hi p n) s')
      (d_insert_n cap bufsize torn dflt (ph (lo + p)) n (RVal v)) s.
  Proof.
    intros Hs Hp Hsz Hn HR. unfold d_insert_n, d_insert_n_rest.
    apply (acts_look _ _ _ _ _ _ _ (dlooks_avail lo hi s Hs ltac:(lia))).
    destruct (Z.ltb_spec (cap - (hi - lo)) n); [lia|].
    apply (acts_look _ _ _ _ _ _ _ (dlooks_size lo hi s Hs ltac:(lia))).
    apply (acts_look _ _ _ _ _ _ (mb s)); [look|]. rewrite (proj1 Hs).
    rewrite (it_diff_ok _ HBd lo (lo + p) lo) by lia. replace (lo + p - lo) with p by lia.
    rewrite (w64_small p) by (rewrite W64_val; lia).
    unfold moved_by_insert, towards_end, ilo, ihi in *. cbn [negb orb]. destruct ((hi - lo) / 2 <? p) eqn:Hside.
    - apply (acts_look _ _ _ _ _ _ (me s)); [look|]. rewrite (proj2 Hs). cbn beta zeta.
      rewrite (it_diff_ok _ HBd lo hi (lo + p)) by lia.
      rewrite (w64_small (hi - (lo + p))) by (rewrite W64_val; lia).
      apply (acts_bind R (insert_copies n (hi - lo - p)) 0 (fun _ s' => ends lo (hi + n) s')); [lia| |intros _ s1 H1; now apply acts_ret].
      pose proof (cost_insert_n_end bufsize cap ph dok fwd bwd torn dflt G (dfuel bufsize) d_end dlooks_end (d_inc_end bufsize) R
        lo hi (lo + p) n v s (dinc_ok cap bufsize HBuf Hcap lo) Hs ltac:(lia) ltac:(lia) ltac:(intros; apply HR; lia)) as H1.
      unfold g_insert_n_end in H1. replace (hi - lo - p) with (hi - (lo + p)) by lia.
      destruct (Z.ltb_spec n (hi - (lo + p))); [exact H1|].
      rewrite (w64_small (n - _)) by (rewrite W64_val; lia). exact H1.
    - cbn beta zeta.
      apply (acts_bind R (insert_copies n p) 0 (fun _ s' => ends (lo - n) hi s')); [lia| |intros _ s1 H1; now apply acts_ret].
      pose proof (cost_insert_n_begin bufsize cap ph dok fwd bwd torn dflt G (dfuel bufsize) d_begin dlooks_begin (d_dec_begin bufsize) R
        lo hi (lo + p) n v s (ddec_ok cap bufsize HBuf Hcap) Hs ltac:(lia) ltac:(lia) ltac:(intros; apply HR; lia)) as H1.
      unfold g_insert_n_begin in H1. replace (lo + p - lo) with p in H1 by lia.
      destruct (Z.ltb_spec n p); [exact H1|].
      rewrite (w64_small (n - _)) by (rewrite W64_val; lia). exact H1.
  Qed.

  Lemma dc_insert_range lo hi p xs s :
    ends lo hi s -> 0 <= p <= hi - lo -> hi - lo <= cap -> lenz xs <= cap - (hi - lo) ->
    (forall a, ilo lo hi p (lenz xs) <= a < ihi lo hi p (lenz xs) ->
       (if (hi - lo) / 2 <? p then lo + p <= a else a < lo + p) -> ~ R (ph a)) ->
    acts R (insert_copies (lenz xs) (moved_by_insert true (hi - lo) p))
      (fun _ s' => ends (ilo lo hi p (lenz xs)) (ihi lo hi p (lenz xs)) s')
      (d_insert_range cap bufsize torn dflt (ph (lo + p)) xs) s.
  Proof.
    intros Hs Hp Hsz Hn HR. pose proof (lenz_nonneg xs) as H0. unfold d_insert_range, d_insert_range_rest.
    rewrite !(w64_small (lenz xs)) by (rewrite W64_val; lia).
    apply (acts_look _ _ _ _ _ _ _ (dlooks_avail lo hi s Hs ltac:(lia))).
    destruct (Z.ltb_spec (cap - (hi - lo)) (lenz xs)); [lia|].
    apply (acts_look _ _ _ _ _ _ _ (dlooks_size lo hi s Hs ltac:(lia))).
    apply (acts_look _ _ _ _ _ _ (mb s)); [look|]. rewrite (proj1 Hs).
    rewrite (it_diff_ok _ HBd lo (lo + p) lo) by lia. replace (lo + p - lo) with p by lia.
    rewrite (w64_small p) by (rewrite W64_val; lia).
    unfold moved_by_insert, towards_end, ilo, ihi in *. cbn [negb orb]. destruct ((hi - lo) / 2 <? p) eqn:Hside.
    - apply (acts_look _ _ _ _ _ _ (me s)); [look|]. rewrite (proj2 Hs). cbn beta zeta.
      rewrite (it_diff_ok _ HBd lo hi (lo + p)) by lia.
      rewrite (w64_small (hi - (lo + p))) by (rewrite W64_val; lia).
      pose proof (cost_insert_range_end bufsize cap ph dok fwd bwd torn dflt G (dfuel bufsize) d_end dlooks_end (d_inc_end bufsize) R
        lo hi (lo + p) (lenz xs) xs s (dinc_ok cap bufsize HBuf Hcap lo) Hs ltac:(lia) ltac:(lia) eq_refl ltac:(intros; apply HR; lia)) as H1.
      unfold g_insert_range_end in H1. replace (hi - lo - p) with (hi - (lo + p)) by lia.
      destruct (Z.ltb_spec (lenz xs) (hi - (lo + p))); [exact H1|].
      rewrite (w64_small (lenz xs - _)) by (rewrite W64_val; lia). exact H1.
    - cbn beta zeta.
      pose proof (cost_insert_range_begin bufsize cap ph dok fwd bwd torn dflt G (dfuel bufsize) d_begin dlooks_begin (d_dec_begin bufsize) R
        lo hi (lo + p) (lenz xs) xs s (ddec_ok cap bufsize HBuf Hcap) Hs ltac:(lia) ltac:(lia) eq_refl ltac:(intros; apply HR; lia)) as H1.
      unfold g_insert_range_begin in H1. replace (lo + p - lo) with p in H1 by lia.
      destruct (Z.ltb_spec (lenz xs) p); [exact H1|].
      rewrite !(w64_small (lenz xs - _)) by (rewrite W64_val; lia). exact H1.
  Qed.

  Definition erlo (lo hi p q : Z) : Z := if hi - lo - q <=? p then lo else lo + (q - p).
  Definition erhi (lo hi p q : Z) : Z := if hi - lo - q <=? p then hi - (q - p) else hi.

  Lemma dc_erase_range lo hi p q s :
    ends lo hi s -> 0 <= p <= q -> q <= hi - lo -> hi - lo <= cap ->
    (forall a, lo <= a < hi -> (if hi - lo - q <=? p then lo + p <= a else a < lo + q) -> ~ R (ph a)) ->
    acts R (moved_by_erase true (hi - lo) p q) (fun _ s' => ends (erlo lo hi p q) (erhi lo hi p q) s')
      (d_erase_range bufsize torn dbg (ph (lo + p)) (ph (lo + q))) s.
  Proof.
    intros Hs Hp Hq Hsz HR. unfold d_erase_range.
    apply (acts_look _ _ _ _ _ _ (mb s)); [look|]. apply (acts_look _ _ _ _ _ _ (me s)); [look|].
    rewrite (proj2 Hs), (proj1 Hs). apply acts_dassert, acts_dassert, acts_dassert. cbn beta zeta.
    rewrite !(it_diff_ok _ HBd) by lia.
    replace (lo + q - (lo + p)) with (q - p) by lia. rewrite !(w64_small (q - p)) by (rewrite W64_val; lia).
    replace (hi - (lo + q)) with (hi - lo - q) by lia. replace (lo + p - lo) with p by lia.
    unfold moved_by_erase, closes_from_end, erlo, erhi. cbn [negb orb]. destruct (Z.leb_spec (hi - lo - q) p) as [Hc|Hc].
    - apply (acts_bind R (hi - lo - q) 0 (fun _ s' => ends lo hi s')); [lia| |].
      { replace (hi - lo - q) with (hi - (lo + q)) by lia.
        apply (cost_shift_down bufsize cap ph dok fwd bwd torn G (dfuel bufsize) R _ lo hi (lo + q) hi (q - p) s); auto; try lia.
        - intros a s1 Ha [H1 H2]. intros s2 E1 E2. cbv beta iota delta [d_end bind get_me ret]. rewrite E2, H2.
          now rewrite (dph_eqb _ HBd) by lia.
        - intros a Ha. apply HR; lia.
        - intros a Ha. apply HR; lia. }
      intros _ s1 H1. apply (acts_look _ _ _ _ _ _ (me s1)); [look|]. rewrite (proj2 H1). rewrite (dbw hi (q - p)) by lia.
      apply (acts_bind R 0 0 (fun _ s' => ends lo hi s')); [lia|apply dc_destroy; auto; try lia; intros; apply HR; lia|].
      intros _ s2 H2. apply (acts_look _ _ _ _ _ _ (me s2)); [look|]. rewrite (proj2 H2). rewrite (prev_ok _ HBd) by lia.
      apply (acts_bind R 0 0 (fun _ s' => ends lo (hi - (q - p)) s')); [lia|eapply dc_set_me; exact H2|].
      intros _ s3 H3. now apply acts_ret.
    - rewrite (dbw lo 1), (dbw (lo + p) 1) by lia.
      apply (acts_bind R p 0 (fun _ s' => ends lo hi s')); [lia| |].
      { replace p with (lo + p - lo) at 1 by lia.
        apply (cost_shift_up bufsize cap ph dok fwd bwd torn G (dfuel bufsize) R _ lo hi lo (lo + p) (q - p) s); auto; try lia.
        - intros a s1 Ha _. apply looks_ret_eq. now rewrite (dph_eqb _ HBd) by lia.
        - intros a Ha. apply HR; lia.
        - intros a Ha. apply HR; lia. }
      intros _ s1 H1. apply (acts_look _ _ _ _ _ _ (mb s1)); [look|]. rewrite (proj1 H1). rewrite (dfw lo (q - p)) by lia.
      apply (acts_bind R 0 0 (fun _ s' => ends lo hi s')); [lia|apply dc_destroy; auto; try lia; intros; apply HR; lia|].
      intros _ s2 H2. apply (acts_look _ _ _ _ _ _ (mb s2)); [look|]. rewrite (proj1 H2). rewrite (next_ok _ HBd) by lia.
      apply (acts_bind R 0 0 (fun _ s' => ends (lo + (q - p)) hi s')); [lia|eapply dc_set_mb; exact H2|].
      intros _ s3 H3. now apply acts_ret.
  Qed.

  Lemma dc_read_all lo hi s :
    ends lo hi s -> 0 <= hi - lo <= cap -> (forall a, lo <= a < hi -> ~ R (ph a)) ->
    acts R 0 (fun _ s' => s' = s) (d_read_all bufsize) s.
  Proof.
    intros Hs Hsz HR. unfold d_read_all. apply (acts_look _ _ _ _ _ _ (mb s)); [look|]. rewrite (proj1 Hs).
    apply (acts_bind R 0 0 (fun _ s' => s' = s)); [lia| |intros r s1 ->; now apply acts_ret].
    eapply acts_drop.
    apply (acts_loop0 R (fun k ia s' => fst ia = ph (lo + k) /\ s' = s) _ _ (hi - lo)); [lia| | |].
    - split; [cbn [fst]; f_equal; lia|reflexivity].
    - intros k a s1 Hk [Ha ->]. split.
      + intros s2 E1 E2. cbv beta iota delta [d_end bind get_me ret]. rewrite E2, (proj2 Hs), Ha.
        rewrite (dph_eqb _ HBd) by lia. bcase; [lia|reflexivity].
      + rewrite Ha. apply (acts_bind R 0 0 (fun _ s' => s' = s)); [lia|apply acts_rd, HR; lia|]. intros x s2 ->.
        apply acts_ret. cbn [fst]. split; [rewrite (dfw (lo + k) 1) by lia; f_equal; lia|reflexivity].
    - intros a s1 [Ha ->]. intros s2 E1 E2. cbv beta iota delta [d_end bind get_me ret].
      rewrite E2, (proj2 Hs), Ha. rewrite (dph_eqb _ HBd) by lia. bcase; [reflexivity|lia].
  Qed.

  (** begin() after a call *)
  Definition new_lo (lo : Z) (l : list V) (o : op V) : Z :=
    let hi := lo + lenz l in
    match o with
    | PushFront _ => lo - 1
    | PopFront => lo + 1
    | InsertOne p _ => ilo lo hi p 1
    | InsertN p n _ => ilo lo hi p n
    | InsertInt p n _ => ilo lo hi p (n mod 2 ^ 64)
    | InsertRange p xs => ilo lo hi p (lenz xs)
    | EraseOne p => erlo lo hi p (p + 1)
    | EraseRange p q => erlo lo hi p q
    | _ => lo
    end.

  Lemma dlooks_at_off lo hi p (s : st V) : ends lo hi s -> 0 <= p <= cap -> looks (d_at_off bufsize p) s (ph (lo + p)).
  Proof.
    intros Hs Hp s2 F1 F2. unfold d_at_off, bind, d_begin, get_mb, ret. rewrite F1, (proj1 Hs).
    now rewrite (it_add_ok _ HBd) by lia.
  Qed.

  (** every call that does not report an exception *)
  Lemma dc_step lo l o s :
    ends lo (lo + lenz l) s -> lenz l <= cap -> seq_pre dbg true l o ->
    (forall e, fst (seq_step dflt cap l o) <> OExn e) ->
    (forall j, R j -> exists i, 0 <= i < lenz l /\ j = ph (lo + i) /\ stays true cap l o i <> None) ->
    acts R (copies true cap l o) (fun _ s' => mb s' = ph (new_lo lo l o)) (d_step cap bufsize torn dflt dbg o) s.
  Proof.
    intros Hs Hl Hpre Hok HR. pose proof (lenz_nonneg l) as H0.
    assert (HT : forall a, lenz l - cap <= a - lo <= cap ->
                   (0 <= a - lo < lenz l -> stays true cap l o (a - lo) = None) -> ~ R (ph a)).
    { intros a Ha H Hi. destruct (HR _ Hi) as (i & Hr & Hp & Hn).
      assert (a = lo + i) by (apply (dph_inj _ HBd); [lia|exact Hp]). subst a.
      replace (lo + i - lo) with i in H by lia. apply Hn, H, Hr. }
    clear HR. remember (lo + lenz l) as hi eqn:Hhi.
    assert (E : forall b e (a : out V) (s' : st V), at_ends b e s' -> acts R 0 (fun _ s' => mb s' = b) (ret a) s').
    { intros b e a s' [H _]. now apply acts_ret. }
    assert (E2 : forall b e it (s' : st V), at_ends b e s' ->
      acts R 0 (fun _ s' => mb s' = b) (k <- d_off bufsize it ;; ret (OPos (V := V) k)) s').
    { intros b e it s' H. eapply acts_look; [|eapply E; exact H]. look. }
    unfold new_lo. rewrite <- Hhi.
    assert (Hlen : lenz l = hi - lo) by lia. cbn beta zeta.
    destruct o as [v| |v| |p v|p n v|p n v|p xs|p|p q|n v|xs|n v| |i|i| | | | | | |];
      cbn [seq_pre seq_step copies stays d_step] in *; unfold ins, stays_insert, stays_erase in *;
      rewrite ?Hlen in *.
    - destruct (Z.eqb_spec (hi - lo) cap) as [Hf|Hf]; [exfalso; eapply Hok; reflexivity|].
      apply (acts_bind R 1 0 (fun _ s' => ends lo (hi + 1) s')); [lia|apply dc_push_back; auto; [lia|apply HT; lia]|].
      intros _ s1 H1. eapply E; exact H1.
    - apply (acts_bind R 0 0 (fun _ s' => ends lo (hi - 1) s')); [lia| |intros _ s1 H1; eapply E; exact H1].
      pose proof (lenz_pos l Hpre) as Hpos.
      unfold d_pop_back. apply (acts_look _ _ _ _ _ _ (mb s =? me s)); [look|]. apply acts_dassert.
      apply (acts_look _ _ _ _ _ _ (me s)); [look|]. rewrite (proj2 Hs). rewrite (dbw hi 1) by lia.
      apply (acts_bind R 0 0 (still s)); [lia|apply acts_dtor; apply HT; [lia|intros; bcase; [lia|reflexivity]]|].
      intros [] s1 [F1 F2]. apply (acts_look _ _ _ _ _ _ (me s1)); [look|]. rewrite F2, (proj2 Hs).
      rewrite (prev_ok _ HBd) by lia. eapply (dc_set_me lo hi). destruct Hs. split; congruence.
    - destruct (Z.eqb_spec (hi - lo) cap) as [Hf|Hf]; [exfalso; eapply Hok; reflexivity|].
      apply (acts_bind R 1 0 (fun _ s' => ends (lo - 1) hi s')); [lia|apply dc_push_front; auto; [lia|apply HT; lia]|].
      intros _ s1 H1. eapply E; exact H1.
    - destruct Hpre as [_ Hpre]. pose proof (lenz_pos l Hpre) as Hpos.
      apply (acts_bind R 0 0 (fun _ s' => ends (lo + 1) hi s')); [lia| |intros _ s1 H1; eapply E; exact H1].
      unfold d_pop_front. apply (acts_look _ _ _ _ _ _ (mb s =? me s)); [look|]. apply acts_dassert.
      apply (acts_look _ _ _ _ _ _ (mb s)); [look|]. rewrite (proj1 Hs).
      apply (acts_bind R 0 0 (still s)); [lia|apply acts_dtor; apply HT; [lia|intros; bcase; [lia|reflexivity]]|].
      intros [] s1 [F1 F2]. apply (acts_look _ _ _ _ _ _ (mb s1)); [look|]. rewrite F1, (proj1 Hs).
      rewrite (next_ok _ HBd) by lia. eapply (dc_set_mb lo hi). destruct Hs. split; congruence.
    - destruct (Z.ltb_spec (cap - (hi - lo)) 1) as [Hf|Hf]; [exfalso; eapply Hok; reflexivity|].
      apply (acts_look _ _ _ _ _ _ _ (dlooks_at_off lo hi p s Hs ltac:(lia))).
      unfold d_insert_one.
      apply (acts_bind R (insert_copies 1 (moved_by_insert true (hi - lo) p)) 0 (fun _ s' => ends (ilo lo hi p 1) (ihi lo hi p 1) s'));
        [lia| |intros it s1 H1; eapply E2; exact H1].
      eapply acts_look; [look|]. apply acts_dassert.
      apply dc_insert_n; auto; try lia. intros a Ha Hside. apply HT; unfold ilo, ihi, towards_end in *; cbn [negb orb];
        destruct ((hi - lo) / 2 <? p) eqn:Hd; try lia; intros; bcase; try reflexivity; lia.
    - destruct Hpre as [Hp Hn]. unfold szt in Hn.
      destruct (Z.ltb_spec (cap - (hi - lo)) n) as [Hf|Hf]; [exfalso; eapply Hok; reflexivity|].
      apply (acts_look _ _ _ _ _ _ _ (dlooks_at_off lo hi p s Hs ltac:(lia))).
      unfold d_insert_cnt.
      apply (acts_bind R (insert_copies n (moved_by_insert true (hi - lo) p)) 0 (fun _ s' => ends (ilo lo hi p n) (ihi lo hi p n) s'));
        [lia| |intros it s1 H1; eapply E; exact H1].
      eapply acts_look; [look|]. apply acts_dassert.
      apply (acts_bind R (insert_copies n (moved_by_insert true (hi - lo) p)) 0 (fun _ s' => ends (ilo lo hi p n) (ihi lo hi p n) s'));
        [lia| |intros it s1 H1; now apply acts_ret].
      apply dc_insert_n; auto; try lia. intros a Ha Hside. apply HT; unfold ilo, ihi, towards_end in *; cbn [negb orb];
        destruct ((hi - lo) / 2 <? p) eqn:Hd; try lia; intros; bcase; try reflexivity; lia.
    - pose proof (Z.mod_pos_bound n (2 ^ 64) ltac:(lia)) as Hn. remember (n mod 2 ^ 64) as m eqn:Hm.
      destruct (Z.ltb_spec (cap - (hi - lo)) m) as [Hf|Hf]; [exfalso; eapply Hok; reflexivity|].
      apply (acts_look _ _ _ _ _ _ _ (dlooks_at_off lo hi p s Hs ltac:(lia))).
      unfold d_insert_int. change (w64 n) with (n mod 2 ^ 64). rewrite <- Hm.
      apply (acts_bind R (insert_copies m (moved_by_insert true (hi - lo) p)) 0 (fun _ s' => ends (ilo lo hi p m) (ihi lo hi p m) s'));
        [lia| |intros it s1 H1; eapply E; exact H1].
      eapply acts_look; [look|]. apply acts_dassert.
      apply (acts_bind R (insert_copies m (moved_by_insert true (hi - lo) p)) 0 (fun _ s' => ends (ilo lo hi p m) (ihi lo hi p m) s'));
        [lia| |intros it s1 H1; now apply acts_ret].
      apply dc_insert_n; auto; try lia. intros a Ha Hside. apply HT; unfold ilo, ihi, towards_end in *; cbn [negb orb];
        destruct ((hi - lo) / 2 <? p) eqn:Hd; try lia; intros; bcase; try reflexivity; lia.
    - destruct Hpre as [Hp Hn]. unfold szt in Hn.
      destruct (Z.ltb_spec (cap - (hi - lo)) (lenz xs)) as [Hf|Hf]; [exfalso; eapply Hok; reflexivity|].
      apply (acts_look _ _ _ _ _ _ _ (dlooks_at_off lo hi p s Hs ltac:(lia))).
      unfold d_insert_rng.
      apply (acts_bind R (insert_copies (lenz xs) (moved_by_insert true (hi - lo) p)) 0
        (fun _ s' => ends (ilo lo hi p (lenz xs)) (ihi lo hi p (lenz xs)) s')); [lia| |intros it s1 H1; eapply E; exact H1].
      eapply acts_look; [look|]. apply acts_dassert.
      apply dc_insert_range; auto; try lia. intros a Ha Hside. apply HT; unfold ilo, ihi, towards_end in *; cbn [negb orb];
        destruct ((hi - lo) / 2 <? p) eqn:Hd; try lia; intros; bcase; try reflexivity; lia.
    - apply (acts_look _ _ _ _ _ _ _ (dlooks_at_off lo hi p s Hs ltac:(lia))). unfold d_erase_one.
      apply (acts_bind R (moved_by_erase true (hi - lo) p (p + 1)) 0 (fun _ s' => ends (erlo lo hi p (p + 1)) (erhi lo hi p (p + 1)) s'));
        [lia| |intros it s1 H1; eapply E2; exact H1].
      eapply acts_look; [look|]. eapply acts_look; [look|]. apply acts_dassert.
      rewrite (dfw (lo + p) 1) by lia. replace (lo + p + 1) with (lo + (p + 1)) by lia.
      apply dc_erase_range; auto; try lia. intros a Ha Hside. apply HT; [lia|].
      unfold closes_from_end. cbn [negb orb]. destruct (hi - lo - (p + 1) <=? p); intros; bcase; try reflexivity; lia.
    - destruct Hpre as (Hp & Hq & _).
      apply (acts_look _ _ _ _ _ _ _ (dlooks_at_off lo hi p s Hs ltac:(lia))).
      apply (acts_look _ _ _ _ _ _ _ (dlooks_at_off lo hi q s Hs ltac:(lia))).
      apply (acts_bind R (moved_by_erase true (hi - lo) p q) 0 (fun _ s' => ends (erlo lo hi p q) (erhi lo hi p q) s'));
        [lia| |intros it s1 H1; eapply E2; exact H1].
      apply dc_erase_range; auto; try lia. intros a Ha Hside. apply HT; [lia|].
      unfold closes_from_end. cbn [negb orb]. destruct (hi - lo - q <=? p); intros; bcase; try reflexivity; lia.
    - unfold szt in Hpre. destruct (Z.ltb_spec cap n) as [Hf|Hf]; [exfalso; eapply Hok; reflexivity|].
      apply (acts_bind R n 0 (fun _ s' => ends lo (lo + n) s')); [lia| |intros [] s1 H1; eapply E; exact H1].
      apply (dc_assign_n lo hi); auto; try lia. intros a Ha. apply HT; [lia|reflexivity].
    - unfold szt in Hpre. destruct (Z.ltb_spec cap (lenz xs)) as [Hf|Hf]; [exfalso; eapply Hok; reflexivity|].
      apply (acts_bind R (lenz xs) 0 (fun _ s' => ends lo (lo + lenz xs) s')); [lia| |intros [] s1 H1; eapply E; exact H1].
      apply (dc_assign_range lo hi); auto; try lia. intros a Ha. apply HT; [lia|reflexivity].
    - unfold szt in Hpre. destruct (Z.ltb_spec cap n) as [Hf|Hf].
      { destruct (Z.leb_spec n (hi - lo)); [lia|]. exfalso; eapply Hok; reflexivity. }
      rewrite orb_false_r.
      replace (if n <=? hi - lo then 0 else n - (hi - lo)) with (Z.max 0 (n - (hi - lo))) by (bcase; lia).
      apply (acts_bind R (Z.max 0 (n - (hi - lo))) 0 (fun _ s' => ends lo (lo + n) s')); [lia| |intros [] s1 H1; eapply E; exact H1].
      apply dc_resize; auto; try lia; intros a Ha; apply HT; try lia; intros; bcase; try reflexivity; lia.
    - apply (acts_bind R 0 0 (fun _ s' => ends lo lo s')); [lia| |intros [] s1 H1; eapply E; exact H1].
      apply (dc_clear lo hi); auto; try lia. intros a Ha. apply HT; [lia|reflexivity].
    - unfold szt in Hpre. destruct (Z.ltb_spec i (hi - lo)) as [Hf|Hf]; [|exfalso; eapply Hok; reflexivity].
      apply (acts_bind R 0 0 (fun _ s' => s' = s)); [lia| |intros x s1 ->; eapply E; exact Hs].
      unfold d_at. apply (acts_look _ _ _ _ _ _ _ (dlooks_size lo hi s Hs ltac:(lia))).
      destruct (Z.leb_spec (hi - lo) i); [lia|]. apply (acts_look _ _ _ _ _ _ (mb s)); [look|]. rewrite (proj1 Hs).
      rewrite (dfw lo i) by lia. apply acts_rd, HT; [lia|]. intros. bcase; [reflexivity|lia].
    - apply (acts_bind R 0 0 (fun _ s' => s' = s)); [lia| |intros x s1 ->; eapply E; exact Hs].
      unfold d_index. apply (acts_look _ _ _ _ _ _ (mb s)); [look|]. rewrite (proj1 Hs).
      rewrite (dfw lo i) by lia. apply acts_rd, HT; [lia|]. intros. bcase; [reflexivity|lia].
    - pose proof (lenz_pos l Hpre) as Hpos.
      apply (acts_bind R 0 0 (fun _ s' => s' = s)); [lia| |intros x s1 ->; eapply E; exact Hs].
      unfold d_front. apply (acts_look _ _ _ _ _ _ (mb s =? me s)); [look|]. apply acts_dassert.
      apply (acts_look _ _ _ _ _ _ (mb s)); [look|]. rewrite (proj1 Hs).
      apply acts_rd, HT; [lia|]. intros. bcase; [reflexivity|lia].
    - pose proof (lenz_pos l Hpre) as Hpos.
      apply (acts_bind R 0 0 (fun _ s' => s' = s)); [lia| |intros x s1 ->; eapply E; exact Hs].
      unfold d_back. apply (acts_look _ _ _ _ _ _ (mb s =? me s)); [look|]. apply acts_dassert.
      apply (acts_look _ _ _ _ _ _ (me s)); [look|]. rewrite (proj2 Hs). rewrite (dbw hi 1) by lia.
      apply acts_rd, HT; [lia|]. intros. bcase; [reflexivity|lia].
    - eapply acts_look; [look|]. eapply E; exact Hs.
    - eapply acts_look; [look|]. eapply E; exact Hs.
    - eapply acts_look; [look|]. eapply E; exact Hs.
    - eapply acts_look; [look|]. eapply E; exact Hs.
    - apply (acts_bind R 0 0 (fun _ s' => s' = s)); [lia| |intros x s1 ->; eapply E; exact Hs].
      apply (dc_read_all lo hi); auto; try lia. intros a Ha. apply HT; [lia|reflexivity].
  Qed.
End DC.
