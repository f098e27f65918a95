(** Copy counts and frames of the insertion algorithms, generically in the geometry (as GenInsert). *)
From Verif Require Import Base.ZList Spec.CopySpec Container.Mem Container.Triple Container.Rep Container.Loops Container.GenInsert
  Container.Cost.

Notation ins_cost := insert_copies.

Section GenCost.
  Context {V : Type}.
  Variable B cap : Z.
  Variable ph : Z -> Z.
  Variable okab : Z -> Prop.
  Variable fwd bwd : Z -> Z -> Z.
  Variable torn dflt : V.
  Hypothesis G : geo B cap ph okab fwd bwd.
  Variable fuel : nat.
  Variable getend getbegin : M V Z.
  Hypothesis Hgetend : forall s, looks getend s (me s).
  Hypothesis Hgetbegin : forall s, looks getbegin s (mb s).
  Variable inc dec : M V unit.
  Variable R : Z -> Prop.

  Let Hcap := g_cap _ _ _ _ _ _ G.
  Let Hfwd := g_fwd _ _ _ _ _ _ G.
  Let Hbwd := g_bwd _ _ _ _ _ _ G.
  Let Heq := g_eq _ _ _ _ _ _ G.

  Notation ends lo hi := (@at_ends V (ph lo) (ph hi)).

  Lemma acts_drop {A} c (P : A -> st V -> Prop) (Q : st V -> Prop) (m : M V A) s :
    acts R c (fun a s' => P a s' /\ Q s') m s -> acts R c (fun _ s' => Q s') m s.
  Proof. intros H. apply (acts_weaken _ _ _ _ _ _ H). intros a s' [_ HQ]. exact HQ. Qed.
  Lemma looks_ret_eq {A} (a b : A) (s : st V) : a = b -> looks (ret a) s b.
  Proof. intros ->. apply looks_ret. Qed.
  Lemma ends_still b e (s s' : st V) : still s tt s' -> at_ends b e s -> at_ends b e s'.
  Proof. intros [H1 H2] [H3 H4]. split; congruence. Qed.
  Lemma acts_src_rd i s : ~ R i -> acts R 0 (fun (_ : V) s' => s' = s) (rd B i) s.
  Proof. apply acts_rd. Qed.

  (** construct n at the back *)
  Lemma cost_ctor_back {A} (at_ : Z -> A) (cond : A -> M V bool) (src : A -> M V V) (nx : A -> A) lo hi n a0 s :
    inc_ok cap ph inc lo -> a0 = at_ 0 ->
    0 <= n -> lo <= hi -> hi + n - lo <= cap -> ends lo hi s ->
    (forall k, 0 <= k < n -> nx (at_ k) = at_ (k + 1)) ->
    (forall k s, 0 <= k <= n -> looks (cond (at_ k)) s (negb (k =? n))) ->
    (forall k s, 0 <= k < n -> acts R 0 (fun _ s' => s' = s) (src (at_ k)) s) ->
    (forall a, hi <= a < hi + n -> ~ R (ph a)) ->
    acts R n (fun a s' => a = at_ n /\ ends lo (hi + n) s')
      (loop fuel cond (fun a => e <- getend ;; x <- src a ;; ctor B e x ;;; inc ;;; ret (nx a)) a0) s.
  Proof.
    intros Hinc Ha0 Hn Hlh Hfit Hs Hnx Hcond Hsrc HR.
    apply (acts_loop_ctor B R fuel at_ cond getend src (fun e => e) inc nx n a0
             (fun k => ends lo (hi + k)) (fun k => ph (hi + k))); auto.
    - now replace (hi + 0) with hi by lia.
    - intros k s1 s2. apply ends_still.
    - intros k s1 Hk [H1 H2]. rewrite <- H2. apply Hgetend.
    - intros k s1 Hk [H1 H2].
      assert (Hd : forall s2, me s2 = ph (hi + k) -> inc s2 = Ok tt (mkst (mem s2) (mb s2) (ph (hi + k + 1)) (fuse s2)))
        by (intros s2 E; apply (Hinc s2 (hi + k)); [lia|exact E|lia]).
      apply (acts_weaken R 0 (fun _ s' => s' = mkst (mem s1) (mb s1) (ph (hi + k + 1)) (fuse s1))).
      2:{ intros _ s' ->. split; cbn [mb me]; [exact H1|]. f_equal. lia. }
      intros u s' E. rewrite (Hd _ H2) in E. injection E as <- <-. split; [lia|]. split; [reflexivity|].
      intros s2 (A1 & A2 & A3). unfold like. rewrite Hd by congruence. destruct (fuse s2) as [b|].
      + destruct (Z.leb_spec 0 (Z.of_nat b)); [|lia]. eexists _, b. split; [reflexivity|]. split; [reflexivity|].
        split; [lia|]. split; [split; [exact A1|split; [reflexivity|exact A3]]|]. intros j Hj. reflexivity.
      + eexists. split; [reflexivity|]. split; [reflexivity|].
        split; [split; [exact A1|split; [reflexivity|exact A3]]|]. intros j Hj. reflexivity.
    - intros k Hk. apply HR. lia.
  Qed.

  (** construct n at the front *)
  Lemma cost_ctor_front {A} (at_ : Z -> A) (cond : A -> M V bool) (src : A -> M V V) (nx : A -> A) lo hi n a0 s :
    dec_ok ph dec -> a0 = at_ 0 ->
    0 <= n -> lo <= hi -> hi + n - lo <= cap -> ends lo hi s ->
    (forall k, 0 <= k < n -> nx (at_ k) = at_ (k + 1)) ->
    (forall k s, 0 <= k <= n -> looks (cond (at_ k)) s (negb (k =? n))) ->
    (forall k s, 0 <= k < n -> acts R 0 (fun _ s' => s' = s) (src (at_ k)) s) ->
    (forall a, lo - n <= a < lo -> ~ R (ph a)) ->
    acts R n (fun a s' => a = at_ n /\ ends (lo - n) hi s')
      (loop fuel cond (fun a => b <- getbegin ;; x <- src a ;; ctor B (bwd b 1) x ;;; dec ;;; ret (nx a)) a0) s.
  Proof.
    intros Hdec Ha0 Hn Hlh Hfit Hs Hnx Hcond Hsrc HR.
    apply (acts_loop_ctor B R fuel at_ cond getbegin src (fun b => bwd b 1) dec nx n a0
             (fun k => ends (lo - k) hi) (fun k => ph (lo - k))); auto.
    - now replace (lo - 0) with lo by lia.
    - intros k s1 s2. apply ends_still.
    - intros k s1 Hk [H1 H2]. rewrite <- H1. apply Hgetbegin.
    - intros k s1 Hk [H1 H2].
      assert (Hd : forall s2, mb s2 = ph (lo - k) -> dec s2 = Ok tt (mkst (mem s2) (ph (lo - k - 1)) (me s2) (fuse s2)))
        by (intros s2 E; apply (Hdec s2 (lo - k)); exact E).
      apply (acts_weaken R 0 (fun _ s' => s' = mkst (mem s1) (ph (lo - k - 1)) (me s1) (fuse s1))).
      2:{ intros _ s' ->. split; cbn [mb me]; [f_equal; lia|exact H2]. }
      intros u s' E. rewrite (Hd _ H1) in E. injection E as <- <-. split; [lia|]. split; [reflexivity|].
      intros s2 (A1 & A2 & A3). unfold like. rewrite Hd by congruence. destruct (fuse s2) as [b|].
      + destruct (Z.leb_spec 0 (Z.of_nat b)); [|lia]. eexists _, b. split; [reflexivity|]. split; [reflexivity|].
        split; [lia|]. split; [split; [reflexivity|split; [exact A2|exact A3]]|]. intros j Hj. reflexivity.
      + eexists. split; [reflexivity|]. split; [reflexivity|].
        split; [split; [reflexivity|split; [exact A2|exact A3]]|]. intros j Hj. reflexivity.
    - intros k Hk. rewrite Hbwd by lia. apply HR. lia.
  Qed.

  (** shift [x, y) up by c, from the top *)
  Lemma cost_shift_up (cond : Z -> M V bool) lo hi x y c s :
    lo <= x <= y -> y + c <= hi -> 0 <= c -> hi - lo <= cap -> ends lo hi s ->
    (forall a s, x - 1 <= a <= y - 1 -> ends lo hi s -> looks (cond (ph a)) s (negb (a =? x - 1))) ->
    (forall a, x <= a < y -> ~ R (ph a)) -> (forall a, x <= a < y -> ~ R (ph (a + c))) ->
    acts R (y - x) (fun _ s' => ends lo hi s')
      (loop fuel cond (fun it => v <- rd B it ;; asg B torn (fwd it c) v ;;; ret (bwd it 1)) (ph (y - 1))) s.
  Proof.
    intros Hx Hy Hc Hfit Hs Hcond HR HR'.
    eapply acts_drop.
    apply (acts_loop_asg B torn R fuel (fun k => ph (y - 1 - k)) cond (fun it => rd B it) (fun it => fwd it c)
             (fun it => bwd it 1) (y - x) (ph (y - 1)) (ph lo) (ph hi)); auto.
    - lia.
    - f_equal; lia.
    - intros k Hk. rewrite Hbwd by lia. f_equal; lia.
    - intros k s1 Hk H1. replace (k =? y - x) with (y - 1 - k =? x - 1) by (bcase; try reflexivity; lia).
      apply Hcond; [lia|exact H1].
    - intros k s1 Hk. apply acts_src_rd, HR. lia.
    - intros k Hk. rewrite Hfwd by lia. apply HR'. lia.
  Qed.

  (** shift [x, y) down by c, from the bottom *)
  Lemma cost_shift_down (cond : Z -> M V bool) lo hi x y c s :
    lo + c <= x <= y -> y <= hi -> 0 <= c -> hi - lo <= cap -> ends lo hi s ->
    (forall a s, x <= a <= y -> ends lo hi s -> looks (cond (ph a)) s (negb (a =? y))) ->
    (forall a, x <= a < y -> ~ R (ph a)) -> (forall a, x <= a < y -> ~ R (ph (a - c))) ->
    acts R (y - x) (fun _ s' => ends lo hi s')
      (loop fuel cond (fun it => v <- rd B it ;; asg B torn (bwd it c) v ;;; ret (fwd it 1)) (ph x)) s.
  Proof.
    intros Hx Hy Hc Hfit Hs Hcond HR HR'.
    eapply acts_drop.
    apply (acts_loop_asg B torn R fuel (fun k => ph (x + k)) cond (fun it => rd B it) (fun it => bwd it c)
             (fun it => fwd it 1) (y - x) (ph x) (ph lo) (ph hi)); auto.
    - lia.
    - f_equal; lia.
    - intros k Hk. rewrite Hfwd by lia. f_equal; lia.
    - intros k s1 Hk H1. replace (k =? y - x) with (x + k =? y) by (bcase; try reflexivity; lia).
      apply Hcond; [lia|exact H1].
    - intros k s1 Hk. apply acts_src_rd, HR. lia.
    - intros k Hk. rewrite Hbwd by lia. apply HR'. lia.
  Qed.

  (** fill [x, y) with a value from outside *)
  Lemma cost_fill (cond : Z -> M V bool) v lo hi x y s :
    lo <= x <= y -> y <= hi -> hi - lo <= cap -> ends lo hi s ->
    (forall a s, x <= a <= y -> ends lo hi s -> looks (cond (ph a)) s (negb (a =? y))) ->
    (forall a, x <= a < y -> ~ R (ph a)) ->
    acts R (y - x) (fun _ s' => ends lo hi s')
      (loop fuel cond (fun it => w <- deref B (RVal v) ;; asg B torn it w ;;; ret (fwd it 1)) (ph x)) s.
  Proof.
    intros Hx Hy Hfit Hs Hcond HR.
    eapply acts_drop.
    apply (acts_loop_asg B torn R fuel (fun k => ph (x + k)) cond (fun it => deref B (RVal v)) (fun it => it)
             (fun it => fwd it 1) (y - x) (ph x) (ph lo) (ph hi)); auto.
    - lia.
    - f_equal; lia.
    - intros k Hk. rewrite Hfwd by lia. f_equal; lia.
    - intros k s1 Hk H1. replace (k =? y - x) with (x + k =? y) by (bcase; try reflexivity; lia).
      apply Hcond; [lia|exact H1].
    - intros k s1 Hk. apply acts_ret. reflexivity.
    - intros k Hk. apply HR. lia.
  Qed.
  (** fill [x, y) from the range xs at offset o *)
  Lemma cost_fill_range (cond : Z * Z -> M V bool) xs o lo hi x y s :
    lo <= x <= y -> y <= hi -> hi - lo <= cap -> ends lo hi s ->
    (forall k s, 0 <= k <= y - x -> ends lo hi s -> looks (cond (ph (x + k), o + k)) s (negb (k =? y - x))) ->
    (forall a, x <= a < y -> ~ R (ph a)) ->
    acts R (y - x) (fun _ s' => ends lo hi s')
      (loop fuel cond (fun pf => w <- rdin xs (snd pf) ;; asg B torn (fst pf) w ;;;
                                 ret (fwd (fst pf) 1, snd pf + 1)) (ph x, o)) s.
  Proof.
    intros Hx Hy Hfit Hs Hcond HR.
    eapply acts_drop.
    apply (acts_loop_asg B torn R fuel (fun k => (ph (x + k), o + k)) cond (fun pf => rdin xs (snd pf)) (fun pf => fst pf)
             (fun pf => (fwd (fst pf) 1, snd pf + 1)) (y - x) (ph x, o) (ph lo) (ph hi)); auto.
    - lia.
    - f_equal; [f_equal; lia|lia].
    - intros k Hk. cbn [fst snd]. rewrite Hfwd by lia. f_equal; [f_equal; lia|lia].
    - intros k s1 Hk. apply acts_rdin.
    - intros k Hk. cbn [fst]. apply HR. lia.
  Qed.

  (** destroy [x, y) *)
  Lemma cost_destroy lo hi x y s :
    lo <= x <= y -> y <= hi -> hi - lo <= cap -> ends lo hi s ->
    (forall a, x <= a < y -> ~ R (ph a)) ->
    acts R 0 (fun _ s' => ends lo hi s')
      (loop fuel (fun it => ret (negb (it =? ph y))) (fun it => dtor B it ;;; ret (fwd it 1)) (ph x)) s.
  Proof.
    intros Hx Hy Hfit Hs HR.
    eapply acts_drop.
    apply (acts_loop_dtor B R fuel (fun k => ph (x + k)) _ (fun it => fwd it 1) (y - x) (ph x) (ph lo) (ph hi)); auto.
    - lia.
    - f_equal; lia.
    - intros k Hk. rewrite Hfwd by lia. f_equal; lia.
    - intros k s1 Hk H1. apply looks_ret_eq. rewrite Heq by lia. f_equal. bcase; try reflexivity; lia.
    - intros k Hk. apply HR. lia.
  Qed.

  Lemma cost_advance n (s : st V) :
    0 <= n ->
    acts R 0 (fun (im : Z * Z) s' => snd im = n /\ s' = s)
      (loop fuel (fun im : Z * Z => ret (fst im <? n)) (fun im => ret (fst im + 1, snd im + 1)) (0, 0)) s.
  Proof.
    intros Hn.
    apply (acts_weaken R 0 (fun im s' => im = (n, n) /\ s' = s)); [|intros im s' [-> ->]; split; reflexivity].
    apply (acts_loop0 R (fun k im s' => im = (k, k) /\ s' = s) _ _ n); [exact Hn|split; reflexivity| |].
    - intros k a s1 Hk [-> ->]. split; [apply looks_ret_eq; cbn [fst]; bcase; [reflexivity|lia]|].
      apply acts_ret. split; reflexivity.
    - intros a s1 [-> ->]. apply looks_ret_eq. cbn [fst]. bcase; [lia|reflexivity].
  Qed.

  Lemma cost_default_back lo hi n s :
    inc_ok cap ph inc lo -> 0 <= n -> lo <= hi -> hi + n - lo <= cap -> ends lo hi s ->
    (forall a, hi <= a < hi + n -> ~ R (ph a)) ->
    acts R n (fun _ s' => ends lo (hi + n) s')
      (loop fuel (fun i => ret (i <? n)) (fun i => e <- getend ;; ctor_default B dflt e ;;; inc ;;; ret (i + 1)) 0) s.
  Proof.
    intros Hinc Hn Hlh Hfit Hs HR. eapply acts_drop.
    apply (cost_ctor_back (fun k => k) (fun i => ret (i <? n)) (fun _ => ret dflt) (fun i => i + 1) lo hi n 0); auto.
    - intros k s1 Hk. apply looks_ret_eq. bcase; try reflexivity; lia.
    - intros k s1 Hk. apply acts_ret. reflexivity.
  Qed.
  Lemma cost_default_front lo hi n s :
    dec_ok ph dec -> 0 <= n -> lo <= hi -> hi + n - lo <= cap -> ends lo hi s ->
    (forall a, lo - n <= a < lo -> ~ R (ph a)) ->
    acts R n (fun _ s' => ends (lo - n) hi s')
      (loop fuel (fun i => ret (i <? n)) (fun i => b <- getbegin ;; ctor_default B dflt (bwd b 1) ;;; dec ;;; ret (i + 1)) 0) s.
  Proof.
    intros Hdec Hn Hlh Hfit Hs HR. eapply acts_drop.
    apply (cost_ctor_front (fun k => k) (fun i => ret (i <? n)) (fun _ => ret dflt) (fun i => i + 1) lo hi n 0); auto.
    - intros k s1 Hk. apply looks_ret_eq. bcase; try reflexivity; lia.
    - intros k s1 Hk. apply acts_ret. reflexivity.
  Qed.

  Lemma cost_insert_n_end lo hi p n v s :
    inc_ok cap ph inc lo -> ends lo hi s -> lo <= p <= hi -> 0 <= n <= cap - (hi - lo) ->
    (forall a, p <= a < hi + n -> ~ R (ph a)) ->
    acts R (ins_cost n (hi - p)) (fun _ s' => ends lo (hi + n) s')
      (g_insert_n_end B fwd bwd torn dflt fuel getend inc (ph p) n (hi - p) (n - (hi - p)) (ph hi) (RVal v)) s.
  Proof.
    intros Hinc Hs Hp Hn HR. unfold g_insert_n_end, insert_copies. destruct (Z.ltb_spec n (hi - p)) as [Hlt|Hge].
    - eapply acts_bind with (c1 := n) (c2 := hi - p + n); [lia|apply (cost_default_back lo hi n); auto; try lia; intros; apply HR; lia|].
      cbn beta. intros _ s1 H1. rewrite (Hbwd hi) by lia.
      eapply acts_bind with (c1 := hi - p) (c2 := n); [lia|eapply (cost_shift_up _ lo (hi + n) p hi n); auto; try lia|].
      { intros a s2 Ha _. apply looks_ret_eq. rewrite Hbwd by lia. now rewrite Heq by lia. }
      { intros; apply HR; lia. } { intros; apply HR; lia. }
      cbn beta. intros _ s2 H2.
      eapply acts_bind with (c1 := p + n - p) (c2 := 0); [lia|eapply (cost_fill _ v lo (hi + n) p (p + n)); auto; try lia|].
      { intros a s3 Ha _. apply looks_ret_eq. rewrite Hfwd by lia. now rewrite Heq by lia. }
      { intros; apply HR; lia. }
      cbn beta. intros _ s3 H3. apply acts_ret. exact H3.
    - eapply acts_bind with (c1 := n - (hi - p)) (c2 := hi - p + (hi - p)); [lia|
        eapply (cost_ctor_back (fun k => k) (fun i => ret (i <? n - (hi - p))) (fun _ => deref B (RVal v)) (fun i => i + 1)
          lo hi (n - (hi - p)) 0); auto; try lia|].
      { intros k s1 Hk. apply looks_ret_eq. bcase; try reflexivity; lia. }
      { intros k s1 Hk. apply acts_ret. reflexivity. }
      { intros; apply HR; lia. }
      cbn beta. intros _ s1 [_ H1].
      eapply acts_bind with (c1 := hi - p) (c2 := hi - p); [lia|
        eapply (cost_ctor_back (fun k => ph (p + k)) (fun it => ret (negb (it =? fwd (ph p) (hi - p)))) (fun it => rd B it)
          (fun it => fwd it 1) lo (hi + (n - (hi - p))) (hi - p) (ph p)); auto; try lia|].
      { f_equal; lia. }
      { intros k Hk. rewrite Hfwd by lia. f_equal; lia. }
      { intros k s2 Hk. apply looks_ret_eq. rewrite Hfwd by lia. rewrite Heq by lia. f_equal. bcase; try reflexivity; lia. }
      { intros k s2 Hk. apply acts_src_rd, HR. lia. }
      { intros; apply HR; lia. }
      cbn beta. intros _ s2 [_ H2]. replace (hi + (n - (hi - p)) + (hi - p)) with (hi + n) in H2 by lia.
      eapply acts_bind with (c1 := hi - p) (c2 := 0); [lia|eapply (cost_fill _ v lo (hi + n) p hi); auto; try lia|].
      { intros a s3 Ha _. apply looks_ret_eq. now rewrite Heq by lia. }
      { intros; apply HR; lia. }
      cbn beta. intros _ s3 H3. apply acts_ret. exact H3.
  Qed.

  Lemma cost_insert_range_end lo hi p n xs s :
    inc_ok cap ph inc lo -> ends lo hi s -> lo <= p <= hi -> 0 <= n <= cap - (hi - lo) -> n = lenz xs ->
    (forall a, p <= a < hi + n -> ~ R (ph a)) ->
    acts R (ins_cost n (hi - p)) (fun _ s' => ends lo (hi + n) s')
      (g_insert_range_end B fwd bwd torn dflt fuel getend inc (ph p) n (hi - p) (n - (hi - p)) (ph hi) xs) s.
  Proof.
    intros Hinc Hs Hp Hn Hxs HR. unfold g_insert_range_end, insert_copies. destruct (Z.ltb_spec n (hi - p)) as [Hlt|Hge].
    - eapply acts_bind with (c1 := n) (c2 := hi - p + n); [lia|apply (cost_default_back lo hi n); auto; try lia; intros; apply HR; lia|].
      cbn beta. intros _ s1 H1. rewrite (Hbwd hi) by lia.
      eapply acts_bind with (c1 := hi - p) (c2 := n); [lia|eapply (cost_shift_up _ lo (hi + n) p hi n); auto; try lia|].
      { intros a s2 Ha _. apply looks_ret_eq. rewrite Hbwd by lia. now rewrite Heq by lia. }
      { intros; apply HR; lia. } { intros; apply HR; lia. }
      cbn beta. intros _ s2 H2.
      eapply acts_bind with (c1 := p + n - p) (c2 := 0); [lia|eapply (cost_fill_range _ xs 0 lo (hi + n) p (p + n)); auto; try lia|].
      { intros k s3 Hk _. apply looks_ret_eq. cbn [snd]. f_equal. bcase; try reflexivity; lia. }
      { intros; apply HR; lia. }
      cbn beta. intros _ s3 H3. apply acts_ret. exact H3.
    - eapply acts_bind with (c1 := 0) (c2 := n + (hi - p)); [lia|apply cost_advance; lia|]. cbn beta. intros im s0 [Him ->].
      eapply acts_bind with (c1 := n - (hi - p)) (c2 := hi - p + (hi - p)); [lia|
        eapply (cost_ctor_back (fun k => (k, hi - p + k)) (fun im => ret (fst im <? n - (hi - p))) (fun im => rdin xs (snd im))
          (fun im => (fst im + 1, snd im + 1)) lo hi (n - (hi - p)) (0, snd im)); auto; try lia|].
      { f_equal. lia. }
      { intros k Hk. cbn [fst snd]. f_equal. lia. }
      { intros k s1 Hk. apply looks_ret_eq. cbn [fst]. bcase; try reflexivity; lia. }
      { intros k s1 Hk. apply acts_rdin. }
      { intros; apply HR; lia. }
      cbn beta. intros _ s1 [_ H1].
      eapply acts_bind with (c1 := hi - p) (c2 := hi - p); [lia|
        eapply (cost_ctor_back (fun k => ph (p + k)) (fun it => ret (negb (it =? fwd (ph p) (hi - p)))) (fun it => rd B it)
          (fun it => fwd it 1) lo (hi + (n - (hi - p))) (hi - p) (ph p)); auto; try lia|].
      { f_equal; lia. }
      { intros k Hk. rewrite Hfwd by lia. f_equal; lia. }
      { intros k s2 Hk. apply looks_ret_eq. rewrite Hfwd by lia. rewrite Heq by lia. f_equal. bcase; try reflexivity; lia. }
      { intros k s2 Hk. apply acts_src_rd, HR. lia. }
      { intros; apply HR; lia. }
      cbn beta. intros _ s2 [_ H2]. replace (hi + (n - (hi - p)) + (hi - p)) with (hi + n) in H2 by lia.
      eapply acts_bind with (c1 := hi - p) (c2 := 0); [lia|eapply (cost_fill_range _ xs 0 lo (hi + n) p hi); auto; try lia|].
      { intros k s3 Hk _. apply looks_ret_eq. cbn [fst]. rewrite Heq by lia. f_equal. bcase; try reflexivity; lia. }
      { intros; apply HR; lia. }
      cbn beta. intros _ s3 H3. apply acts_ret. exact H3.
  Qed.

  Lemma cost_insert_n_begin lo hi p n v s :
    dec_ok ph dec -> ends lo hi s -> lo <= p <= hi -> 0 <= n <= cap - (hi - lo) ->
    (forall a, lo - n <= a < p -> ~ R (ph a)) ->
    acts R (ins_cost n (p - lo)) (fun _ s' => ends (lo - n) hi s')
      (g_insert_n_begin B fwd bwd torn dflt fuel getbegin dec (ph p) n (p - lo) (n - (p - lo)) (ph lo) (RVal v)) s.
  Proof.
    intros Hdec Hs Hp Hn HR. unfold g_insert_n_begin, insert_copies. destruct (Z.ltb_spec n (p - lo)) as [Hlt|Hge].
    - eapply acts_bind with (c1 := n) (c2 := p - lo + n); [lia|apply (cost_default_front lo hi n); auto; try lia; intros; apply HR; lia|].
      cbn beta. intros _ s1 H1.
      eapply acts_bind with (c1 := p - lo) (c2 := n); [lia|eapply (cost_shift_down _ (lo - n) hi lo p n); auto; try lia|].
      { intros a s2 Ha _. apply looks_ret_eq. now rewrite Heq by lia. }
      { intros; apply HR; lia. } { intros; apply HR; lia. }
      cbn beta. intros _ s2 H2. rewrite (Hbwd p n) by lia.
      eapply acts_bind with (c1 := p - (p - n)) (c2 := 0); [lia|eapply (cost_fill _ v (lo - n) hi (p - n) p); auto; try lia|].
      { intros a s3 Ha _. apply looks_ret_eq. now rewrite Heq by lia. }
      { intros; apply HR; lia. }
      cbn beta. intros _ s3 H3. apply acts_ret. exact H3.
    - eapply acts_bind with (c1 := n - (p - lo)) (c2 := p - lo + (p - lo)); [lia|
        eapply (cost_ctor_front (fun k => k) (fun i => ret (i <? n - (p - lo))) (fun _ => deref B (RVal v)) (fun i => i + 1)
          lo hi (n - (p - lo)) 0); auto; try lia|].
      { intros k s1 Hk. apply looks_ret_eq. bcase; try reflexivity; lia. }
      { intros k s1 Hk. apply acts_ret. reflexivity. }
      { intros; apply HR; lia. }
      cbn beta. intros _ s1 [_ H1]. rewrite (Hbwd p 1) by lia.
      eapply acts_bind with (c1 := p - lo) (c2 := p - lo); [lia|
        eapply (cost_ctor_front (fun k => ph (p - 1 - k)) (fun it => ret (negb (it =? bwd (ph lo) 1))) (fun it => rd B it)
          (fun it => bwd it 1) (lo - (n - (p - lo))) hi (p - lo) (ph (p - 1))); auto; try lia|].
      { f_equal; lia. }
      { intros k Hk. rewrite Hbwd by lia. f_equal; lia. }
      { intros k s2 Hk. apply looks_ret_eq. rewrite Hbwd by lia. rewrite Heq by lia. f_equal. bcase; try reflexivity; lia. }
      { intros k s2 Hk. apply acts_src_rd, HR. lia. }
      { intros; apply HR; lia. }
      cbn beta. intros _ s2 [_ H2]. replace (lo - (n - (p - lo)) - (p - lo)) with (lo - n) in H2 by lia.
      eapply acts_bind with (c1 := p - lo) (c2 := 0); [lia|eapply (cost_fill _ v (lo - n) hi lo p); auto; try lia|].
      { intros a s3 Ha _. apply looks_ret_eq. now rewrite Heq by lia. }
      { intros; apply HR; lia. }
      cbn beta. intros _ s3 H3. apply acts_ret. exact H3.
  Qed.

  Lemma cost_insert_range_begin lo hi p n xs s :
    dec_ok ph dec -> ends lo hi s -> lo <= p <= hi -> 0 <= n <= cap - (hi - lo) -> n = lenz xs ->
    (forall a, lo - n <= a < p -> ~ R (ph a)) ->
    acts R (ins_cost n (p - lo)) (fun _ s' => ends (lo - n) hi s')
      (g_insert_range_begin B fwd bwd torn dflt fuel getbegin dec (ph p) n (p - lo) (n - (p - lo)) (ph lo) xs) s.
  Proof.
    intros Hdec Hs Hp Hn Hxs HR. unfold g_insert_range_begin, insert_copies. destruct (Z.ltb_spec n (p - lo)) as [Hlt|Hge].
    - eapply acts_bind with (c1 := n) (c2 := p - lo + n); [lia|apply (cost_default_front lo hi n); auto; try lia; intros; apply HR; lia|].
      cbn beta. intros _ s1 H1.
      eapply acts_bind with (c1 := p - lo) (c2 := n); [lia|eapply (cost_shift_down _ (lo - n) hi lo p n); auto; try lia|].
      { intros a s2 Ha _. apply looks_ret_eq. now rewrite Heq by lia. }
      { intros; apply HR; lia. } { intros; apply HR; lia. }
      cbn beta. intros _ s2 H2. rewrite (Hbwd p n) by lia.
      eapply acts_bind with (c1 := p - (p - n)) (c2 := 0); [lia|eapply (cost_fill_range _ xs 0 (lo - n) hi (p - n) p); auto; try lia|].
      { intros k s3 Hk _. apply looks_ret_eq. cbn [fst]. rewrite Heq by lia. f_equal. bcase; try reflexivity; lia. }
      { intros; apply HR; lia. }
      cbn beta. intros _ s3 H3. apply acts_ret. exact H3.
    - eapply acts_bind with (c1 := 0) (c2 := n + (p - lo)); [lia|apply cost_advance; lia|]. cbn beta zeta. intros im s0 [Him ->].
      eapply acts_bind with (c1 := n - (p - lo)) (c2 := p - lo + (p - lo)); [lia|
        eapply (cost_ctor_front (fun k => (k, n - (p - lo) - k)) (fun ip => ret (fst ip <? n - (p - lo)))
          (fun ip => rdin xs (snd ip - 1)) (fun ip => (fst ip + 1, snd ip - 1)) lo hi (n - (p - lo)) (0, snd im)); auto; try lia|].
      { f_equal. lia. }
      { intros k Hk. cbn [fst snd]. f_equal. lia. }
      { intros k s1 Hk. apply looks_ret_eq. cbn [fst]. bcase; try reflexivity; lia. }
      { intros k s1 Hk. apply acts_rdin. }
      { intros; apply HR; lia. }
      cbn beta. intros _ s1 [_ H1]. rewrite (Hbwd p 1) by lia.
      eapply acts_bind with (c1 := p - lo) (c2 := p - lo); [lia|
        eapply (cost_ctor_front (fun k => ph (p - 1 - k)) (fun it => ret (negb (it =? bwd (ph lo) 1))) (fun it => rd B it)
          (fun it => bwd it 1) (lo - (n - (p - lo))) hi (p - lo) (ph (p - 1))); auto; try lia|].
      { f_equal; lia. }
      { intros k Hk. rewrite Hbwd by lia. f_equal; lia. }
      { intros k s2 Hk. apply looks_ret_eq. rewrite Hbwd by lia. rewrite Heq by lia. f_equal. bcase; try reflexivity; lia. }
      { intros k s2 Hk. apply acts_src_rd, HR. lia. }
      { intros; apply HR; lia. }
      cbn beta. intros _ s2 [_ H2]. replace (lo - (n - (p - lo)) - (p - lo)) with (lo - n) in H2 by lia.
      eapply acts_bind with (c1 := p - lo) (c2 := 0); [lia|eapply (cost_fill_range _ xs (snd im) (lo - n) hi lo p); auto; try lia|].
      { intros k s3 Hk _. apply looks_ret_eq. cbn [fst]. rewrite Heq by lia. f_equal. bcase; try reflexivity; lia. }
      { intros; apply HR; lia. }
      cbn beta. intros _ s3 H3. apply acts_ret. exact H3.
  Qed.
End GenCost.
