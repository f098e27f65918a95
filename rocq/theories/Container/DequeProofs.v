(** Proofs about Container.DequeModel. *)
From Verif Require Import Base.ZList Spec.SeqSpec Container.Mem Container.Triple Container.Rep Container.Loops
  Container.GenInsert Container.ListRep Container.DequeModel.

(** ** ring index arithmetic *)
Section DIdx.
  Variable B : Z.
  Hypothesis HB : 1 <= B < 2 ^ 63.
  Definition dph (a : Z) : Z := a mod B.

  Lemma dph_range a : 0 <= dph a < B.
  Proof. unfold dph. apply Z.mod_pos_bound. lia. Qed.
  Lemma dph_period a : dph a = dph (a + B).
  Proof. unfold dph. rewrite <- (Z.mod_add a 1 B) by lia. f_equal. lia. Qed.
  Lemma dph_inj a a' : - B < a - a' < B -> dph a = dph a' -> a = a'.
  Proof.
    unfold dph. intros H E. pose proof (Z.div_mod a B ltac:(lia)). pose proof (Z.div_mod a' B ltac:(lia)).
    assert (E' : a - a' = B * (a / B - a' / B)) by nia.
    remember (a / B - a' / B) as d eqn:Hd. clear Hd.
    assert (d = 0) by (destruct (Z_lt_le_dec d 0); [nia|]; destruct (Z_lt_le_dec 0 d); [nia|lia]).
    subst d. lia.
  Qed.
  Lemma dph_eqb a a' : - B < a - a' < B -> (dph a =? dph a') = (a =? a').
  Proof.
    intros H. destruct (Z.eqb_spec a a') as [->|Hn]; [apply Z.eqb_refl|].
    apply Z.eqb_neq. intros E. apply Hn. now apply dph_inj.
  Qed.
  (** the unique representative *)
  Lemma dph_unique a i k : 0 <= i < B -> i = a + k * B -> dph a = i.
  Proof.
    intros Hi E. unfold dph. symmetry. apply (Z.mod_unique_pos a B (- k)); [exact Hi|]. nia.
  Qed.
  Lemma dph_cases a : exists k, dph a = a + k * B.
  Proof. exists (- (a / B)). unfold dph. pose proof (Z.div_mod a B ltac:(lia)). nia. Qed.

  Lemma next_ok a k : 0 <= k <= B -> next_idx B (dph a) k = dph (a + k).
  Proof.
    intros Hk. pose proof (dph_range a) as Hr. destruct (dph_cases a) as [q Hq]. unfold next_idx.
    rewrite (w64_small (dph a + k)) by (rewrite W64_val; lia).
    destruct (Z.ltb_spec (dph a + k) B).
    - symmetry. apply (dph_unique _ _ q); lia.
    - rewrite w64_small by (rewrite W64_val; lia). symmetry. apply (dph_unique _ _ (q - 1)); lia.
  Qed.
  Lemma prev_ok a k : 0 <= k <= B -> prev_idx B (dph a) k = dph (a - k).
  Proof.
    intros Hk. pose proof (dph_range a) as Hr. destruct (dph_cases a) as [q Hq]. unfold prev_idx.
    destruct (Z.leb_spec k (dph a)).
    - rewrite w64_small by (rewrite W64_val; lia). symmetry. apply (dph_unique _ _ q); lia.
    - rewrite (w64_small (B + dph a)) by (rewrite W64_val; lia).
      rewrite w64_small by (rewrite W64_val; lia). symmetry. apply (dph_unique _ _ (q + 1)); lia.
  Qed.
  Lemma dist_ok a b : 0 <= b - a < B -> distance_idx B (dph a) (dph b) = b - a.
  Proof.
    intros Hk. pose proof (dph_range a) as Ha. pose proof (dph_range b) as Hb.
    destruct (dph_cases a) as [q Hq]. destruct (dph_cases b) as [r Hr]. unfold distance_idx.
    destruct (Z.leb_spec (dph a) (dph b)).
    - rewrite w64_small by (rewrite W64_val; lia). assert (r = q) by nia. subst. lia.
    - rewrite (w64_small (B - dph a)) by (rewrite W64_val; lia).
      rewrite w64_small by (rewrite W64_val; lia). assert (r = q - 1) by nia. subst. lia.
  Qed.
  Lemma it_add_ok a k : 0 <= k <= B -> it_add B (dph a) k = dph (a + k).
  Proof. intros H. unfold it_add. destruct (Z.ltb_spec k 0); [lia|]. now apply next_ok. Qed.
  Lemma it_sub_ok a k : 0 <= k <= B -> it_sub B (dph a) k = dph (a - k).
  Proof. intros H. unfold it_sub. destruct (Z.ltb_spec k 0); [lia|]. now apply prev_ok. Qed.
  (** signed offsets *)
  Lemma it_add_gen a k : - B <= k <= B -> it_add B (dph a) k = dph (a + k).
  Proof.
    intros H. unfold it_add. destruct (Z.ltb_spec k 0).
    - rewrite prev_ok by lia. f_equal; lia.
    - now apply next_ok.
  Qed.
  Lemma it_sub_gen a k : - B <= k <= B -> it_sub B (dph a) k = dph (a - k).
  Proof.
    intros H. unfold it_sub. destruct (Z.ltb_spec k 0).
    - rewrite next_ok by lia. f_equal; lia.
    - now apply prev_ok.
  Qed.
  Lemma it_lt_ok lo a b : 0 <= a - lo < B -> 0 <= b - lo < B -> it_lt B (dph lo) (dph a) (dph b) = (a <? b).
  Proof.
    intros Ha Hb. unfold it_lt. rewrite !dist_ok by lia.
    destruct (Z.ltb_spec (a - lo) (b - lo)), (Z.ltb_spec a b); try reflexivity; lia.
  Qed.
  Lemma it_le_ok lo a b : 0 <= a - lo < B -> 0 <= b - lo < B -> it_le B (dph lo) (dph a) (dph b) = (a <=? b).
  Proof.
    intros Ha Hb. unfold it_le. rewrite it_lt_ok by lia.
    destruct (Z.ltb_spec b a), (Z.leb_spec a b); try reflexivity; lia.
  Qed.
  Lemma it_ge_ok lo a b : 0 <= a - lo < B -> 0 <= b - lo < B -> it_ge B (dph lo) (dph a) (dph b) = (b <=? a).
  Proof.
    intros Ha Hb. unfold it_ge. rewrite it_lt_ok by lia.
    destruct (Z.ltb_spec a b), (Z.leb_spec b a); try reflexivity; lia.
  Qed.
  Lemma it_diff_ok lo a b : 0 <= a - lo < B -> 0 <= b - lo < B -> it_diff B (dph lo) (dph a) (dph b) = a - b.
  Proof.
    intros Ha Hb. unfold it_diff. rewrite it_ge_ok by lia.
    destruct (Z.leb_spec b a); rewrite dist_ok by lia; rewrite s64_small by lia; lia.
  Qed.
End DIdx.

Section DP.
  Context {V : Type}.
  Variable cap bufsize : Z.
  Variable torn dflt : V.
  Variable dbg : bool.
  Hypothesis HBuf : bufsize = cap + 1.
  Hypothesis Hcap : 0 <= cap /\ bufsize < 2 ^ 63.

  Definition dok (lo : Z) : Prop := True.
  Notation B := bufsize.
  Notation ph := (dph bufsize).
  Notation fwd := (fun i n => it_add bufsize i (s64 n)).
  Notation bwd := (fun i n => it_sub bufsize i (s64 n)).

  Lemma HB : 1 <= bufsize < 2 ^ 63.
  Proof. lia. Qed.
  Hint Resolve HB : core.

  Lemma dfwd a k : 0 <= k <= cap + 1 -> fwd (ph a) k = ph (a + k).
  Proof. intros H. cbv beta. rewrite s64_small by lia. apply it_add_ok; [exact HB|lia]. Qed.
  Lemma dbwd a k : 0 <= k <= cap + 1 -> bwd (ph a) k = ph (a - k).
  Proof. intros H. cbv beta. rewrite s64_small by lia. apply it_sub_ok; [exact HB|lia]. Qed.

  Lemma dgeo : geo bufsize cap ph dok fwd bwd.
  Proof.
    split.
    - lia.
    - intros lo a _ _. apply dph_range. exact HB.
    - intros lo a a' _ H1 H2. apply dph_inj; [exact HB|lia].
    - intros a k H. now apply dfwd.
    - intros a k H. now apply dbwd.
    - intros a a' H. apply dph_eqb; [exact HB|lia].
  Qed.
  Lemma dring : (forall lo, dok lo) /\ (forall a, ph a = ph (a + bufsize)) /\ cap < bufsize.
  Proof. split; [exact (fun _ => I)|]. split; [intros a; apply dph_period; exact HB|lia]. Qed.

  Notation DR := (fun nf s lo l => LRep bufsize cap ph dok dflt nf s lo l).
  Notation dexc := (@Exc V bufsize cap ph dok).

  Lemma dinc_ok lo : inc_ok cap ph (@d_inc_end V bufsize) lo.
  Proof.
    intros s a Ha Hm Hlt. unfold d_inc_end, bind, get_me, set_me. rewrite Hm. now rewrite (next_ok _ HB) by lia.
  Qed.
  Lemma ddec_ok : dec_ok ph (@d_dec_begin V bufsize).
  Proof.
    intros s a Hm. unfold d_dec_begin, bind, get_mb, set_mb. rewrite Hm. now rewrite (prev_ok _ HB) by lia.
  Qed.
  Lemma dend (s : st V) : d_end s = Ok (me s) s.
  Proof. reflexivity. Qed.
  Lemma dbegin (s : st V) : d_begin s = Ok (mb s) s.
  Proof. reflexivity. Qed.
  Lemma dfuel_ok : cap <= Z.of_nat (dfuel bufsize).
  Proof. unfold dfuel. lia. Qed.

  Lemma DR_me nf s lo l : DR nf s lo l -> me s = ph (lo + lenz l).
  Proof. intros R. exact (R_me _ _ _ _ _ _ _ _ _ R). Qed.
  Lemma DR_mb nf s lo l : DR nf s lo l -> mb s = ph lo.
  Proof. intros R. exact (R_mb _ _ _ _ _ _ _ _ _ R). Qed.
  Lemma DR_len nf s lo l : DR nf s lo l -> 0 <= lenz l <= cap.
  Proof. intros R. apply (LRep_len _ _ _ _ _ _ _ _ _ R). Qed.

  Lemma dexc_LRep nf e s : dexc nf e s -> e = ElemExn /\ nf = false /\ exists lo l, DR nf s lo l.
  Proof. exact (Exc_LRep _ _ _ _ dflt _ _ _). Qed.
  Lemma dexc_intro nf s lo l : nf = false -> DR nf s lo l -> dexc nf ElemExn s.
  Proof. intros H R. eapply Exc_intro; [exact H|exact R]. Qed.

  Lemma dsize nf s lo l : DR nf s lo l -> d_size bufsize s = Ok (lenz l) s.
  Proof.
    intros R. pose proof (DR_len _ _ _ _ R). unfold d_size, bind, get_mb, get_me, ret.
    rewrite (DR_mb _ _ _ _ R), (DR_me _ _ _ _ R), (dist_ok _ HB) by lia. f_equal. lia.
  Qed.
  Lemma davail nf s lo l : DR nf s lo l -> d_available_size cap bufsize s = Ok (cap - lenz l) s.
  Proof.
    intros R. pose proof (DR_len _ _ _ _ R). unfold d_available_size, bind. rewrite (dsize _ _ _ _ R).
    unfold ret. rewrite w64_small by (rewrite W64_val; lia). reflexivity.
  Qed.
  Lemma dfull nf s lo l : DR nf s lo l -> d_full cap bufsize s = Ok (lenz l =? cap) s.
  Proof. intros R. unfold d_full, bind. rewrite (dsize _ _ _ _ R). reflexivity. Qed.
  Lemma dempty nf s lo l : DR nf s lo l -> d_empty s = Ok (lenz l =? 0) s.
  Proof.
    intros R. pose proof (DR_len _ _ _ _ R). unfold d_empty, bind, get_mb, get_me, ret.
    rewrite (DR_mb _ _ _ _ R), (DR_me _ _ _ _ R). rewrite (dph_eqb _ HB) by lia.
    f_equal. bcase; try reflexivity; lia.
  Qed.

  Definition drefok (lo : Z) (l : list V) (r : ref V) (v : V) : Prop :=
    r = RVal v \/ exists i, 0 <= i < lenz l /\ r = RSlot (ph (lo + i)) /\ nthz dflt l i = v.
  Lemma drefok_refok lo l r v : drefok lo l r v ->
    refok ph (fun _ => True) lo (lo + lenz l) (fun a => nthz dflt l (a - lo)) r v.
  Proof.
    intros [->|(i & Hi & -> & Hv)]; [now left|]. right. exists (lo + i). repeat split; try lia; auto.
    rewrite <- Hv. f_equal; lia.
  Qed.
  Lemma drefok_app lo l l' r v : drefok lo l r v -> drefok lo (l ++ l') r v.
  Proof.
    intros [->|(i & Hi & -> & Hv)]; [now left|]. right. exists i.
    pose proof (lenz_nonneg l'). rewrite lenz_app. repeat split; try lia; auto.
    rewrite nthz_app by lia. destruct (Z.ltb_spec i (lenz l)); [exact Hv|lia].
  Qed.

  Lemma d_push_back_runs nf s lo l r v :
    DR nf s lo l -> drefok lo l r v ->
    runs (d_push_back cap bufsize r) s
      (fun _ s' => lenz l < cap /\ DR nf s' lo (l ++ [v]))
      (fun e s' => (e = BadAlloc /\ lenz l = cap /\ s' = s) \/ (e = ElemExn /\ nf = false /\ DR nf s' lo l)).
  Proof.
    intros R Hr. pose proof (DR_me _ _ _ _ R) as Hme. pose proof (DR_len _ _ _ _ R) as Hlen.
    unfold d_push_back. eapply runs_bind_ok; [exact (dfull _ _ _ _ R)|].
    destruct (Z.eqb_spec (lenz l) cap) as [He|He].
    - left. auto.
    - eapply runs_bind_ok; [apply dend|].
      eapply runs_bind_ok; [eapply (deref_ok bufsize cap ph dok fwd bwd dgeo); [exact R|apply drefok_refok; exact Hr]|].
      rewrite Hme.
      assert (H' : runs (ctor bufsize (ph (lo + lenz l)) v;;; (x <- d_inc_end bufsize;; ret x)) s
        (fun _ s' => lenz l < cap /\ DR nf s' lo (l ++ [v]))
        (fun e s' => (e = BadAlloc /\ lenz l = cap /\ s' = s) \/ (e = ElemExn /\ nf = false /\ DR nf s' lo l))).
      { apply (runs_ctor_back bufsize cap ph dok (g_cap _ _ _ _ _ _ dgeo) (g_range _ _ _ _ _ _ dgeo)
          (g_inj _ _ _ _ _ _ dgeo) nf s lo (lo + lenz l) _ v (d_inc_end bufsize) (fun u => ret u) _ _ (dinc_ok lo) R); [lia| |].
        - intros s' R'. apply runs_ret. split; [lia|]. eapply LRep_intro; [exact R'| |].
          + rewrite lenz_app, lenz_1. lia.
          + rewrite lenz_app, lenz_1. intros k Hk. unfold setF. rewrite nthz_app by lia.
            bcase; try lia; try (f_equal; lia).
            replace (k - lenz l) with 0 by lia. reflexivity.
        - intros Hn s' R'. right. auto. }
      unfold runs, bind, ret in *. destruct (ctor bufsize (ph (lo + lenz l)) v s) as [a s1|e s1|s1| |]; auto.
  Qed.

  Lemma d_push_front_runs nf s lo l r v :
    DR nf s lo l -> drefok lo l r v ->
    runs (d_push_front cap bufsize r) s
      (fun _ s' => lenz l < cap /\ DR nf s' (lo - 1) (v :: l))
      (fun e s' => (e = BadAlloc /\ lenz l = cap /\ s' = s) \/ (e = ElemExn /\ nf = false /\ DR nf s' lo l)).
  Proof.
    intros R Hr. pose proof (DR_mb _ _ _ _ R) as Hmb. pose proof (DR_len _ _ _ _ R) as Hlen.
    unfold d_push_front. eapply runs_bind_ok; [exact (dfull _ _ _ _ R)|].
    destruct (Z.eqb_spec (lenz l) cap) as [He|He].
    - left. auto.
    - eapply runs_bind_ok; [apply dbegin|].
      eapply runs_bind_ok; [eapply (deref_ok bufsize cap ph dok fwd bwd dgeo); [exact R|apply drefok_refok; exact Hr]|].
      rewrite Hmb. rewrite (dbwd lo 1) by lia.
      assert (H' : runs (ctor bufsize (ph (lo - 1)) v;;; (x <- d_dec_begin bufsize;; ret x)) s
        (fun _ s' => lenz l < cap /\ DR nf s' (lo - 1) (v :: l))
        (fun e s' => (e = BadAlloc /\ lenz l = cap /\ s' = s) \/ (e = ElemExn /\ nf = false /\ DR nf s' lo l))).
      { apply (runs_ctor_front bufsize cap ph dok (g_range _ _ _ _ _ _ dgeo)
          (g_inj _ _ _ _ _ _ dgeo) nf s lo (lo + lenz l) (fun a => nthz dflt l (a - lo)) v (d_dec_begin bufsize) (fun u => ret u) _ _ I
          (fun _ _ => proj1 (proj2 dring)) (proj2 (proj2 dring)) ddec_ok R); [lia| |].
        - intros s' R'. apply runs_ret. split; [lia|]. eapply LRep_intro; [exact R'| |].
          + rewrite lenz_cons. lia.
          + rewrite lenz_cons. intros k Hk. unfold setF. 
            destruct (Z.eqb_spec (lo - 1 + k) (lo - 1)) as [E|E].
            * now replace k with 0 by lia.
            * change (v :: l) with ([v] ++ l). rewrite nthz_app by lia. rewrite lenz_1.
              destruct (Z.ltb_spec k 1); [lia|]. f_equal; lia.
        - intros Hn s' R'. right. auto. }
      unfold runs, bind, ret in *. destruct (ctor bufsize (ph (lo - 1)) v s) as [a s1|e s1|s1| |]; auto.
  Qed.

  Lemma d_destroy_range_runs nf s lo l x y E :
    DR nf s lo l -> lo <= x <= y -> y <= lo + lenz l ->
    runs (d_destroy_range bufsize (ph x) (ph y)) s
      (fun _ s' => Hole bufsize cap ph dok nf s' lo (lo + lenz l) x y (fun a => nthz dflt l (a - lo))) E.
  Proof.
    intros R Hx Hy. pose proof (DR_len _ _ _ _ R) as Hlen. unfold d_destroy_range.
    eapply runs_bind.
    - apply (loop_destroy bufsize cap ph dok fwd bwd dgeo (dfuel bufsize) nf s lo (lo + lenz l)
        (fun a => nthz dflt l (a - lo)) x y E); auto; try lia.
      pose proof dfuel_ok. lia.
    - intros a s' H. apply runs_ret. exact H.
  Qed.

  Lemma DR_truncate nf s' lo l n m :
    Hole bufsize cap ph dok nf s' lo (lo + lenz l) (lo + n) (lo + lenz l) (fun a => nthz dflt l (a - lo)) ->
    0 <= n <= lenz l -> m = mkst (mem s') (mb s') (ph (lo + n)) (fuse s') -> DR nf m lo (takez n l).
  Proof.
    intros H Hn ->.
    assert (R' : Rep bufsize cap ph dok nf (mkst (mem s') (mb s') (ph (lo + n)) (fuse s')) lo (lo + n) (fun a => nthz dflt l (a - lo))).
    { eapply Hole_back; [exact H|lia|..]; reflexivity. }
    eapply LRep_intro; [exact R'| |].
    - rewrite lenz_takez; lia.
    - rewrite lenz_takez by lia. intros k Hk. rewrite nthz_takez by lia. f_equal; lia.
  Qed.
  Lemma DR_dropfront nf s' lo l n m :
    Hole bufsize cap ph dok nf s' lo (lo + lenz l) lo (lo + n) (fun a => nthz dflt l (a - lo)) ->
    0 <= n <= lenz l -> m = mkst (mem s') (ph (lo + n)) (me s') (fuse s') -> DR nf m (lo + n) (dropz n l).
  Proof.
    intros H Hn ->.
    assert (R' : Rep bufsize cap ph dok nf (mkst (mem s') (ph (lo + n)) (me s') (fuse s')) (lo + n) (lo + lenz l) (fun a => nthz dflt l (a - lo))).
    { eapply Hole_front; [intros _ _; apply (proj1 (proj2 dring))|exact I|exact H|lia|..]; reflexivity. }
    eapply LRep_intro; [exact R'| |].
    - rewrite lenz_dropz; lia.
    - rewrite lenz_dropz by lia. intros k Hk. rewrite nthz_dropz by lia. f_equal; lia.
  Qed.

  Lemma d_clear_runs nf s lo l E : DR nf s lo l -> runs (d_clear bufsize) s (fun _ s' => DR nf s' lo []) E.
  Proof.
    intros R. pose proof (DR_me _ _ _ _ R) as Hme. pose proof (DR_mb _ _ _ _ R) as Hmb. pose proof (DR_len _ _ _ _ R) as Hlen.
    unfold d_clear. eapply runs_bind_ok; [apply dbegin|]. eapply runs_bind_ok; [apply dend|]. rewrite Hme, Hmb.
    eapply runs_bind; [apply (d_destroy_range_runs nf s lo l lo (lo + lenz l)); [exact R|lia|lia]|].
    cbn beta. intros _ s' H. eapply runs_get_mb.
    unfold runs, set_me. change (@nil V) with (takez 0 l).
    eapply (DR_truncate nf s' lo l 0); [replace (lo + 0) with lo by lia; exact H|lia|].
    rewrite (H_mb _ _ _ _ _ _ _ _ _ _ _ H). now replace (lo + 0) with lo by lia.
  Qed.

  Lemma d_pop_back_runs nf s lo l E :
    DR nf s lo l -> l <> [] -> runs (d_pop_back bufsize dbg) s (fun _ s' => DR nf s' lo (takez (lenz l - 1) l)) E.
  Proof.
    intros R Hne. pose proof (DR_me _ _ _ _ R) as Hme. pose proof (DR_len _ _ _ _ R) as Hlen.
    pose proof (lenz_pos _ Hne) as Hpos.
    unfold d_pop_back. eapply runs_bind_ok; [exact (dempty _ _ _ _ R)|].
    eapply runs_dassert; [intros _; bcase; [lia|reflexivity]|].
    eapply runs_bind_ok; [apply dend|]. rewrite Hme. rewrite (dbwd _ 1) by lia.
    apply (runs_dtor bufsize cap ph dok (g_cap _ _ _ _ _ _ dgeo) (g_range _ _ _ _ _ _ dgeo) (g_inj _ _ _ _ _ _ dgeo)
      nf s lo (lo + lenz l) (lo + lenz l - 1) (lo + lenz l - 1) (fun a => nthz dflt l (a - lo))); [apply Rep_Hole; exact R|lia|lia|].
    intros s' H'. eapply runs_get_me. rewrite (H_me _ _ _ _ _ _ _ _ _ _ _ H').
    rewrite (prev_ok _ HB) by lia. unfold runs, set_me.
    apply (DR_truncate nf s' lo l (lenz l - 1)); [|lia|do 2 f_equal; lia].
    replace (lo + (lenz l - 1)) with (lo + lenz l - 1) by lia.
    now replace (lo + lenz l - 1 + 1) with (lo + lenz l) in H' by lia.
  Qed.
  Lemma d_pop_front_runs nf s lo l E :
    DR nf s lo l -> l <> [] -> runs (d_pop_front bufsize dbg) s (fun _ s' => DR nf s' (lo + 1) (dropz 1 l)) E.
  Proof.
    intros R Hne. pose proof (DR_mb _ _ _ _ R) as Hmb. pose proof (DR_len _ _ _ _ R) as Hlen.
    pose proof (lenz_pos _ Hne) as Hpos.
    unfold d_pop_front. eapply runs_bind_ok; [exact (dempty _ _ _ _ R)|].
    eapply runs_dassert; [intros _; bcase; [lia|reflexivity]|].
    eapply runs_bind_ok; [apply dbegin|]. rewrite Hmb.
    apply (runs_dtor bufsize cap ph dok (g_cap _ _ _ _ _ _ dgeo) (g_range _ _ _ _ _ _ dgeo) (g_inj _ _ _ _ _ _ dgeo)
      nf s lo (lo + lenz l) lo lo (fun a => nthz dflt l (a - lo))); [apply Rep_Hole; exact R|lia|lia|].
    intros s' H'. eapply runs_get_mb. rewrite (H_mb _ _ _ _ _ _ _ _ _ _ _ H').
    rewrite (next_ok _ HB) by lia. unfold runs, set_mb.
    apply (DR_dropfront nf s' lo l 1); [exact H'|lia|reflexivity].
  Qed.

  Definition dspecE (nf : bool) (l : list V) (o : op V) (e : exn) (s' : st V) : Prop :=
    (fst (seq_step dflt cap l o) = OExn e /\ exists lo, DR nf s' lo l) \/ dexc nf e s'.

  Lemma d_resize_runs nf s lo l n r v :
    DR nf s lo l -> 0 <= n < 2 ^ 64 -> (lenz l < n <= cap -> drefok lo l r v) ->
    runs (d_resize cap bufsize n r) s
      (fun _ s' => fst (seq_step dflt cap l (Resize n v)) = OUnit /\ DR nf s' lo (snd (seq_step dflt cap l (Resize n v))))
      (dspecE nf l (Resize n v)).
  Proof.
    intros R Hn Hr. pose proof (DR_me _ _ _ _ R) as Hme. pose proof (DR_mb _ _ _ _ R) as Hmb. pose proof (DR_len _ _ _ _ R) as Hlen.
    unfold d_resize. eapply runs_bind_ok; [exact (dsize _ _ _ _ R)|]. unfold dspecE. cbn [seq_step].
    destruct (Z.leb_spec n (lenz l)) as [H1|H1].
    - eapply runs_bind_ok; [apply dbegin|]. eapply runs_bind_ok; [apply dend|]. rewrite Hme, Hmb. cbn [fst snd].
      rewrite (dfwd lo n) by lia.
      eapply runs_bind; [apply (d_destroy_range_runs nf s lo l (lo + n) (lo + lenz l)); [exact R|lia|lia]|].
      cbn beta. intros _ s' H. eapply runs_get_me.
      assert (Hsz : d_size bufsize s' = Ok (lenz l) s').
      { unfold d_size, bind, get_mb, get_me, ret.
        rewrite (H_mb _ _ _ _ _ _ _ _ _ _ _ H), (H_me _ _ _ _ _ _ _ _ _ _ _ H), (dist_ok _ HB) by lia. f_equal. lia. }
      eapply runs_bind_ok; [exact Hsz|].
      rewrite (w64_small (lenz l - n)) by (rewrite W64_val; lia).
      rewrite (H_me _ _ _ _ _ _ _ _ _ _ _ H), (prev_ok _ HB) by lia.
      unfold runs, set_me. split; [reflexivity|].
      apply (DR_truncate nf s' lo l n); [exact H|lia|do 2 f_equal; lia].
    - destruct (Z.ltb_spec cap n) as [H2|H2].
      + left. split; [reflexivity|]. exists lo. exact R.
      + cbn [fst snd]. rewrite w64_small by (rewrite W64_val; lia).
        specialize (Hr ltac:(lia)).
        eapply runs_bind.
        * eapply (loop_rule (fun k a s' => a = k /\ DR nf s' lo (l ++ repz v k)) _ _ _ (n - lenz l)); [lia| | | |].
          -- pose proof dfuel_ok. lia.
          -- split; [reflexivity|]. cbn. rewrite app_nil_r. exact R.
          -- intros k a s0 Hk [-> R0]. split; [unfold ret; bcase; [reflexivity|lia]|].
             pose proof (DR_len _ _ _ _ R0) as Hl0. rewrite lenz_app, lenz_repz in Hl0 by lia.
             eapply runs_bind.
             ++ eapply runs_weaken; [exact (d_push_back_runs nf s0 lo _ r v R0 (drefok_app _ _ _ _ _ Hr))| |].
                ** intros a s' H. exact H.
                ** intros e s' [(-> & Hc & _)|(-> & Hnf & R')].
                   --- rewrite lenz_app, lenz_repz in Hc by lia. lia.
                   --- right. eapply dexc_intro; [exact Hnf|exact R'].
             ++ intros u s' [_ R']. apply runs_ret. split; [lia|].
                rewrite repz_snoc by lia. rewrite app_assoc. exact R'.
          -- intros a s0 [-> _]. unfold ret. bcase; [lia|reflexivity].
        * intros a s' [_ R']. apply runs_ret. auto.
  Qed.

  Lemma d_assign_n_runs nf s lo l n v :
    DR nf s lo l -> 0 <= n < 2 ^ 64 ->
    runs (d_assign_n cap bufsize n (RVal v)) s
      (fun _ s' => fst (seq_step dflt cap l (AssignN n v)) = OUnit /\ DR nf s' lo (snd (seq_step dflt cap l (AssignN n v))))
      (dspecE nf l (AssignN n v)).
  Proof.
    intros R Hn. unfold d_assign_n, dspecE. cbn [seq_step]. destruct (Z.ltb_spec cap n) as [H2|H2].
    - left. split; [reflexivity|]. exists lo. exact R.
    - cbn [fst snd]. eapply runs_bind; [apply (d_clear_runs nf s lo l); exact R|]. cbn beta. intros _ s1 R1.
      eapply runs_weaken; [exact (d_resize_runs nf s1 lo [] n (RVal v) v R1 ltac:(lia) (fun _ => or_introl eq_refl))| |].
      + intros a s' [_ R']. split; [reflexivity|]. cbn [seq_step] in R'.
        change (lenz (@nil V)) with 0 in R'. destruct (Z.leb_spec n 0).
        * cbn [snd] in R'. replace n with 0 in * by lia. exact R'.
        * destruct (Z.ltb_spec cap n); [lia|]. cbn [snd app] in R'. now replace (n - 0) with n in R' by lia.
      + intros e s' [[He _]|H]; [|right; exact H]. cbn [seq_step fst] in He. change (lenz (@nil V)) with 0 in He.
        destruct (Z.leb_spec n 0); [discriminate|]. destruct (Z.ltb_spec cap n); [lia|discriminate].
  Qed.

  Lemma d_assign_range_runs nf s lo l xs :
    DR nf s lo l -> lenz xs < 2 ^ 64 ->
    runs (d_assign_range cap bufsize xs) s
      (fun _ s' => fst (seq_step dflt cap l (AssignRange xs)) = OUnit /\
                   DR nf s' lo (snd (seq_step dflt cap l (AssignRange xs))))
      (dspecE nf l (AssignRange xs)).
  Proof.
    intros R Hn. pose proof (lenz_nonneg xs). unfold d_assign_range, dspecE. cbn [seq_step].
    rewrite w64_small by (rewrite W64_val; lia). destruct (Z.ltb_spec cap (lenz xs)) as [H2|H2].
    - left. split; [reflexivity|]. exists lo. exact R.
    - cbn [fst snd]. eapply runs_bind; [apply (d_clear_runs nf s lo l); exact R|]. cbn beta. intros _ s1 R1.
      eapply runs_bind.
      + eapply (loop_rule (fun k a s' => a = k /\ DR nf s' lo (takez k xs)) _ _ _ (lenz xs)); [lia|unfold lenz; lia| | |].
        * split; [reflexivity|exact R1].
        * intros k a s0 Hk [-> R0]. split; [unfold ret; bcase; [lia|reflexivity]|].
          eapply (runs_rdin dflt); [lia|].
          eapply runs_bind.
          -- eapply runs_weaken; [exact (d_push_back_runs nf s0 lo _ (RVal (nthz dflt xs k)) _ R0 (or_introl eq_refl))| |].
             ++ intros a s' H3. exact H3.
             ++ intros e s' [(-> & Hc & _)|(-> & Hnf & R')].
                ** rewrite lenz_takez in Hc by lia. lia.
                ** right. eapply dexc_intro; [exact Hnf|exact R'].
          -- intros u s' [_ R']. apply runs_ret. split; [lia|]. rewrite (takez_snoc dflt) by lia. exact R'.
        * intros a s0 [-> _]. unfold ret. bcase; [reflexivity|lia].
      + intros a s' [_ R']. apply runs_ret. rewrite takez_all in R'. auto.
  Qed.

  Lemma insert_end_LRep nf s lo l p n xs (X : Z -> V) :
    Rep bufsize cap ph dok nf s lo (lo + lenz l + n) (insF (fun a => nthz dflt l (a - lo)) (lo + p) n X) ->
    0 <= p <= lenz l -> n = lenz xs -> (forall k, 0 <= k < n -> X k = nthz dflt xs k) ->
    DR nf s lo (insert_seq l p xs).
  Proof.
    intros R Hp Hn HX. pose proof (lenz_nonneg xs).
    eapply LRep_intro; [exact R| |]; rewrite lenz_insert_seq by lia; [lia|].
    intros k Hk. rewrite nthz_insert_seq by lia. unfold insF.
    bcase; try lia; try (f_equal; lia). rewrite HX by lia. f_equal; lia.
  Qed.
  Lemma insert_begin_LRep nf s lo l p n xs (X : Z -> V) :
    Rep bufsize cap ph dok nf s (lo - n) (lo + lenz l) (insFd (fun a => nthz dflt l (a - lo)) (lo + p) n X) ->
    0 <= p <= lenz l -> n = lenz xs -> (forall k, 0 <= k < n -> X k = nthz dflt xs k) ->
    DR nf s (lo - n) (insert_seq l p xs).
  Proof.
    intros R Hp Hn HX. pose proof (lenz_nonneg xs).
    eapply LRep_intro; [exact R| |]; rewrite lenz_insert_seq by lia; [lia|].
    intros k Hk. rewrite nthz_insert_seq by lia. unfold insFd.
    bcase; try lia; try (f_equal; lia). rewrite HX by lia. f_equal; lia.
  Qed.

  (** which side is moved *)
  Definition dside (l : list V) (p : Z) : bool := lenz l / 2 <? p.
  Definition dlo' (lo : Z) (l : list V) (p n : Z) : Z := if dside l p then lo else lo - n.

  Lemma d_insert_n_runs nf s lo l p n r v :
    DR nf s lo l -> 0 <= p <= lenz l -> 0 <= n < 2 ^ 64 ->
    (r = RVal v \/ exists i, 0 <= i < lenz l /\ r = RSlot (ph (lo + i)) /\
       v = nthz dflt l (if dside l p then (if p + n <=? i then i - n else i) else (if i <? p - n then i + n else i))) ->
    runs (d_insert_n cap bufsize torn dflt (ph (lo + p)) n r) s
      (fun it s' => cap - lenz l >= n /\ it = ph (dlo' lo l p n + p) /\ DR nf s' (dlo' lo l p n) (insert_seq l p (repz v n)))
      (fun e s' => (e = BadAlloc /\ cap - lenz l < n /\ s' = s) \/ dexc nf e s').
  Proof.
    intros R Hp Hn Hr. pose proof (DR_me _ _ _ _ R) as Hme. pose proof (DR_mb _ _ _ _ R) as Hmb. pose proof (DR_len _ _ _ _ R) as Hlen.
    unfold d_insert_n, d_insert_n_rest. eapply runs_bind_ok; [exact (davail _ _ _ _ R)|].
    destruct (Z.ltb_spec (cap - lenz l) n) as [H1|H1]; [left; auto|].
    eapply runs_bind_ok; [exact (dsize _ _ _ _ R)|]. eapply runs_bind_ok; [apply dbegin|]. rewrite Hmb.
    rewrite (it_diff_ok _ HB lo (lo + p) lo) by lia. replace (lo + p - lo) with p by lia.
    rewrite (w64_small p) by (rewrite W64_val; lia). unfold dlo'. fold (dside l p). destruct (dside l p) eqn:Hside.
    - eapply runs_bind_ok; [apply dend|]. rewrite Hme.
      rewrite (it_diff_ok _ HB lo (lo + lenz l) (lo + p)) by lia.
      rewrite (w64_small (lo + lenz l - (lo + p))) by (rewrite W64_val; lia).
      eapply runs_bind.
      + eapply runs_weaken with (E := dexc nf);
        [ pose proof (gen_insert_n_end bufsize cap ph dok fwd bwd torn dflt dgeo (dfuel bufsize) dfuel_ok d_end dend (d_inc_end bufsize)
            nf s lo (lo + lenz l) (fun a => nthz dflt l (a - lo)) (lo + p) n r v (dinc_ok lo) R ltac:(lia) ltac:(lia)) as H;
          unfold g_insert_n_end in H;
          destruct (Z.ltb_spec n (lo + lenz l - (lo + p)));
            [|rewrite (w64_small (n - _)) by (rewrite W64_val; lia)]; apply H;
          (destruct Hr as [->|(i & Hi & -> & Hv)];
            [left; reflexivity|right; exists (lo + i); repeat split; try lia; rewrite Hv; bcase; try lia; f_equal; lia])
        | exact (fun a s' H => H)
        | intros e s' H; right; exact H ].
      + cbn beta. intros _ s' R'. apply runs_ret. split; [lia|]. split; [reflexivity|].
        eapply insert_end_LRep; [exact R'|lia|rewrite lenz_repz; lia|]. intros k Hk. cbn beta. now rewrite nthz_repz by lia.
    - eapply runs_bind.
      + eapply runs_weaken with (E := dexc nf);
        [ pose proof (gen_insert_n_begin bufsize cap ph dok fwd bwd torn dflt dgeo (dfuel bufsize) dfuel_ok d_begin dbegin (d_dec_begin bufsize) dring
            nf s lo (lo + lenz l) (fun a => nthz dflt l (a - lo)) (lo + p) n r v ddec_ok R ltac:(lia) ltac:(lia)) as H;
          unfold g_insert_n_begin in H; replace (lo + p - lo) with p in H by lia;
          destruct (Z.ltb_spec n p);
            [|rewrite (w64_small (n - _)) by (rewrite W64_val; lia)]; apply H;
          (destruct Hr as [->|(i & Hi & -> & Hv)];
            [left; reflexivity|right; exists (lo + i); repeat split; try lia; rewrite Hv; bcase; try lia; f_equal; lia])
        | exact (fun a s' H => H)
        | intros e s' H; right; exact H ].
      + cbn beta. intros _ s' R'. apply runs_ret. split; [lia|]. split; [rewrite (dbwd _ n) by lia; f_equal; lia|].
        eapply insert_begin_LRep; [exact R'|lia|rewrite lenz_repz; lia|]. intros k Hk. cbn beta. now rewrite nthz_repz by lia.
  Qed.

  Lemma d_insert_range_runs nf s lo l p xs :
    DR nf s lo l -> 0 <= p <= lenz l -> lenz xs < 2 ^ 64 ->
    runs (d_insert_range cap bufsize torn dflt (ph (lo + p)) xs) s
      (fun _ s' => cap - lenz l >= lenz xs /\ DR nf s' (dlo' lo l p (lenz xs)) (insert_seq l p xs))
      (fun e s' => (e = BadAlloc /\ cap - lenz l < lenz xs /\ s' = s) \/ dexc nf e s').
  Proof.
    intros R Hp Hn. pose proof (DR_me _ _ _ _ R) as Hme. pose proof (DR_mb _ _ _ _ R) as Hmb. pose proof (DR_len _ _ _ _ R) as Hlen.
    pose proof (lenz_nonneg xs) as Hx.
    unfold d_insert_range, d_insert_range_rest. eapply runs_bind_ok; [exact (davail _ _ _ _ R)|].
    rewrite !(w64_small (lenz xs)) by (rewrite W64_val; lia).
    destruct (Z.ltb_spec (cap - lenz l) (lenz xs)) as [H1|H1]; [left; auto|].
    eapply runs_bind_ok; [exact (dsize _ _ _ _ R)|]. eapply runs_bind_ok; [apply dbegin|]. rewrite Hmb.
    rewrite (it_diff_ok _ HB lo (lo + p) lo) by lia. replace (lo + p - lo) with p by lia.
    rewrite (w64_small p) by (rewrite W64_val; lia). unfold dlo'. fold (dside l p). destruct (dside l p) eqn:Hside.
    - eapply runs_bind_ok; [apply dend|]. rewrite Hme.
      rewrite (it_diff_ok _ HB lo (lo + lenz l) (lo + p)) by lia.
      rewrite (w64_small (lo + lenz l - (lo + p))) by (rewrite W64_val; lia).
      eapply runs_weaken with (E := dexc nf);
        [ pose proof (gen_insert_range_end bufsize cap ph dok fwd bwd torn dflt dgeo (dfuel bufsize) dfuel_ok d_end dend (d_inc_end bufsize)
            nf s lo (lo + lenz l) (fun a => nthz dflt l (a - lo)) (lo + p) (lenz xs) xs (dinc_ok lo) R ltac:(lia) ltac:(lia) eq_refl) as H;
          unfold g_insert_range_end in H;
          destruct (Z.ltb_spec (lenz xs) (lo + lenz l - (lo + p)));
            [|rewrite (w64_small (lenz xs - _)) by (rewrite W64_val; lia)]; exact H
        | cbn beta; intros _ s' R'; split; [lia|];
          eapply insert_end_LRep; [exact R'|lia|reflexivity|reflexivity]
        | intros e s' H; right; exact H ].
    - eapply runs_weaken with (E := dexc nf);
        [ pose proof (gen_insert_range_begin bufsize cap ph dok fwd bwd torn dflt dgeo (dfuel bufsize) dfuel_ok d_begin dbegin (d_dec_begin bufsize) dring
            nf s lo (lo + lenz l) (fun a => nthz dflt l (a - lo)) (lo + p) (lenz xs) xs ddec_ok R ltac:(lia) ltac:(lia) eq_refl) as H;
          unfold g_insert_range_begin in H; replace (lo + p - lo) with p in H by lia;
          destruct (Z.ltb_spec (lenz xs) p);
            [|rewrite !(w64_small (lenz xs - _)) by (rewrite W64_val; lia)]; exact H
        | cbn beta; intros _ s' R'; split; [lia|];
          eapply insert_begin_LRep; [exact R'|lia|reflexivity|reflexivity]
        | intros e s' H; right; exact H ].
  Qed.

  Definition elo (lo : Z) (l : list V) (p q : Z) : Z := if lenz l - q <=? p then lo else lo + (q - p).

  Lemma d_erase_range_runs nf s lo l p q :
    DR nf s lo l -> 0 <= p <= q -> q <= lenz l -> (dbg = true -> p < q) ->
    runs (d_erase_range bufsize torn dbg (ph (lo + p)) (ph (lo + q))) s
      (fun it s' => it = ph (elo lo l p q + p) /\ DR nf s' (elo lo l p q) (erase_seq l p q)) (dexc nf).
  Proof.
    intros R Hp Hq Hd. pose proof (DR_me _ _ _ _ R) as Hme. pose proof (DR_mb _ _ _ _ R) as Hmb. pose proof (DR_len _ _ _ _ R) as Hlen.
    unfold d_erase_range. eapply runs_bind_ok; [apply dbegin|]. eapply runs_bind_ok; [apply dend|]. rewrite Hme, Hmb.
    rewrite !(it_lt_ok _ HB), !(it_le_ok _ HB), !(it_diff_ok _ HB) by lia.
    eapply runs_dassert; [intros H; specialize (Hd H); bcase; [reflexivity|lia]|].
    eapply runs_dassert; [intros H; specialize (Hd H); bcase; try reflexivity; lia|].
    eapply runs_dassert; [intros H; specialize (Hd H); bcase; try reflexivity; lia|].
    replace (lo + q - (lo + p)) with (q - p) by lia. rewrite !(w64_small (q - p)) by (rewrite W64_val; lia).
    replace (lo + lenz l - (lo + q)) with (lenz l - q) by lia. replace (lo + p - lo) with p by lia.
    unfold elo. destruct (Z.leb_spec (lenz l - q) p) as [Hs|Hs].
    - eapply runs_bind.
      { eapply (loop_shift_down bufsize cap ph dok fwd bwd torn dgeo (dfuel bufsize)
          (fun it => e <- d_end ;; ret (negb (it =? e))) nf s lo (lo + lenz l) (fun a => nthz dflt l (a - lo))
          (lo + q) (lo + lenz l) (q - p)); try lia.
        - pose proof dfuel_ok. lia.
        - exact R.
        - intros s' a F' R' Ha. unfold bind, d_end, get_me, ret.
          rewrite (R_me _ _ _ _ _ _ _ _ _ R'). rewrite (dph_eqb _ HB) by lia. reflexivity. }
      cbn beta. intros _ s1 R1. pose proof (R_me _ _ _ _ _ _ _ _ _ R1) as Hme1.
      eapply runs_bind_ok; [apply dend|]. rewrite Hme1. rewrite (dbwd _ (q - p)) by lia.
      unfold d_destroy_range. apply runs_assoc.
      eapply runs_bind.
      { eapply (loop_destroy bufsize cap ph dok fwd bwd dgeo (dfuel bufsize) nf s1 lo (lo + lenz l) _ (lo + lenz l - (q - p)) (lo + lenz l));
          try lia; [pose proof dfuel_ok; lia|exact R1]. }
      cbn beta. intros _ s2 H2. eapply runs_bind_ok; [reflexivity|]. eapply runs_get_me.
      rewrite (H_me _ _ _ _ _ _ _ _ _ _ _ H2). rewrite (prev_ok _ HB) by lia.
      eapply runs_bind_ok; [reflexivity|]. apply runs_ret. split; [reflexivity|].
      eapply LRep_intro with (hi := lo + lenz l - (q - p)).
      + eapply (Hole_back bufsize cap ph dok); [exact H2|lia|reflexivity|reflexivity|reflexivity|reflexivity].
      + rewrite lenz_erase_seq by lia. lia.
      + rewrite lenz_erase_seq by lia. intros k Hk. rewrite nthz_erase_seq by lia.
        bcase; try lia; f_equal; lia.
    - rewrite (dbwd lo 1), (dbwd (lo + p) 1) by lia.
      eapply runs_bind.
      { eapply (loop_shift_up bufsize cap ph dok fwd bwd torn dgeo (dfuel bufsize) _
          nf s lo (lo + lenz l) (fun a => nthz dflt l (a - lo)) lo (lo + p) (q - p)); try lia.
        - pose proof dfuel_ok. lia.
        - exact R.
        - intros s' a F' R' Ha. unfold ret. rewrite (dph_eqb _ HB) by lia. reflexivity. }
      cbn beta. intros _ s1 R1. pose proof (R_mb _ _ _ _ _ _ _ _ _ R1) as Hmb1.
      eapply runs_bind_ok; [apply dbegin|]. rewrite Hmb1. rewrite (dfwd _ (q - p)) by lia.
      unfold d_destroy_range. apply runs_assoc.
      eapply runs_bind.
      { eapply (loop_destroy bufsize cap ph dok fwd bwd dgeo (dfuel bufsize) nf s1 lo (lo + lenz l) _ lo (lo + (q - p)));
          try lia; [pose proof dfuel_ok; lia|exact R1]. }
      cbn beta. intros _ s2 H2. eapply runs_bind_ok; [reflexivity|]. eapply runs_get_mb.
      rewrite (H_mb _ _ _ _ _ _ _ _ _ _ _ H2). rewrite (next_ok _ HB) by lia.
      eapply runs_bind_ok; [reflexivity|]. apply runs_ret. split; [f_equal; lia|].
      eapply LRep_intro with (hi := lo + lenz l).
      + eapply (Hole_front bufsize cap ph dok); [intros _ _; apply (proj1 (proj2 dring))|exact I|exact H2|lia|reflexivity..].
      + rewrite lenz_erase_seq by lia. lia.
      + rewrite lenz_erase_seq by lia. intros k Hk. rewrite nthz_erase_seq by lia.
        bcase; try lia; f_equal; lia.
  Qed.

  Lemma d_rd_ok nf s lo l i : DR nf s lo l -> 0 <= i < lenz l -> rd bufsize (ph (lo + i)) s = Ok (nthz dflt l i) s.
  Proof.
    intros R Hi.
    rewrite (Rep_rd bufsize cap ph dok (g_cap _ _ _ _ _ _ dgeo) (g_range _ _ _ _ _ _ dgeo) nf s lo _ _ (lo + i) R) by lia.
    do 2 f_equal. lia.
  Qed.
  Lemma d_index_ok nf s lo l i : DR nf s lo l -> 0 <= i < lenz l -> d_index bufsize i s = Ok (nthz dflt l i) s.
  Proof.
    intros R Hi. pose proof (DR_len _ _ _ _ R) as Hlen. unfold d_index, bind, d_begin, get_mb.
    rewrite (DR_mb _ _ _ _ R). rewrite (dfwd lo i) by lia. exact (d_rd_ok _ _ _ _ _ R Hi).
  Qed.

  Lemma d_read_all_runs nf s lo l E : DR nf s lo l -> runs (d_read_all bufsize) s (fun r s' => s' = s /\ r = l) E.
  Proof.
    intros R. pose proof (DR_len _ _ _ _ R) as Hlen. unfold d_read_all. eapply runs_bind_ok; [apply dbegin|].
    rewrite (DR_mb _ _ _ _ R).
    eapply runs_bind.
    - apply (loop_read bufsize cap ph dok fwd bwd dgeo (dfuel bufsize) _ nf s lo (lo + lenz l)
        (fun a => nthz dflt l (a - lo))); auto.
      + pose proof dfuel_ok. lia.
      + intros a la Ha. unfold bind, d_end, get_me, ret. cbn [fst snd].
        rewrite (R_me _ _ _ _ _ _ _ _ _ R). rewrite (dph_eqb _ HB) by lia. reflexivity.
    - cbn beta. intros r s' [-> Hr]. apply runs_ret. split; [reflexivity|]. rewrite Hr.
      rewrite <- (tabz_nthz dflt l) at 2. replace (lo + lenz l - lo) with (lenz l) by lia.
      apply tabz_ext. intros k Hk. f_equal; lia.
  Qed.

  Lemma d_at_off_ok nf s lo l p : DR nf s lo l -> 0 <= p <= lenz l -> d_at_off bufsize p s = Ok (ph (lo + p)) s.
  Proof.
    intros R Hp. pose proof (DR_len _ _ _ _ R) as Hlen. unfold d_at_off, bind, d_begin, get_mb, ret.
    rewrite (DR_mb _ _ _ _ R). rewrite (it_add_ok _ HB) by lia. reflexivity.
  Qed.
  Lemma d_off_ok nf s lo l p : DR nf s lo l -> 0 <= p <= lenz l -> d_off bufsize (ph (lo + p)) s = Ok p s.
  Proof.
    intros R Hp. pose proof (DR_len _ _ _ _ R) as Hlen. unfold d_off, bind, d_begin, get_mb, ret.
    rewrite (DR_mb _ _ _ _ R). rewrite (it_diff_ok _ HB) by lia. f_equal. lia.
  Qed.
  Lemma d_pos_ok_ok nf s lo l p : DR nf s lo l -> 0 <= p <= lenz l -> d_pos_ok bufsize (ph (lo + p)) s = Ok true s.
  Proof.
    intros R Hp. pose proof (DR_len _ _ _ _ R) as Hlen. unfold d_pos_ok, bind, d_begin, d_end, get_mb, get_me, ret.
    rewrite (DR_mb _ _ _ _ R), (DR_me _ _ _ _ R). rewrite !(it_le_ok _ HB) by lia. f_equal. bcase; try reflexivity; lia.
  Qed.

  (** the main refinement lemma *)
  Lemma d_step_runs nf s lo l o :
    DR nf s lo l -> seq_pre dbg true l o ->
    runs (d_step cap bufsize torn dflt dbg o) s
      (fun r s' => r = fst (seq_step dflt cap l o) /\ exists lo', DR nf s' lo' (snd (seq_step dflt cap l o)))
      (dspecE nf l o).
  Proof.
    intros R Hpre. pose proof (DR_me _ _ _ _ R) as Hme. pose proof (DR_mb _ _ _ _ R) as Hmb. pose proof (DR_len _ _ _ _ R) as Hlen.
    destruct o as [v| |v| |p v|p n v|p n v|p xs|p|p q|n v|xs|n v| |i|i| | | | | | |];
      cbn [seq_pre] in Hpre; cbn [d_step].
    - (* PushBack *)
      eapply runs_bind; [eapply runs_weaken; [exact (d_push_back_runs nf s lo l (RVal v) v R (or_introl eq_refl))| |]|].
      + intros a s' H. exact H.
      + unfold dspecE; cbn [seq_step]. intros e s' [(-> & Hc & ->)|(-> & Hn & R')].
        * left. rewrite Hc, Z.eqb_refl. split; [reflexivity|]. exists lo. exact R.
        * right. eapply dexc_intro; [exact Hn|exact R'].
      + cbn beta. intros _ s' [Hlt R']. apply runs_ret. cbn [seq_step].
        destruct (Z.eqb_spec (lenz l) cap); [lia|]. split; [reflexivity|]. exists lo. exact R'.
    - (* PopBack *)
      eapply runs_bind; [exact (d_pop_back_runs nf s lo l _ R Hpre)|]. cbn beta. intros _ s' R'. apply runs_ret.
      split; [reflexivity|]. exists lo. exact R'.
    - (* PushFront *)
      eapply runs_bind; [eapply runs_weaken; [exact (d_push_front_runs nf s lo l (RVal v) v R (or_introl eq_refl))| |]|].
      + intros a s' H. exact H.
      + unfold dspecE; cbn [seq_step]. intros e s' [(-> & Hc & ->)|(-> & Hn & R')].
        * left. rewrite Hc, Z.eqb_refl. split; [reflexivity|]. exists lo. exact R.
        * right. eapply dexc_intro; [exact Hn|exact R'].
      + cbn beta. intros _ s' [Hlt R']. apply runs_ret. cbn [seq_step].
        destruct (Z.eqb_spec (lenz l) cap); [lia|]. split; [reflexivity|]. exists (lo - 1). exact R'.
    - (* PopFront *)
      eapply runs_bind; [exact (d_pop_front_runs nf s lo l _ R (proj2 Hpre))|]. cbn beta. intros _ s' R'. apply runs_ret.
      split; [reflexivity|]. exists (lo + 1). exact R'.
    - (* InsertOne *)
      eapply runs_bind_ok; [exact (d_at_off_ok _ _ _ _ _ R Hpre)|].
      unfold d_insert_one. apply runs_assoc. eapply runs_bind_ok; [exact (d_pos_ok_ok _ _ _ _ _ R Hpre)|].
      apply runs_assoc. eapply runs_dassert; [reflexivity|].
      eapply runs_bind; [eapply runs_weaken; [exact (d_insert_n_runs nf s lo l p 1 (RVal v) v R Hpre ltac:(lia) (or_introl eq_refl))| |]|].
      + intros a s' H. exact H.
      + unfold dspecE; cbn [seq_step]. intros e s' [(-> & Hc & ->)|H]; [left|right; exact H].
        destruct (Z.ltb_spec (cap - lenz l) 1); [|lia]. split; [reflexivity|]. exists lo. exact R.
      + cbn beta. intros it s' (Hlt & -> & R'). cbn [seq_step].
        destruct (Z.ltb_spec (cap - lenz l) 1); [lia|]. cbn [fst snd].
        eapply runs_bind_ok; [apply (d_off_ok _ _ _ _ _ R')|].
        { rewrite lenz_insert_seq, lenz_repz by lia. lia. }
        apply runs_ret. split; [reflexivity|]. eexists. exact R'.
    - (* InsertN *)
      destruct Hpre as [Hp Hn]. unfold szt in Hn.
      eapply runs_bind_ok; [exact (d_at_off_ok _ _ _ _ _ R Hp)|].
      unfold d_insert_cnt. apply runs_assoc. eapply runs_bind_ok; [exact (d_pos_ok_ok _ _ _ _ _ R Hp)|].
      apply runs_assoc. eapply runs_dassert; [reflexivity|]. apply runs_assoc.
      eapply runs_bind; [eapply runs_weaken; [exact (d_insert_n_runs nf s lo l p n (RVal v) v R Hp Hn (or_introl eq_refl))| |]|].
      + intros a s' H. exact H.
      + unfold dspecE; cbn [seq_step]. intros e s' [(-> & Hc & ->)|H]; [left|right; exact H].
        destruct (Z.ltb_spec (cap - lenz l) n); [|lia]. split; [reflexivity|]. exists lo. exact R.
      + cbn beta. intros it s' (Hlt & -> & R'). cbn [seq_step].
        destruct (Z.ltb_spec (cap - lenz l) n); [lia|]. cbn [fst snd].
        eapply runs_bind_ok; [reflexivity|]. apply runs_ret. split; [reflexivity|]. eexists. exact R'.
    - (* InsertInt *)
      assert (Hn : 0 <= n mod 2 ^ 64 < 2 ^ 64) by (apply Z.mod_pos_bound; lia).
      eapply runs_bind_ok; [exact (d_at_off_ok _ _ _ _ _ R Hpre)|].
      unfold d_insert_int. apply runs_assoc. eapply runs_bind_ok; [exact (d_pos_ok_ok _ _ _ _ _ R Hpre)|].
      apply runs_assoc. eapply runs_dassert; [reflexivity|]. apply runs_assoc. change (w64 n) with (n mod 2 ^ 64).
      eapply runs_bind; [eapply runs_weaken; [exact (d_insert_n_runs nf s lo l p (n mod 2 ^ 64) (RVal v) v R Hpre Hn (or_introl eq_refl))| |]|].
      + intros a s' H. exact H.
      + unfold dspecE; cbn [seq_step]. intros e s' [(-> & Hc & ->)|H]; [left|right; exact H].
        destruct (Z.ltb_spec (cap - lenz l) (n mod 2 ^ 64)); [|lia]. split; [reflexivity|]. exists lo. exact R.
      + cbn beta. intros it s' (Hlt & -> & R'). cbn [seq_step].
        destruct (Z.ltb_spec (cap - lenz l) (n mod 2 ^ 64)); [lia|]. cbn [fst snd].
        eapply runs_bind_ok; [reflexivity|]. apply runs_ret. split; [reflexivity|]. eexists. exact R'.
    - (* InsertRange *)
      destruct Hpre as [Hp Hn]. unfold szt in Hn.
      eapply runs_bind_ok; [exact (d_at_off_ok _ _ _ _ _ R Hp)|].
      unfold d_insert_rng. apply runs_assoc. eapply runs_bind_ok; [exact (d_pos_ok_ok _ _ _ _ _ R Hp)|].
      apply runs_assoc. eapply runs_dassert; [reflexivity|].
      eapply runs_bind; [eapply runs_weaken; [exact (d_insert_range_runs nf s lo l p xs R Hp (proj2 Hn))| |]|].
      + intros a s' H. exact H.
      + unfold dspecE; cbn [seq_step]. intros e s' [(-> & Hc & ->)|H]; [left|right; exact H].
        destruct (Z.ltb_spec (cap - lenz l) (lenz xs)); [|lia]. split; [reflexivity|]. exists lo. exact R.
      + cbn beta. intros _ s' [Hlt R']. cbn [seq_step].
        destruct (Z.ltb_spec (cap - lenz l) (lenz xs)); [lia|]. cbn [fst snd].
        apply runs_ret. split; [reflexivity|]. eexists. exact R'.
    - (* EraseOne *)
      eapply runs_bind_ok; [apply (d_at_off_ok _ _ _ _ _ R); lia|].
      unfold d_erase_one. apply runs_assoc. eapply runs_bind_ok; [apply dbegin|]. apply runs_assoc.
      eapply runs_bind_ok; [apply dend|]. rewrite Hme, Hmb.
      apply runs_assoc. eapply runs_dassert; [intros _; rewrite (it_lt_ok _ HB), (it_le_ok _ HB) by lia; bcase; try reflexivity; lia|].
      rewrite (dfwd _ 1) by lia. replace (lo + p + 1) with (lo + (p + 1)) by lia.
      eapply runs_bind; [eapply runs_weaken; [apply (d_erase_range_runs nf s lo l p (p + 1) R); intros; lia| |]|].
      + intros a s' H. exact H.
      + intros e s' H. right. exact H.
      + cbn beta. intros a s' [-> R']. cbn [seq_step fst snd].
        eapply runs_bind_ok; [apply (d_off_ok _ _ _ _ _ R')|].
        { rewrite lenz_erase_seq by lia. lia. }
        apply runs_ret. split; [reflexivity|]. eexists. exact R'.
    - (* EraseRange *)
      destruct Hpre as (Hp & Hq & Hd).
      eapply runs_bind_ok; [apply (d_at_off_ok _ _ _ _ _ R); lia|].
      eapply runs_bind_ok; [apply (d_at_off_ok _ _ _ _ _ R); lia|].
      eapply runs_bind; [eapply runs_weaken; [exact (d_erase_range_runs nf s lo l p q R Hp Hq Hd)| |]|].
      + intros a s' H. exact H.
      + intros e s' H. right. exact H.
      + cbn beta. intros a s' [-> R']. cbn [seq_step fst snd].
        eapply runs_bind_ok; [apply (d_off_ok _ _ _ _ _ R')|].
        { rewrite lenz_erase_seq by lia. lia. }
        apply runs_ret. split; [reflexivity|]. eexists. exact R'.
    - (* AssignN *)
      eapply runs_bind; [exact (d_assign_n_runs nf s lo l n v R Hpre)|]. cbn beta. intros _ s' [H1 H2]. apply runs_ret.
      split; [congruence|]. eexists. exact H2.
    - (* AssignRange *)
      eapply runs_bind; [exact (d_assign_range_runs nf s lo l xs R (proj2 Hpre))|].
      cbn beta. intros _ s' [H1 H2]. apply runs_ret. split; [congruence|]. eexists. exact H2.
    - (* Resize *)
      eapply runs_bind; [exact (d_resize_runs nf s lo l n (RVal v) v R Hpre (fun _ => or_introl eq_refl))|].
      cbn beta. intros _ s' [H1 H2]. apply runs_ret. split; [congruence|]. eexists. exact H2.
    - (* Clear *)
      eapply runs_bind; [apply (d_clear_runs nf s lo l); exact R|]. cbn beta. intros _ s' R'. apply runs_ret.
      split; [reflexivity|]. eexists. exact R'.
    - (* At *)
      unfold d_at, dspecE. cbn [seq_step]. apply runs_assoc. eapply runs_bind_ok; [exact (dsize _ _ _ _ R)|].
      unfold szt in Hpre.
      destruct (Z.leb_spec (lenz l) i), (Z.ltb_spec i (lenz l)); try lia.
      + left. split; [reflexivity|]. exists lo. exact R.
      + eapply runs_bind_ok; [exact (d_index_ok _ _ _ _ i R ltac:(lia))|]. apply runs_ret.
        split; [reflexivity|]. exists lo. exact R.
    - (* Index *)
      eapply runs_bind_ok; [exact (d_index_ok _ _ _ _ i R Hpre)|]. apply runs_ret.
      split; [reflexivity|]. exists lo. exact R.
    - (* Front *)
      pose proof (lenz_pos _ Hpre) as Hp.
      unfold d_front. apply runs_assoc. eapply runs_bind_ok; [exact (dempty _ _ _ _ R)|]. apply runs_assoc.
      eapply runs_dassert; [intros _; bcase; [lia|reflexivity]|]. apply runs_assoc.
      eapply runs_bind_ok; [apply dbegin|]. rewrite Hmb. replace lo with (lo + 0) by lia.
      eapply runs_bind_ok; [apply (d_rd_ok nf s lo l); [exact R|lia]|]. apply runs_ret.
      split; [reflexivity|]. eexists. exact R.
    - (* Back *)
      pose proof (lenz_pos _ Hpre) as Hp.
      unfold d_back. apply runs_assoc. eapply runs_bind_ok; [exact (dempty _ _ _ _ R)|]. apply runs_assoc.
      eapply runs_dassert; [intros _; bcase; [lia|reflexivity]|]. apply runs_assoc.
      eapply runs_bind_ok; [apply dend|]. rewrite Hme. rewrite (dbwd _ 1) by lia.
      replace (lo + lenz l - 1) with (lo + (lenz l - 1)) by lia.
      eapply runs_bind_ok; [apply (d_rd_ok nf s lo l); [exact R|lia]|]. apply runs_ret.
      split; [reflexivity|]. eexists. exact R.
    - (* Size *)
      eapply runs_bind_ok; [exact (dsize _ _ _ _ R)|]. apply runs_ret. split; [reflexivity|]. eexists. exact R.
    - (* AvailableSize *)
      eapply runs_bind_ok; [exact (davail _ _ _ _ R)|]. apply runs_ret. split; [reflexivity|]. eexists. exact R.
    - (* IsEmpty *)
      eapply runs_bind_ok; [exact (dempty _ _ _ _ R)|]. apply runs_ret. split; [reflexivity|]. eexists. exact R.
    - (* IsFull *)
      eapply runs_bind_ok; [exact (dfull _ _ _ _ R)|]. apply runs_ret. split; [reflexivity|]. eexists. exact R.
    - (* ReadAll *)
      eapply runs_bind; [exact (d_read_all_runs nf s lo l _ R)|]. cbn beta. intros r s' [-> ->]. apply runs_ret.
      split; [reflexivity|]. eexists. exact R.
  Qed.
End DP.
