(** The element loops shared by the vector and the deque proofs. *)
From Verif Require Import Base.ZList Container.Mem Container.Triple Container.Rep.

Record geo (B cap : Z) (ph : Z -> Z) (okab : Z -> Prop) (fwd bwd : Z -> Z -> Z) : Prop := {
  g_cap : 0 <= cap <= B;
  g_range : forall lo a, okab lo -> lo <= a < lo + B -> 0 <= ph a < B;
  g_inj : forall lo a a', okab lo -> lo <= a < lo + B -> lo <= a' < lo + B -> ph a = ph a' -> a = a';
  g_fwd : forall a k, 0 <= k <= cap + 1 -> fwd (ph a) k = ph (a + k);
  g_bwd : forall a k, 0 <= k <= cap + 1 -> bwd (ph a) k = ph (a - k);
  g_eq : forall a a', - cap <= a - a' <= cap -> (ph a =? ph a') = (a =? a') }.

Section Loops.
  Context {V : Type}.
  Variable B cap : Z.
  Variable ph : Z -> Z.
  Variable okab : Z -> Prop.
  Variable fwd bwd : Z -> Z -> Z.
  Variable torn dflt : V.
  Hypothesis G : geo B cap ph okab fwd bwd.

  Notation Rep := (@Rep V B cap ph okab).
  Notation Hole := (@Hole V B cap ph okab).
  Notation Exc := (@Exc V B cap ph okab).

  Let Hcap := g_cap _ _ _ _ _ _ G.
  Let Hrange := g_range _ _ _ _ _ _ G.
  Let Hinj := g_inj _ _ _ _ _ _ G.
  Let Hfwd := g_fwd _ _ _ _ _ _ G.
  Let Hbwd := g_bwd _ _ _ _ _ _ G.
  Let Heq := g_eq _ _ _ _ _ _ G.

  Definition inc_ok (inc : M V unit) (lo : Z) : Prop :=
    forall s a, 0 <= a - lo <= cap -> me s = ph a -> a < lo + cap ->
      inc s = Ok tt (mkst (mem s) (mb s) (ph (a + 1)) (fuse s)).
  Definition dec_ok (dec : M V unit) : Prop :=
    forall s a, mb s = ph a -> dec s = Ok tt (mkst (mem s) (ph (a - 1)) (me s) (fuse s)).
  (** reads the value v whenever the state satisfies P *)
  Definition yields {A} (m : M V A) (P : st V -> Prop) (v : A) : Prop :=
    forall s, P s -> m s = Ok v s.

  Lemma Exc_intro nf s lo hi F : nf = false -> Rep nf s lo hi F -> Exc nf ElemExn s.
  Proof. intros. split; [reflexivity|]. split; [assumption|]. eauto. Qed.

  (** A. construct n elements at the back *)
  Lemma loop_ctor_back {A} fuel (at_ : Z -> A) (cond : A -> M V bool) (getend : M V Z)
        (src : A -> M V V) (inc : M V unit) (nx : A -> A) (X : Z -> V) nf s lo hi F n a0 :
    a0 = at_ 0 ->
    0 <= n <= Z.of_nat fuel -> hi + n - lo <= cap ->
    Rep nf s lo hi F -> inc_ok inc lo ->
    (forall s', getend s' = Ok (me s') s') ->
    (forall k, 0 <= k < n -> nx (at_ k) = at_ (k + 1)) ->
    (forall k s', 0 <= k <= n -> cond (at_ k) s' = Ok (k <? n) s') ->
    (forall k s' F', 0 <= k < n -> Rep nf s' lo (hi + k) F' -> (forall a, lo <= a < hi -> F' a = F a) ->
       src (at_ k) s' = Ok (X k) s') ->
    runs (loop fuel cond (fun a => e <- getend ;; x <- src a ;; ctor B e x ;;; inc ;;; ret (nx a)) a0) s
      (fun a s' => a = at_ n /\ Rep nf s' lo (hi + n) (fun a => if a <? hi then F a else X (a - hi)))
      (Exc nf).
  Proof.
    intros Ha0 Hn Hfit R Hinc Hend Hnx Hcond Hsrc.
    apply (loop_rule (fun k a s => a = at_ k /\
             Rep nf s lo (hi + k) (fun a => if a <? hi then F a else X (a - hi)))); try lia.
    - split; [exact Ha0|]. replace (hi + 0) with hi by lia. eapply Rep_ext; [exact R|].
      intros a Ha. destruct (Z.ltb_spec a hi); [reflexivity|lia].
    - intros k a s0 Hk [-> R0]. split.
      + rewrite Hcond by lia. destruct (Z.ltb_spec k n); [reflexivity|lia].
      + eapply runs_bind_ok; [apply Hend|]. eapply runs_bind_ok.
        { eapply Hsrc; [lia|exact R0|]. intros a Ha. cbn beta. destruct (Z.ltb_spec a hi); [reflexivity|lia]. }
        rewrite (R_me _ _ _ _ _ _ _ _ _ R0).
        eapply (runs_ctor_back B cap ph okab); eauto.
        * lia.
        * intros s' R'. apply runs_ret. split; [apply Hnx; lia|].
          replace (hi + (k + 1)) with (hi + k + 1) by lia.
          eapply Rep_ext; [exact R'|]. intros a Ha. unfold setF.
          destruct (Z.eqb_spec a (hi + k)) as [->|Hne]; [|reflexivity].
          destruct (Z.ltb_spec (hi + k) hi); [lia|]. f_equal; lia.
        * intros Hnf s' R'. eapply Exc_intro; eauto.
    - intros a s0 [-> R0]. rewrite Hcond by lia. destruct (Z.ltb_spec n n); [lia|reflexivity].
  Qed.

  (** A'. construct n elements at the front *)
  Lemma loop_ctor_front {A} fuel (at_ : Z -> A) (cond : A -> M V bool) (getbegin : M V Z)
        (src : A -> M V V) (dec : M V unit) (nx : A -> A) (X : Z -> V) nf s lo hi F n a0 :
    a0 = at_ 0 ->
    (forall lo, okab lo) -> (forall a, ph a = ph (a + B)) -> cap < B ->
    0 <= n <= Z.of_nat fuel -> hi + n - lo <= cap ->
    Rep nf s lo hi F -> dec_ok dec ->
    (forall s', getbegin s' = Ok (mb s') s') ->
    (forall k, 0 <= k < n -> nx (at_ k) = at_ (k + 1)) ->
    (forall k s', 0 <= k <= n -> cond (at_ k) s' = Ok (k <? n) s') ->
    (forall k s' F', 0 <= k < n -> Rep nf s' (lo - k) hi F' -> (forall a, lo <= a < hi -> F' a = F a) ->
       src (at_ k) s' = Ok (X k) s') ->
    runs (loop fuel cond (fun a => b <- getbegin ;; x <- src a ;; ctor B (bwd b 1) x ;;; dec ;;; ret (nx a)) a0) s
      (fun a s' => a = at_ n /\ Rep nf s' (lo - n) hi (fun a => if lo <=? a then F a else X (lo - 1 - a)))
      (Exc nf).
  Proof.
    intros Ha0 Hok Hper HB Hn Hfit R Hdec Hend Hnx Hcond Hsrc.
    apply (loop_rule (fun k a s => a = at_ k /\
             Rep nf s (lo - k) hi (fun a => if lo <=? a then F a else X (lo - 1 - a)))); try lia.
    - split; [exact Ha0|]. replace (lo - 0) with lo by lia. eapply Rep_ext; [exact R|].
      intros a Ha. destruct (Z.leb_spec lo a); [reflexivity|lia].
    - intros k a s0 Hk [-> R0]. split.
      + rewrite Hcond by lia. destruct (Z.ltb_spec k n); [reflexivity|lia].
      + eapply runs_bind_ok; [apply Hend|]. eapply runs_bind_ok.
        { eapply Hsrc; [lia|exact R0|]. intros a Ha. cbn beta. destruct (Z.leb_spec lo a); [reflexivity|lia]. }
        rewrite (R_mb _ _ _ _ _ _ _ _ _ R0). rewrite Hbwd by lia.
        eapply (runs_ctor_front B cap ph okab); eauto.
        * lia.
        * intros s' R'. apply runs_ret. split; [apply Hnx; lia|].
          replace (lo - (k + 1)) with (lo - k - 1) by lia.
          eapply Rep_ext; [exact R'|]. intros a Ha. unfold setF.
          destruct (Z.eqb_spec a (lo - k - 1)) as [->|Hne]; [|reflexivity].
          destruct (Z.leb_spec lo (lo - k - 1)); [lia|]. f_equal; lia.
        * intros Hnf s' R'. eapply Exc_intro; eauto.
    - intros a s0 [-> R0]. rewrite Hcond by lia. destruct (Z.ltb_spec n n); [lia|reflexivity].
  Qed.

  (** B. shift [x, y) up by c, from the top: for (it = y-1; it != x-1; --it) *(it + c) = *it *)
  Lemma loop_shift_up fuel (cond : Z -> M V bool) nf s lo hi F x y c :
    lo <= x <= y -> y + c <= hi -> 0 <= c -> y - x <= Z.of_nat fuel ->
    Rep nf s lo hi F ->
    (forall s' a F', Rep nf s' lo hi F' -> x - 1 <= a <= y - 1 -> cond (ph a) s' = Ok (negb (a =? x - 1)) s') ->
    runs (loop fuel cond (fun it => v <- rd B it ;; asg B torn (fwd it c) v ;;; ret (bwd it 1)) (ph (y - 1))) s
      (fun _ s' => Rep nf s' lo hi (fun a => if (x + c <=? a) && (a <? y + c) then F (a - c) else F a))
      (Exc nf).
  Proof.
    intros Hx Hy Hc Hf R Hcond. pose proof (R_len _ _ _ _ _ _ _ _ _ R) as Hl.
    eapply runs_weaken with
      (Q := fun a s' => a = ph (y - 1 - (y - x)) /\
            Rep nf s' lo hi (fun a => if (y + c - (y - x) <=? a) && (a <? y + c) then F (a - c) else F a));
      [|intros a s' [_ R']; replace (x + c) with (y + c - (y - x)) by lia; exact R'|exact (fun e s' H => H)].
    apply (loop_rule (fun k a s => a = ph (y - 1 - k) /\
             Rep nf s lo hi (fun a => if (y + c - k <=? a) && (a <? y + c) then F (a - c) else F a))); try lia.
    - split; [f_equal; lia|]. eapply Rep_ext; [exact R|]. intros a Ha.
      destruct (Z.leb_spec (y + c - 0) a), (Z.ltb_spec a (y + c)); cbn [andb]; try reflexivity; lia.
    - intros k a s0 Hk [-> R0]. split.
      + rewrite (Hcond _ _ _ R0) by lia. destruct (Z.eqb_spec (y - 1 - k) (x - 1)); [lia|reflexivity].
      + eapply (runs_rd B cap ph okab); eauto; [lia|].
        rewrite Hfwd by lia.
        eapply (runs_asg B cap ph okab); eauto; [lia| |].
        * intros s' R'. apply runs_ret. split; [rewrite Hbwd by lia; f_equal; lia|].
          eapply Rep_ext; [exact R'|]. intros a Ha. unfold setF.
          destruct (Z.eqb_spec a (y - 1 - k + c)) as [->|Hne];
            destruct (Z.leb_spec (y + c - k) (y - 1 - k)), (Z.ltb_spec (y - 1 - k) (y + c)),
              (Z.leb_spec (y + c - k) (y - 1 - k + c)), (Z.ltb_spec (y - 1 - k + c) (y + c)),
              (Z.leb_spec (y + c - (k + 1)) (y - 1 - k + c)); cbn [andb]; try lia;
            try (f_equal; lia).
          all: destruct (Z.leb_spec (y + c - k) a), (Z.ltb_spec a (y + c)), (Z.leb_spec (y + c - (k + 1)) a);
            cbn [andb]; try reflexivity; lia.
        * intros Hnf s' R'. eapply Exc_intro; eauto.
    - intros a s0 [-> R0]. rewrite (Hcond _ _ _ R0) by lia. destruct (Z.eqb_spec (y - 1 - (y - x)) (x - 1)); [reflexivity|lia].
  Qed.

  (** B'. shift [x, y) down by c, from the bottom: for (it = x; it != y; ++it) *(it - c) = *it *)
  Lemma loop_shift_down fuel (cond : Z -> M V bool) nf s lo hi F x y c :
    lo + c <= x <= y -> y <= hi -> 0 <= c -> y - x <= Z.of_nat fuel ->
    Rep nf s lo hi F ->
    (forall s' a F', Rep nf s' lo hi F' -> x <= a <= y -> cond (ph a) s' = Ok (negb (a =? y)) s') ->
    runs (loop fuel cond (fun it => v <- rd B it ;; asg B torn (bwd it c) v ;;; ret (fwd it 1)) (ph x)) s
      (fun _ s' => Rep nf s' lo hi (fun a => if (x - c <=? a) && (a <? y - c) then F (a + c) else F a))
      (Exc nf).
  Proof.
    intros Hx Hy Hc Hf R Hcond. pose proof (R_len _ _ _ _ _ _ _ _ _ R) as Hl.
    eapply runs_weaken with
      (Q := fun a s' => a = ph (x + (y - x)) /\
            Rep nf s' lo hi (fun a => if (x - c <=? a) && (a <? x - c + (y - x)) then F (a + c) else F a));
      [|intros a s' [_ R']; replace (y - c) with (x - c + (y - x)) by lia; exact R'|exact (fun e s' H => H)].
    apply (loop_rule (fun k a s => a = ph (x + k) /\
             Rep nf s lo hi (fun a => if (x - c <=? a) && (a <? x - c + k) then F (a + c) else F a))); try lia.
    - split; [f_equal; lia|]. eapply Rep_ext; [exact R|]. intros a Ha.
      destruct (Z.leb_spec (x - c) a), (Z.ltb_spec a (x - c + 0)); cbn [andb]; try reflexivity; lia.
    - intros k a s0 Hk [-> R0]. split.
      + rewrite (Hcond _ _ _ R0) by lia. destruct (Z.eqb_spec (x + k) y); [lia|reflexivity].
      + eapply (runs_rd B cap ph okab); eauto; [lia|].
        rewrite Hbwd by lia.
        eapply (runs_asg B cap ph okab); eauto; [lia| |].
        * intros s' R'. apply runs_ret. split; [rewrite Hfwd by lia; f_equal; lia|].
          eapply Rep_ext; [exact R'|]. intros a Ha. unfold setF.
          destruct (Z.eqb_spec a (x + k - c)) as [->|Hne];
            destruct (Z.leb_spec (x - c) (x + k)), (Z.ltb_spec (x + k) (x - c + k)),
              (Z.leb_spec (x - c) (x + k - c)), (Z.ltb_spec (x + k - c) (x - c + (k + 1)));
               cbn [andb]; try lia; try (f_equal; lia).
          all: destruct (Z.leb_spec (x - c) a), (Z.ltb_spec a (x - c + k)), (Z.ltb_spec a (x - c + (k + 1)));
            cbn [andb]; try reflexivity; lia.
        * intros Hnf s' R'. eapply Exc_intro; eauto.
    - intros a s0 [-> R0]. rewrite (Hcond _ _ _ R0) by lia. destruct (Z.eqb_spec (x + (y - x)) y); [reflexivity|lia].
  Qed.

  (** C. fill [x, y) from a value source: for (it = x; it != y; ++it) *it = data.  The source may be one of the
      slots being filled: it is then overwritten with the value it has. *)
  Lemma loop_fill fuel (cond : Z -> M V bool) (P : Z -> Prop) r v nf s lo hi F x y :
    lo <= x <= y -> y <= hi -> y - x <= Z.of_nat fuel ->
    Rep nf s lo hi F ->
    refok ph P lo hi F r v ->
    (forall s' a F', Rep nf s' lo hi F' -> x <= a <= y -> cond (ph a) s' = Ok (negb (a =? y)) s') ->
    runs (loop fuel cond (fun it => w <- deref B r ;; asg B torn it w ;;; ret (fwd it 1)) (ph x)) s
      (fun _ s' => Rep nf s' lo hi (fun a => if (x <=? a) && (a <? y) then v else F a))
      (Exc nf).
  Proof.
    intros Hx Hy Hf R Hr Hcond. pose proof (R_len _ _ _ _ _ _ _ _ _ R) as Hl.
    eapply runs_weaken with
      (Q := fun a s' => a = ph (x + (y - x)) /\
            Rep nf s' lo hi (fun a => if (x <=? a) && (a <? x + (y - x)) then v else F a));
      [|intros a s' [_ R']; replace y with (x + (y - x)) by lia; exact R'|exact (fun e s' H => H)].
    apply (loop_rule (fun k a s => a = ph (x + k) /\
             Rep nf s lo hi (fun a => if (x <=? a) && (a <? x + k) then v else F a))); try lia.
    - split; [f_equal; lia|]. eapply Rep_ext; [exact R|]. intros a Ha.
      destruct (Z.leb_spec x a), (Z.ltb_spec a (x + 0)); cbn [andb]; try reflexivity; lia.
    - intros k a s0 Hk [-> R0]. split.
      + rewrite (Hcond _ _ _ R0) by lia. destruct (Z.eqb_spec (x + k) y); [lia|reflexivity].
      + eapply (runs_deref B cap ph okab) with (P := P) (v := v); eauto.
        { destruct Hr as [-> | (a & Ha & Hp & -> & Hv)]; [now left|]. right. exists a.
          split; [lia|]. split; [exact Hp|]. split; [reflexivity|]. cbn beta. rewrite Hv.
          now destruct ((x <=? a) && (a <? x + k)). }
        eapply (runs_asg B cap ph okab); eauto; [lia| |].
        * intros s' R'. apply runs_ret. split; [rewrite Hfwd by lia; f_equal; lia|].
          eapply Rep_ext; [exact R'|]. intros a Ha. unfold setF.
          destruct (Z.eqb_spec a (x + k)) as [->|Hne].
          -- destruct (Z.leb_spec x (x + k)), (Z.ltb_spec (x + k) (x + (k + 1))); cbn [andb]; try reflexivity; lia.
          -- destruct (Z.leb_spec x a), (Z.ltb_spec a (x + k)), (Z.ltb_spec a (x + (k + 1)));
               cbn [andb]; try reflexivity; lia.
        * intros Hnf s' R'. eapply Exc_intro; eauto.
    - intros a s0 [-> R0]. rewrite (Hcond _ _ _ R0) by lia. destruct (Z.eqb_spec (x + (y - x)) y); [reflexivity|lia].
  Qed.

  (** D. fill [x, y) from the input range xs starting at offset o *)
  Lemma loop_fill_range fuel (cond : Z * Z -> M V bool) xs o nf s lo hi F x y :
    lo <= x <= y -> y <= hi -> y - x <= Z.of_nat fuel -> 0 <= o -> o + (y - x) <= lenz xs ->
    Rep nf s lo hi F ->
    (forall s' k F', Rep nf s' lo hi F' -> 0 <= k <= y - x ->
        cond (ph (x + k), o + k) s' = Ok (negb (k =? y - x)) s') ->
    runs (loop fuel cond (fun pf => w <- rdin xs (snd pf) ;; asg B torn (fst pf) w ;;;
                                    ret (fwd (fst pf) 1, snd pf + 1)) (ph x, o)) s
      (fun _ s' => Rep nf s' lo hi (fun a => if (x <=? a) && (a <? y) then nthz dflt xs (o + (a - x)) else F a))
      (Exc nf).
  Proof.
    intros Hx Hy Hf Ho Hxs R Hcond. pose proof (R_len _ _ _ _ _ _ _ _ _ R) as Hl.
    eapply runs_weaken with
      (Q := fun a s' => a = (ph (x + (y - x)), o + (y - x)) /\
            Rep nf s' lo hi (fun a => if (x <=? a) && (a <? x + (y - x)) then nthz dflt xs (o + (a - x)) else F a));
      [|intros a s' [_ R']; replace y with (x + (y - x)) by lia; exact R'|exact (fun e s' H => H)].
    apply (loop_rule (fun k a s => a = (ph (x + k), o + k) /\
             Rep nf s lo hi (fun a => if (x <=? a) && (a <? x + k) then nthz dflt xs (o + (a - x)) else F a))); try lia.
    - split; [f_equal; [f_equal; lia|lia]|]. eapply Rep_ext; [exact R|]. intros a Ha.
      destruct (Z.leb_spec x a), (Z.ltb_spec a (x + 0)); cbn [andb]; try reflexivity; lia.
    - intros k a s0 Hk [-> R0]. split.
      + rewrite (Hcond _ _ _ R0) by lia. destruct (Z.eqb_spec k (y - x)); [lia|reflexivity].
      + cbn [fst snd]. eapply (runs_rdin dflt); [lia|].
        eapply (runs_asg B cap ph okab); eauto; [lia| |].
        * intros s' R'. apply runs_ret. split; [rewrite Hfwd by lia; f_equal; [f_equal; lia|lia]|].
          eapply Rep_ext; [exact R'|]. intros a Ha. unfold setF.
          destruct (Z.eqb_spec a (x + k)) as [->|Hne].
          -- destruct (Z.leb_spec x (x + k)), (Z.ltb_spec (x + k) (x + (k + 1))); cbn [andb]; try lia.
             f_equal; lia.
          -- destruct (Z.leb_spec x a), (Z.ltb_spec a (x + k)), (Z.ltb_spec a (x + (k + 1)));
               cbn [andb]; try reflexivity; lia.
        * intros Hnf s' R'. eapply Exc_intro; eauto.
    - intros a s0 [-> R0]. rewrite (Hcond _ _ _ R0) by lia. destruct (Z.eqb_spec (y - x) (y - x)); [reflexivity|lia].
  Qed.

  (** E. destroy_range [x, y) *)
  Lemma loop_destroy fuel nf s lo hi F x y E :
    lo <= x <= y -> y <= hi -> y - x <= Z.of_nat fuel ->
    Rep nf s lo hi F ->
    runs (loop fuel (fun it => ret (negb (it =? ph y))) (fun it => dtor B it ;;; ret (fwd it 1)) (ph x)) s
      (fun _ s' => Hole nf s' lo hi x y F) E.
  Proof.
    intros Hx Hy Hf R. pose proof (R_len _ _ _ _ _ _ _ _ _ R) as Hl.
    eapply runs_weaken with (Q := fun a s' => a = ph (x + (y - x)) /\ Hole nf s' lo hi x (x + (y - x)) F);
      [|intros a s' [_ R']; replace y with (x + (y - x)) by lia; exact R'|exact (fun e s' H => H)].
    apply (loop_rule (fun k a s => a = ph (x + k) /\ Hole nf s lo hi x (x + k) F)); try lia.
    - split; [f_equal; lia|]. replace (x + 0) with x by lia. now apply Rep_Hole.
    - intros k a s0 Hk [-> R0]. split.
      + unfold ret. rewrite Heq by lia. destruct (Z.eqb_spec (x + k) y); [lia|reflexivity].
      + eapply (runs_dtor B cap ph okab); eauto; [lia|lia|].
        intros s' R'. apply runs_ret. split; [rewrite Hfwd by lia; f_equal; lia|].
        replace (x + (k + 1)) with (x + k + 1) by lia. exact R'.
    - intros a s0 [-> R0]. unfold ret. rewrite Heq by lia.
      destruct (Z.eqb_spec (x + (y - x)) y); [reflexivity|lia].
  Qed.

  (** F. iterate over [lo, hi) reading everything *)
  Lemma loop_read fuel (cond : Z * list V -> M V bool) nf s lo hi F E :
    hi - lo <= Z.of_nat fuel ->
    Rep nf s lo hi F ->
    (forall a l, lo <= a <= hi -> cond (ph a, l) s = Ok (negb (a =? hi)) s) ->
    runs (loop fuel cond (fun ia => x <- rd B (fst ia) ;; ret (fwd (fst ia) 1, snd ia ++ [x])) (ph lo, [])) s
      (fun r s' => s' = s /\ snd r = tabz (fun k => F (lo + k)) (hi - lo)) E.
  Proof.
    intros Hf R Hcond. pose proof (R_len _ _ _ _ _ _ _ _ _ R) as Hl.
    eapply runs_weaken with (Q := fun r s' => s' = s /\ r = (ph (lo + (hi - lo)), tabz (fun k => F (lo + k)) (hi - lo)));
      [|intros r s' [-> ->]; split; reflexivity|exact (fun e s' H => H)].
    apply (loop_rule (fun k r s' => s' = s /\ r = (ph (lo + k), tabz (fun i => F (lo + i)) k))); try lia.
    - split; [reflexivity|]. f_equal. f_equal; lia.
    - intros k r s0 Hk [-> ->]. split.
      + rewrite Hcond by lia. destruct (Z.eqb_spec (lo + k) hi); [lia|reflexivity].
      + cbn [fst snd]. eapply (runs_rd B cap ph okab); eauto; [lia|]. apply runs_ret. split; [reflexivity|].
        rewrite Hfwd by lia. f_equal; [f_equal; lia|].
        unfold tabz. replace (Z.to_nat (k + 1)) with (S (Z.to_nat k)) by lia.
        rewrite seq_S, map_app. cbn [map]. repeat f_equal. lia.
    - intros r s0 [-> ->]. rewrite Hcond by lia. destruct (Z.eqb_spec (lo + (hi - lo)) hi); [reflexivity|lia].
  Qed.
End Loops.
