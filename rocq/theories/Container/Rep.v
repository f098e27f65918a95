(** Representation of a contiguous or ring buffer in absolute coordinates: element number [a] (an integer that
    only grows at the back and shrinks at the front) lives in slot [ph a].
    vector: ph a = a, deque: ph a = a mod BufSize. *)
From Verif Require Import Base.ZList Container.Mem Container.Triple.

Section Rep.
  Context {V : Type}.
  Variable B cap : Z.
  Variable ph : Z -> Z.
  Variable okab : Z -> Prop.
  Variable torn dflt : V.

  Definition setF (F : Z -> V) (i : Z) (x : V) : Z -> V := fun a => if Z.eqb a i then x else F a.

  Record Rep (nf : bool) (s : st V) (lo hi : Z) (F : Z -> V) : Prop := {
    R_mb : mb s = ph lo;
    R_me : me s = ph hi;
    R_ok : okab lo;
    R_len : 0 <= hi - lo <= cap;
    R_live : forall a, lo <= a < hi -> mem s (ph a) = Some (F a);
    R_raw : forall a, hi <= a < lo + B -> mem s (ph a) = None;
    R_fuse : nf = true -> fuse s = None }.

  (** the exceptional postcondition shared by all operations: the container is still valid *)
  Definition Exc (nf : bool) (e : exn) (s : st V) : Prop :=
    e = ElemExn /\ nf = false /\ exists lo hi F, Rep nf s lo hi F.

  Hypothesis Hcap : 0 <= cap <= B.
  Hypothesis Hrange : forall lo a, okab lo -> lo <= a < lo + B -> 0 <= ph a < B.
  Hypothesis Hinj : forall lo a a', okab lo -> lo <= a < lo + B -> lo <= a' < lo + B -> ph a = ph a' -> a = a'.

  Lemma inbuf_true i : 0 <= i < B -> inbuf B i = true.
  Proof. unfold inbuf; intros H. apply andb_true_intro; split; [apply Z.leb_le|apply Z.ltb_lt]; lia. Qed.

  Lemma Rep_ext nf s lo hi F G :
    Rep nf s lo hi F -> (forall a, lo <= a < hi -> F a = G a) -> Rep nf s lo hi G.
  Proof.
    intros [H1 H2 H3 H4 H5 H6 H7] H. split; auto. intros a Ha. rewrite <- (H a Ha). auto.
  Qed.

  Lemma Rep_rd nf s lo hi F a :
    Rep nf s lo hi F -> lo <= a < hi -> rd B (ph a) s = Ok (F a) s.
  Proof.
    intros R Ha. unfold rd. rewrite inbuf_true.
    - now rewrite (R_live _ _ _ _ _ R a Ha).
    - eapply Hrange; [eapply R_ok; eauto|]. pose proof (R_len _ _ _ _ _ R). lia.
  Qed.

  Lemma runs_rd {C} nf s lo hi F a (k : V -> M V C) Q E :
    Rep nf s lo hi F -> lo <= a < hi -> runs (k (F a)) s Q E -> runs (bind (rd B (ph a)) k) s Q E.
  Proof. intros R Ha H. eapply runs_bind_ok; [eapply Rep_rd; eauto|exact H]. Qed.

  Lemma runs_asg {C} nf s lo hi F a x (k : unit -> M V C) Q E :
    Rep nf s lo hi F -> lo <= a < hi ->
    (forall s', Rep nf s' lo hi (setF F a x) -> runs (k tt) s' Q E) ->
    (nf = false -> forall s', Rep nf s' lo hi (setF F a torn) -> E ElemExn s') ->
    runs (bind (asg B torn (ph a) x) k) s Q E.
  Proof.
    intros R Ha Hk HE.
    assert (Hr : 0 <= ph a < B).
    { eapply Hrange; [eapply R_ok; eauto|]. pose proof (R_len _ _ _ _ _ R). lia. }
    assert (U : forall y f, (nf = true -> f = None) ->
              Rep nf (mkst (upd (mem s) (ph a) (Some y)) (mb s) (me s) f) lo hi (setF F a y)).
    { intros y f Hf. destruct R as [H1 H2 H3 H4 H5 H6 H7]. split; cbn [mem mb me fuse]; auto.
      - intros b Hb. unfold upd, setF. destruct (Z.eqb_spec b a) as [->|Hne].
        + now rewrite Z.eqb_refl.
        + destruct (Z.eqb_spec (ph b) (ph a)) as [He|He]; [|auto].
          exfalso. apply Hne. eapply Hinj; eauto; lia.
      - intros b Hb. unfold upd. destruct (Z.eqb_spec (ph b) (ph a)) as [He|He]; [|auto].
        exfalso. assert (b = a) by (eapply Hinj; eauto; lia). lia. }
    unfold runs, bind, asg. rewrite inbuf_true by lia.
    rewrite (R_live _ _ _ _ _ R a Ha). destruct (fuse s) as [[|f]|] eqn:Hf.
    - destruct nf; [pose proof (R_fuse _ _ _ _ _ R eq_refl); congruence|]. apply HE; [reflexivity|]. now apply U.
    - apply Hk. apply U. intros ->. pose proof (R_fuse _ _ _ _ _ R eq_refl); congruence.
    - apply Hk. now apply U.
  Qed.

  Lemma runs_ctor_back {C} nf s lo hi F x (inc : M V unit) (k : unit -> M V C) Q E :
    (forall s a, 0 <= a - lo <= cap -> me s = ph a -> a < lo + cap ->
        inc s = Ok tt (mkst (mem s) (mb s) (ph (a + 1)) (fuse s))) ->
    Rep nf s lo hi F -> hi - lo < cap ->
    (forall s', Rep nf s' lo (hi + 1) (setF F hi x) -> runs (k tt) s' Q E) ->
    (nf = false -> forall s', Rep nf s' lo hi F -> E ElemExn s') ->
    runs (bind (ctor B (ph hi) x) (fun _ => bind inc k)) s Q E.
  Proof.
    intros Hinc R Hn Hk HE.
    assert (Hr : 0 <= ph hi < B).
    { eapply Hrange; [eapply R_ok; eauto|]. pose proof (R_len _ _ _ _ _ R). lia. }
    assert (U : forall f, (nf = true -> f = None) ->
              Rep nf (mkst (upd (mem s) (ph hi) (Some x)) (mb s) (ph (hi + 1)) f) lo (hi + 1) (setF F hi x)).
    { intros f Hf. destruct R as [H1 H2 H3 H4 H5 H6 H7]. split; cbn [mem mb me fuse]; auto; [lia| |].
      - intros b Hb. unfold upd, setF. destruct (Z.eqb_spec b hi) as [->|Hne].
        + now rewrite Z.eqb_refl.
        + destruct (Z.eqb_spec (ph b) (ph hi)) as [He|He]; [|apply H5; lia].
          exfalso. apply Hne. eapply Hinj; eauto; lia.
      - intros b Hb. unfold upd. destruct (Z.eqb_spec (ph b) (ph hi)) as [He|He]; [|apply H6; lia].
        exfalso. assert (b = hi) by (eapply Hinj; eauto; lia). lia. }
    pose proof (R_len _ _ _ _ _ R) as Hl.
    assert (Hme : me s = ph hi) by (eapply R_me; eauto).
    unfold runs, bind, ctor. rewrite inbuf_true by lia.
    rewrite (R_raw _ _ _ _ _ R hi) by lia. destruct (fuse s) as [[|f]|] eqn:Hf.
    - destruct nf; [pose proof (R_fuse _ _ _ _ _ R eq_refl); congruence|]. apply HE; [reflexivity|].
      destruct R; split; auto.
    - rewrite (Hinc _ hi) by (cbn; first [lia|exact Hme]). cbn [mem mb me fuse].
      apply Hk. apply U. intros ->. pose proof (R_fuse _ _ _ _ _ R eq_refl); congruence.
    - rewrite (Hinc _ hi) by (cbn; first [lia|exact Hme]). cbn [mem mb me fuse].
      apply Hk. now apply U.
  Qed.

  Lemma runs_ctor_front {C} nf s lo hi F x (dec : M V unit) (k : unit -> M V C) Q E :
    okab (lo - 1) ->
    (forall lo, okab lo -> forall a, ph a = ph (a + B)) ->
    cap < B ->
    (forall s a, mb s = ph a -> dec s = Ok tt (mkst (mem s) (ph (a - 1)) (me s) (fuse s))) ->
    Rep nf s lo hi F -> hi - lo < cap ->
    (forall s', Rep nf s' (lo - 1) hi (setF F (lo - 1) x) -> runs (k tt) s' Q E) ->
    (nf = false -> forall s', Rep nf s' lo hi F -> E ElemExn s') ->
    runs (bind (ctor B (ph (lo - 1)) x) (fun _ => bind dec k)) s Q E.
  Proof.
    intros Hok Hper HB Hdec R Hn Hk HE.
    pose proof (R_len _ _ _ _ _ R) as Hl.
    assert (Hr : 0 <= ph (lo - 1) < B) by (eapply Hrange; [exact Hok|lia]).
    assert (Hraw : mem s (ph (lo - 1)) = None).
    { rewrite (Hper _ Hok). apply (R_raw _ _ _ _ _ R). lia. }
    assert (Hmb : mb s = ph lo) by (eapply R_mb; eauto).
    assert (U : forall f, (nf = true -> f = None) ->
              Rep nf (mkst (upd (mem s) (ph (lo - 1)) (Some x)) (ph (lo - 1)) (me s) f)
                  (lo - 1) hi (setF F (lo - 1) x)).
    { intros f Hf. destruct R as [H1 H2 H3 H4 H5 H6 H7]. split; cbn [mem mb me fuse]; auto; [lia| |].
      - intros b Hb. unfold upd, setF. destruct (Z.eqb_spec b (lo - 1)) as [->|Hne].
        + now rewrite Z.eqb_refl.
        + destruct (Z.eqb_spec (ph b) (ph (lo - 1))) as [He|He]; [|apply H5; lia].
          exfalso. apply Hne. apply (Hinj (lo - 1)); auto; lia.
      - intros b Hb. unfold upd. destruct (Z.eqb_spec (ph b) (ph (lo - 1))) as [He|He]; [|apply H6; lia].
        exfalso. assert (b = lo - 1) by (apply (Hinj (lo - 1)); auto; lia). lia. }
    unfold runs, bind, ctor. rewrite inbuf_true by lia. rewrite Hraw.
    destruct (fuse s) as [[|f]|] eqn:Hf.
    - destruct nf; [pose proof (R_fuse _ _ _ _ _ R eq_refl); congruence|]. apply HE; [reflexivity|].
      destruct R; split; auto.
    - rewrite (Hdec _ lo) by (cbn; exact Hmb). cbn [mem mb me fuse].
      apply Hk. apply U. intros ->. pose proof (R_fuse _ _ _ _ _ R eq_refl); congruence.
    - rewrite (Hdec _ lo) by (cbn; exact Hmb). cbn [mem mb me fuse].
      apply Hk. now apply U.
  Qed.

  (** [Rep] with a hole [x, y): the elements in the hole have been destroyed *)
  Record Hole (nf : bool) (s : st V) (lo hi x y : Z) (F : Z -> V) : Prop := {
    H_mb : mb s = ph lo;
    H_me : me s = ph hi;
    H_ok : okab lo;
    H_len : 0 <= hi - lo <= cap;
    H_live : forall a, lo <= a < hi -> ~ (x <= a < y) -> mem s (ph a) = Some (F a);
    H_hole : forall a, lo <= a < hi -> x <= a < y -> mem s (ph a) = None;
    H_raw : forall a, hi <= a < lo + B -> mem s (ph a) = None;
    H_fuse : nf = true -> fuse s = None }.

  Lemma Rep_Hole nf s lo hi F x : Rep nf s lo hi F -> Hole nf s lo hi x x F.
  Proof. intros []; split; auto; intros; lia. Qed.

  Lemma runs_dtor {C} nf s lo hi x y F (k : unit -> M V C) Q E :
    Hole nf s lo hi x y F -> lo <= x <= y -> y < hi ->
    (forall s', Hole nf s' lo hi x (y + 1) F -> runs (k tt) s' Q E) ->
    runs (bind (dtor B (ph y)) k) s Q E.
  Proof.
    intros R Hx Hy Hk. destruct R as [H1 H2 H3 H4 H5 H6 H7 H8].
    assert (Hr : 0 <= ph y < B) by (eapply Hrange; eauto; lia).
    unfold runs, bind, dtor. rewrite inbuf_true by lia. rewrite H5 by lia. apply Hk.
    split; cbn [mem mb me fuse]; auto.
    - intros a Ha Hn. unfold upd. destruct (Z.eqb_spec (ph a) (ph y)) as [He|He].
      + exfalso. assert (a = y) by (eapply Hinj; eauto; lia). lia.
      + apply H5; lia.
    - intros a Ha Hn. unfold upd. destruct (Z.eqb_spec (ph a) (ph y)) as [He|He]; [reflexivity|].
      apply H6; [lia|]. assert (a <> y) by congruence. lia.
    - intros a Ha. unfold upd. destruct (Z.eqb_spec (ph a) (ph y)) as [He|He]; auto.
  Qed.

  (** closing a hole at the back or at the front *)
  Lemma Hole_back nf s lo hi x F m :
    Hole nf s lo hi x hi F -> lo <= x <= hi -> mb s = mb m -> mem s = mem m -> fuse s = fuse m -> me m = ph x ->
    Rep nf m lo x F.
  Proof.
    intros [H1 H2 H3 H4 H5 H6 H7 H8] Hx E1 E2 E3 E4. split; auto; try congruence; try lia.
    - intros a Ha. rewrite <- E2. apply H5; lia.
    - intros a Ha. rewrite <- E2. destruct (Z_lt_le_dec a hi); [apply H6; lia|apply H7; lia].
    - intros Hn. rewrite <- E3. auto.
  Qed.
  Lemma Hole_front nf s lo hi y F m :
    (forall lo, okab lo -> forall a, ph a = ph (a + B)) -> okab y ->
    Hole nf s lo hi lo y F -> lo <= y <= hi -> mb m = ph y -> mem s = mem m -> fuse s = fuse m -> me s = me m ->
    Rep nf m y hi F.
  Proof.
    intros Hper Hy [H1 H2 H3 H4 H5 H6 H7 H8] Hx E1 E2 E3 E4. split; auto; try congruence; try lia.
    - intros a Ha. rewrite <- E2. apply H5; lia.
    - intros a Ha. rewrite <- E2. destruct (Z_lt_le_dec a (lo + B)) as [Hl|Hl]; [apply H7; lia|].
      replace a with ((a - B) + B) by lia. rewrite <- (Hper _ Hy). apply H6; lia.
    - intros Hn. rewrite <- E3. auto.
  Qed.

  (** references *)
  Definition refok (P : Z -> Prop) (lo hi : Z) (F : Z -> V) (r : ref V) (v : V) : Prop :=
    r = RVal v \/ exists a, lo <= a < hi /\ P a /\ r = RSlot (ph a) /\ F a = v.

  Lemma runs_deref {C} nf s lo hi F P r v (k : V -> M V C) Q E :
    Rep nf s lo hi F -> refok P lo hi F r v -> runs (k v) s Q E -> runs (bind (deref B r) k) s Q E.
  Proof.
    intros R [-> | (a & Ha & _ & -> & Hv)] H.
    - exact H.
    - cbn [deref]. eapply runs_rd; [exact R|exact Ha|]. rewrite Hv. exact H.
  Qed.
  Lemma refok_mono (P : Z -> Prop) lo hi F lo' hi' F' r v :
    refok P lo hi F r v -> lo' <= lo -> hi <= hi' -> (forall a, lo <= a < hi -> P a -> F' a = F a) ->
    refok P lo' hi' F' r v.
  Proof.
    intros [-> | (a & Ha & Hp & -> & Hv)] Hl Hh HF; [now left|].
    right. exists a. repeat split; try lia; auto. now rewrite HF.
  Qed.

  Lemma runs_rdin {C} (xs : list V) i (k : V -> M V C) s Q E :
    0 <= i < lenz xs -> runs (k (nthz dflt xs i)) s Q E -> runs (bind (rdin xs i) k) s Q E.
  Proof.
    intros Hi H. eapply runs_bind_ok; [|exact H]. unfold rdin.
    destruct (Z.ltb_spec i 0); [lia|]. now rewrite (nth_error_nthz dflt) by lia.
  Qed.
End Rep.
