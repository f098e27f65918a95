(** Lists as contents of a buffer window. *)
From Verif Require Import Base.ZList Spec.SeqSpec Container.Mem Container.Triple Container.Rep Container.Loops Container.GenInsert.

Section LR.
  Context {V : Type}.
  Variable B cap : Z.
  Variable ph : Z -> Z.
  Variable okab : Z -> Prop.
  Variable dflt : V.
  Notation Rep := (@Rep V B cap ph okab).

  Definition LRep (nf : bool) (s : st V) (lo : Z) (l : list V) : Prop :=
    Rep nf s lo (lo + lenz l) (fun a => nthz dflt l (a - lo)).

  Lemma LRep_intro nf s lo hi F l :
    Rep nf s lo hi F -> hi = lo + lenz l -> (forall k, 0 <= k < lenz l -> F (lo + k) = nthz dflt l k) ->
    LRep nf s lo l.
  Proof.
    intros R -> H. eapply Rep_ext; [exact R|]. intros a Ha. rewrite <- (H (a - lo)) by lia. f_equal; lia.
  Qed.
  Lemma LRep_len nf s lo l : LRep nf s lo l -> 0 <= lenz l <= cap.
  Proof. intros R. pose proof (R_len _ _ _ _ _ _ _ _ _ R). lia. Qed.
  Lemma Rep_LRep nf s lo hi F : Rep nf s lo hi F -> LRep nf s lo (tabz (fun k => F (lo + k)) (hi - lo)).
  Proof.
    intros R. pose proof (R_len _ _ _ _ _ _ _ _ _ R) as Hl.
    eapply LRep_intro; [exact R| |]; rewrite lenz_tabz by lia; [lia|].
    intros k Hk. now rewrite nthz_tabz by lia.
  Qed.
  Lemma Exc_LRep nf e s : Exc B cap ph okab nf e s -> e = ElemExn /\ nf = false /\ exists lo l, LRep nf s lo l.
  Proof.
    intros (-> & Hn & lo & hi & F & R). repeat split; auto. eexists _, _. eapply Rep_LRep; eauto.
  Qed.
End LR.

Section ListLemmas.
  Context {V : Type} (d : V).
  Lemma lenz_insert_seq (l : list V) p xs : 0 <= p <= lenz l -> lenz (insert_seq l p xs) = lenz l + lenz xs.
  Proof.
    intros H. unfold insert_seq. rewrite !lenz_app, lenz_takez, lenz_dropz by lia. lia.
  Qed.
  Lemma nthz_insert_seq (l : list V) p xs k :
    0 <= p <= lenz l -> 0 <= k ->
    nthz d (insert_seq l p xs) k =
    if k <? p then nthz d l k else if k <? p + lenz xs then nthz d xs (k - p) else nthz d l (k - lenz xs).
  Proof.
    intros Hp Hk. unfold insert_seq. rewrite nthz_app by lia. rewrite lenz_takez by lia.
    destruct (Z.ltb_spec k p) as [H1|H1]; [apply nthz_takez; lia|].
    rewrite nthz_app by lia.
    destruct (Z.ltb_spec (k - p) (lenz xs)), (Z.ltb_spec k (p + lenz xs)); try lia; [reflexivity|].
    rewrite nthz_dropz by lia. f_equal; lia.
  Qed.
  Lemma lenz_erase_seq (l : list V) p q : 0 <= p <= q -> q <= lenz l -> lenz (erase_seq l p q) = lenz l - (q - p).
  Proof.
    intros H1 H2. unfold erase_seq. rewrite lenz_app, lenz_takez, lenz_dropz by lia. lia.
  Qed.
  Lemma nthz_erase_seq (l : list V) p q k :
    0 <= p <= q -> q <= lenz l -> 0 <= k ->
    nthz d (erase_seq l p q) k = if k <? p then nthz d l k else nthz d l (k + (q - p)).
  Proof.
    intros Hp Hq Hk. unfold erase_seq. rewrite nthz_app by lia. rewrite lenz_takez by lia.
    destruct (Z.ltb_spec k p) as [H1|H1]; [apply nthz_takez; lia|].
    rewrite nthz_dropz by lia. f_equal; lia.
  Qed.
  Lemma lenz_pos (l : list V) : l <> [] -> 0 < lenz l.
  Proof. destruct l; [congruence|]. rewrite lenz_cons. pose proof (lenz_nonneg l). lia. Qed.
  Lemma repz_snoc (v : V) k : 0 <= k -> repz v (k + 1) = repz v k ++ [v].
  Proof.
    intros H. unfold repz. replace (Z.to_nat (k + 1)) with (S (Z.to_nat k)) by lia.
    generalize (Z.to_nat k) as n. induction n as [|n IH]; [reflexivity|]. cbn [repeat app] in *. now rewrite <- IH.
  Qed.
  Lemma takez_snoc (l : list V) k : 0 <= k < lenz l -> takez (k + 1) l = takez k l ++ [nthz d l k].
  Proof.
    intros H. apply (list_ext d).
    - rewrite lenz_app, !lenz_takez, lenz_cons, lenz_nil by lia. lia.
    - rewrite lenz_takez by lia. intros i Hi. rewrite nthz_takez by lia.
      rewrite nthz_app by lia. rewrite lenz_takez by lia.
      destruct (Z.ltb_spec i k); [now rewrite nthz_takez by lia|].
      replace i with k by lia. now replace (k - k) with 0 by lia.
  Qed.
  Lemma takez_all (l : list V) : takez (lenz l) l = l.
  Proof. unfold takez, lenz. rewrite Nat2Z.id. apply firstn_all. Qed.
  Lemma takez_0 (l : list V) : takez 0 l = [].
  Proof. reflexivity. Qed.
End ListLemmas.
