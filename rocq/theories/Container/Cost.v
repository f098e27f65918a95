(** A logic for counting element copies and for framing: [acts R c Q m s] says that if [m] run from [s] without a
    copy budget succeeds, then it performs exactly [c] element constructions and assignments, does not look at or
    change the slots in [R], and its outcome satisfies [Q]. *)
From Verif Require Import Base.ZList Container.Mem.

Section Cost.
  Context {V : Type}.

  Definition agree (R : Z -> Prop) (s s2 : st V) : Prop :=
    mb s2 = mb s /\ me s2 = me s /\ forall j, ~ R j -> mem s2 j = mem s j.
  Definition keep (R : Z -> Prop) (s s' : st V) : Prop := forall j, R j -> mem s' j = mem s j.

  (** what [m] does from a state like [s] but for the slots in R and the budget *)
  Definition like {A} (R : Z -> Prop) (c : Z) (m : M V A) (a : A) (s' s2 : st V) : Prop :=
    match fuse s2 with
    | None => exists s2', m s2 = Ok a s2' /\ fuse s2' = None /\ agree R s' s2' /\ keep R s2 s2'
    | Some k =>
        if c <=? Z.of_nat k then
          exists s2' k', m s2 = Ok a s2' /\ fuse s2' = Some k' /\ Z.of_nat k' = Z.of_nat k - c /\
                         agree R s' s2' /\ keep R s2 s2'
        else exists s2', m s2 = Thr ElemExn s2' /\ keep R s2 s2'
    end.

  Definition acts {A} (R : Z -> Prop) (c : Z) (Q : A -> st V -> Prop) (m : M V A) (s : st V) : Prop :=
    forall a s', m s = Ok a s' ->
      0 <= c /\ Q a s' /\ forall s2, agree R s s2 -> like R c m a s' s2.

  Lemma acts_ret {A} R (Q : A -> st V -> Prop) (a : A) s : Q a s -> acts R 0 Q (ret a) s.
  Proof.
    intros HQ a' s' E. injection E as <- <-. split; [lia|]. split; [exact HQ|].
    intros s2 Hag. unfold like. destruct (fuse s2) as [k|] eqn:Hf.
    - destruct (Z.leb_spec 0 (Z.of_nat k)); [|lia]. exists s2, k. repeat split; auto; try lia; apply Hag.
    - exists s2. repeat split; auto; apply Hag.
  Qed.

  Lemma acts_bind {A C} R c1 c2 (Q1 : A -> st V -> Prop) (Q : C -> st V -> Prop) (m : M V A) (k : A -> M V C) s c :
    c = c1 + c2 ->
    acts R c1 Q1 m s -> (forall a s1, Q1 a s1 -> acts R c2 Q (k a) s1) -> acts R c Q (bind m k) s.
  Proof.
    intros -> Hm Hk a s' E. unfold bind in E. destruct (m s) as [a1 s1|? ?|?| |] eqn:Em; try discriminate.
    destruct (Hm _ _ Em) as (Hc1 & HQ1 & L1). destruct (Hk _ _ HQ1 _ _ E) as (Hc2 & HQ & L2).
    split; [lia|]. split; [exact HQ|]. intros s2 Hag. specialize (L1 s2 Hag). unfold like in *.
    destruct (fuse s2) as [b|] eqn:Hf.
    - destruct (Z.leb_spec c1 (Z.of_nat b)) as [H1|H1].
      + destruct L1 as (s3 & b1 & E1 & F1 & B1 & A1 & K1). specialize (L2 s3 A1). rewrite F1 in L2.
        unfold bind. rewrite E1.
        destruct (Z.leb_spec c2 (Z.of_nat b1)), (Z.leb_spec (c1 + c2) (Z.of_nat b)); try lia.
        * destruct L2 as (s4 & b2 & E2 & F2 & B2 & A2 & K2). exists s4, b2.
          split; [exact E2|]. split; [exact F2|]. split; [lia|]. split; [exact A2|].
          intros j Hj. now rewrite (K2 j Hj), (K1 j Hj).
        * destruct L2 as (s4 & E2 & K2). exists s4. split; [exact E2|].
          intros j Hj. now rewrite (K2 j Hj), (K1 j Hj).
      + destruct (Z.leb_spec (c1 + c2) (Z.of_nat b)); [lia|].
        destruct L1 as (s3 & E1 & K1). exists s3. unfold bind. rewrite E1. split; [reflexivity|exact K1].
    - destruct L1 as (s3 & E1 & F1 & A1 & K1). specialize (L2 s3 A1). rewrite F1 in L2.
      destruct L2 as (s4 & E2 & F2 & A2 & K2). exists s4. unfold bind. rewrite E1.
      split; [exact E2|]. split; [exact F2|]. split; [exact A2|]. intros j Hj. now rewrite (K2 j Hj), (K1 j Hj).
  Qed.

  Lemma acts_weaken {A} R c (Q Q' : A -> st V -> Prop) (m : M V A) s :
    acts R c Q m s -> (forall a s', Q a s' -> Q' a s') -> acts R c Q' m s.
  Proof. intros H HQ a s' E. destruct (H a s' E) as (? & ? & ?). auto. Qed.

  (** programs that only look at m_begin and m_end *)
  Definition looks {A} (m : M V A) (s : st V) (a : A) : Prop :=
    forall s2, mb s2 = mb s -> me s2 = me s -> m s2 = Ok a s2.
  Lemma acts_looks {A} R (Q : A -> st V -> Prop) (m : M V A) s a : looks m s a -> Q a s -> acts R 0 Q m s.
  Proof.
    intros H HQ a' s' E. rewrite (H s eq_refl eq_refl) in E. injection E as <- <-.
    split; [lia|]. split; [exact HQ|]. intros s2 Hag. unfold like.
    pose proof (H s2 (proj1 Hag) (proj1 (proj2 Hag))) as E2. destruct (fuse s2) as [k|] eqn:Hf.
    - destruct (Z.leb_spec 0 (Z.of_nat k)); [|lia]. exists s2, k. repeat split; auto; try lia; apply Hag.
    - exists s2. repeat split; auto; apply Hag.
  Qed.
  (** looking first costs nothing *)
  Lemma acts_look {A C} R c (Q : C -> st V -> Prop) (m : M V A) (k : A -> M V C) s a :
    looks m s a -> acts R c Q (k a) s -> acts R c Q (bind m k) s.
  Proof.
    intros H Hk. apply (acts_bind R 0 c (fun b s1 => b = a /\ s1 = s)); [lia|apply (acts_looks _ _ _ _ a); auto|].
    intros b s1 [-> ->]. exact Hk.
  Qed.
  Lemma looks_ret {A} (a : A) s : looks (ret a) s a.
  Proof. intros s2 _ _. reflexivity. Qed.
  Lemma looks_bind {A C} (m : M V A) (k : A -> M V C) s a c : looks m s a -> looks (k a) s c -> looks (bind m k) s c.
  Proof. intros H1 H2 s2 E1 E2. unfold bind. rewrite (H1 s2 E1 E2). now apply H2. Qed.
  Lemma looks_get_mb s : looks (@get_mb V) s (mb s).
  Proof. intros s2 E _. unfold get_mb. now rewrite E. Qed.
  Lemma looks_get_me s : looks (@get_me V) s (me s).
  Proof. intros s2 _ E. unfold get_me. now rewrite E. Qed.

  Lemma acts_dassert {C} R c (Q : C -> st V -> Prop) dbg b (k : unit -> M V C) s :
    acts R c Q (k tt) s -> acts R c Q (bind (dassert dbg b) k) s.
  Proof.
    intros H a s' E. destruct (dassert dbg b s) as [u s1| | | |] eqn:Ed; unfold bind in E; rewrite Ed in E; try discriminate.
    destruct u. assert (Hs1 : s1 = s) by (unfold dassert in Ed; destruct dbg, b; congruence). subst s1.
    destruct (H a s' E) as (Hc & HQ & L). split; [exact Hc|]. split; [exact HQ|]. intros s2 Hag.
    specialize (L s2 Hag). unfold like, bind in *.
    assert (Ed2 : dassert dbg b s2 = Ok tt s2) by (unfold dassert in *; destruct dbg, b; congruence).
    rewrite Ed2. exact L.
  Qed.

  Lemma acts_set_mb {C} R c (Q : C -> st V -> Prop) x (k : unit -> M V C) s :
    acts R c Q (k tt) (mkst (mem s) x (me s) (fuse s)) -> acts R c Q (bind (set_mb x) k) s.
  Proof.
    intros H. apply (acts_bind R 0 c (fun _ s1 => s1 = mkst (mem s) x (me s) (fuse s))); [lia| |].
    - intros a s' E. injection E as <- <-. split; [lia|]. split; [reflexivity|]. intros s2 (H1 & H2 & H3).
      unfold like, set_mb. destruct (fuse s2) as [b|] eqn:Hf.
      + destruct (Z.leb_spec 0 (Z.of_nat b)); [|lia]. eexists _, b. split; [reflexivity|].
        cbn [fuse]. repeat split; cbn [mb me mem]; auto; lia.
      + eexists. split; [reflexivity|]. cbn [fuse]. repeat split; cbn [mb me mem]; auto.
    - intros [] s1 ->. exact H.
  Qed.
  Lemma acts_set_me {C} R c (Q : C -> st V -> Prop) x (k : unit -> M V C) s :
    acts R c Q (k tt) (mkst (mem s) (mb s) x (fuse s)) -> acts R c Q (bind (set_me x) k) s.
  Proof.
    intros H. apply (acts_bind R 0 c (fun _ s1 => s1 = mkst (mem s) (mb s) x (fuse s))); [lia| |].
    - intros a s' E. injection E as <- <-. split; [lia|]. split; [reflexivity|]. intros s2 (H1 & H2 & H3).
      unfold like, set_me. destruct (fuse s2) as [b|] eqn:Hf.
      + destruct (Z.leb_spec 0 (Z.of_nat b)); [|lia]. eexists _, b. split; [reflexivity|].
        cbn [fuse]. repeat split; cbn [mb me mem]; auto; lia.
      + eexists. split; [reflexivity|]. cbn [fuse]. repeat split; cbn [mb me mem]; auto.
    - intros [] s1 ->. exact H.
  Qed.

  (** [still]: m_begin and m_end unchanged *)
  Definition still {A} (s : st V) (a : A) (s' : st V) : Prop := mb s' = mb s /\ me s' = me s.

  Section Prim.
    Variable B : Z.
    Variable torn : V.

    Lemma acts_rd (R : Z -> Prop) i s : ~ R i -> acts R 0 (fun (_ : V) s' => s' = s) (rd B i) s.
    Proof.
      intros Hi a s' E. unfold rd in E. destruct (inbuf B i) eqn:Hb; [|discriminate].
      destruct (mem s i) as [v|] eqn:Hm; [|discriminate]. injection E as <- <-.
      split; [lia|]. split; [reflexivity|]. intros s2 Hag.
      assert (E2 : rd B i s2 = Ok v s2).
      { unfold rd. rewrite Hb. now rewrite (proj2 (proj2 Hag) i Hi), Hm. }
      unfold like. destruct (fuse s2) as [k|] eqn:Hf.
      - destruct (Z.leb_spec 0 (Z.of_nat k)); [|lia]. exists s2, k. repeat split; auto; try lia; apply Hag.
      - exists s2. repeat split; auto; apply Hag.
    Qed.

    Lemma acts_ctor (R : Z -> Prop) i v s : ~ R i -> acts R 1 (@still unit s) (ctor B i v) s.
    Proof.
      intros Hi a s' E. unfold ctor in E. destruct (inbuf B i) eqn:Hb; [|discriminate].
      destruct (mem s i) as [w|] eqn:Hm; [discriminate|].
      assert (Hs' : mem s' = upd (mem s) i (Some v) /\ mb s' = mb s /\ me s' = me s /\ a = tt).
      { destruct (fuse s) as [[|k]|]; [discriminate| |]; injection E as <- <-; repeat split; reflexivity. }
      destruct Hs' as (Hm' & Hb' & He' & ->).
      split; [lia|]. split; [split; assumption|]. intros s2 (A1 & A2 & A3). unfold like.
      assert (Hm2 : mem s2 i = None) by (rewrite A3; assumption).
      assert (K : keep R s2 (mkst (upd (mem s2) i (Some v)) (mb s2) (me s2) (fuse s2))).
      { intros j Hj. cbn [mem]. unfold upd. destruct (Z.eqb_spec j i) as [->|]; [contradiction|reflexivity]. }
      assert (AG : forall f, agree R s' (mkst (upd (mem s2) i (Some v)) (mb s2) (me s2) f)).
      { intros f. split; [cbn; congruence|]. split; [cbn; congruence|]. intros j Hj. cbn [mem]. rewrite Hm'.
        unfold upd. destruct (j =? i); [reflexivity|]. now apply A3. }
      destruct (fuse s2) as [k|] eqn:Hf.
      - destruct (Z.leb_spec 1 (Z.of_nat k)).
        + destruct k as [|k]; [lia|]. eexists _, k. unfold ctor. rewrite Hb, Hm2, Hf. split; [reflexivity|].
          split; [reflexivity|]. split; [lia|]. split; [apply AG|]. exact K.
        + destruct k as [|k]; [|lia]. eexists. unfold ctor. rewrite Hb, Hm2, Hf. split; [reflexivity|].
          intros j Hj. reflexivity.
      - eexists. unfold ctor. rewrite Hb, Hm2, Hf. split; [reflexivity|]. split; [reflexivity|]. split; [apply AG|exact K].
    Qed.

    Lemma acts_asg (R : Z -> Prop) i v s : ~ R i -> acts R 1 (@still unit s) (asg B torn i v) s.
    Proof.
      intros Hi a s' E. unfold asg in E. destruct (inbuf B i) eqn:Hb; [|discriminate].
      destruct (mem s i) as [w|] eqn:Hm; [|discriminate].
      assert (Hs' : mem s' = upd (mem s) i (Some v) /\ mb s' = mb s /\ me s' = me s /\ a = tt).
      { destruct (fuse s) as [[|k]|]; [discriminate| |]; injection E as <- <-; repeat split; reflexivity. }
      destruct Hs' as (Hm' & Hb' & He' & ->).
      split; [lia|]. split; [split; assumption|]. intros s2 (A1 & A2 & A3). unfold like.
      assert (Hm2 : mem s2 i = Some w) by (rewrite A3; assumption).
      assert (K : forall x f, keep R s2 (mkst (upd (mem s2) i x) (mb s2) (me s2) f)).
      { intros x f j Hj. cbn [mem]. unfold upd. destruct (Z.eqb_spec j i) as [->|]; [contradiction|reflexivity]. }
      assert (AG : forall f, agree R s' (mkst (upd (mem s2) i (Some v)) (mb s2) (me s2) f)).
      { intros f. split; [cbn; congruence|]. split; [cbn; congruence|]. intros j Hj. cbn [mem]. rewrite Hm'.
        unfold upd. destruct (j =? i); [reflexivity|]. now apply A3. }
      destruct (fuse s2) as [k|] eqn:Hf.
      - destruct (Z.leb_spec 1 (Z.of_nat k)).
        + destruct k as [|k]; [lia|]. eexists _, k. unfold asg. rewrite Hb, Hm2, Hf. split; [reflexivity|].
          split; [reflexivity|]. split; [lia|]. split; [apply AG|]. apply K.
        + destruct k as [|k]; [|lia]. eexists. unfold asg. rewrite Hb, Hm2, Hf. split; [reflexivity|]. apply K.
      - eexists. unfold asg. rewrite Hb, Hm2, Hf. split; [reflexivity|]. split; [reflexivity|]. split; [apply AG|apply K].
    Qed.

    Lemma acts_dtor (R : Z -> Prop) i s : ~ R i -> acts R 0 (@still unit s) (dtor B i) s.
    Proof.
      intros Hi a s' E. unfold dtor in E. destruct (inbuf B i) eqn:Hb; [|discriminate].
      destruct (mem s i) as [w|] eqn:Hm; [|discriminate]. injection E as <- <-.
      split; [lia|]. split; [split; reflexivity|]. intros s2 (A1 & A2 & A3). unfold like, dtor. rewrite Hb.
      assert (Hm2 : mem s2 i = Some w) by (rewrite A3; assumption). rewrite Hm2.
      assert (K : forall x f, keep R s2 (mkst (upd (mem s2) i x) (mb s2) (me s2) f)).
      { intros x f j Hj. cbn [mem]. unfold upd. destruct (Z.eqb_spec j i) as [->|]; [contradiction|reflexivity]. }
      assert (AG : forall f f', agree R (mkst (upd (mem s) i None) (mb s) (me s) f')
                                 (mkst (upd (mem s2) i None) (mb s2) (me s2) f)).
      { intros f f'. split; [cbn; congruence|]. split; [cbn; congruence|]. intros j Hj. cbn [mem].
        unfold upd. destruct (j =? i); [reflexivity|]. now apply A3. }
      destruct (fuse s2) as [k|] eqn:Hf.
      - destruct (Z.leb_spec 0 (Z.of_nat k)); [|lia]. eexists _, k. split; [reflexivity|]. split; [reflexivity|].
        split; [lia|]. split; [apply AG|apply K].
      - eexists. split; [reflexivity|]. split; [reflexivity|]. split; [apply AG|apply K].
    Qed.
  End Prim.

  Lemma acts_rdin R xs i s : acts R 0 (fun (_ : V) s' => s' = s) (rdin xs i) s.
  Proof.
    unfold rdin. destruct (i <? 0); [intros a s' E; discriminate|].
    destruct (nth_error xs (Z.to_nat i)) as [v|]; [apply acts_ret; reflexivity|intros a s' E; discriminate].
  Qed.

  (** a loop of [n] rounds of [c] copies each *)
  Lemma acts_loop {A} R c (I : Z -> A -> st V -> Prop) (cond : A -> M V bool) (body : A -> M V A) n fuel a s :
    0 <= n -> 0 <= c -> I 0 a s ->
    (forall k a s, 0 <= k < n -> I k a s -> looks (cond a) s true /\ acts R c (I (k + 1)) (body a) s) ->
    (forall a s, I n a s -> looks (cond a) s false) ->
    acts R (n * c) (I n) (loop fuel cond body a) s.
  Proof.
    intros Hn Hc Ha Hstep Hend.
    assert (G : forall f k a s, 0 <= k <= n -> I k a s -> acts R ((n - k) * c) (I n) (loop f cond body a) s).
    { clear fuel a s Ha. induction f as [|f IH]; intros k a s Hk Hi; cbn [loop].
      - destruct (Z.eq_dec k n) as [->|Hne].
        + apply (acts_look _ _ _ _ _ _ false (Hend _ _ Hi)). replace ((n - n) * c) with 0 by lia. now apply acts_ret.
        + destruct (Hstep k a s ltac:(lia) Hi) as [Hl _]. apply (acts_look _ _ _ _ _ _ true Hl).
          intros a' s' E. discriminate.
      - destruct (Z.eq_dec k n) as [->|Hne].
        + apply (acts_look _ _ _ _ _ _ false (Hend _ _ Hi)). replace ((n - n) * c) with 0 by lia. now apply acts_ret.
        + destruct (Hstep k a s ltac:(lia) Hi) as [Hl Hb]. apply (acts_look _ _ _ _ _ _ true Hl).
          apply (acts_bind R c ((n - (k + 1)) * c) (I (k + 1))); [lia|exact Hb|].
          intros a' s' Hi'. apply IH; [lia|exact Hi']. }
    replace (n * c) with ((n - 0) * c) by lia. apply G; [lia|exact Ha].
  Qed.
  Lemma acts_loop1 {A} R (I : Z -> A -> st V -> Prop) (cond : A -> M V bool) (body : A -> M V A) n fuel a s :
    0 <= n -> I 0 a s ->
    (forall k a s, 0 <= k < n -> I k a s -> looks (cond a) s true /\ acts R 1 (I (k + 1)) (body a) s) ->
    (forall a s, I n a s -> looks (cond a) s false) ->
    acts R n (I n) (loop fuel cond body a) s.
  Proof. intros. replace n with (n * 1) at 1 by lia. apply acts_loop; auto; lia. Qed.
  Lemma acts_loop0 {A} R (I : Z -> A -> st V -> Prop) (cond : A -> M V bool) (body : A -> M V A) n fuel a s :
    0 <= n -> I 0 a s ->
    (forall k a s, 0 <= k < n -> I k a s -> looks (cond a) s true /\ acts R 0 (I (k + 1)) (body a) s) ->
    (forall a s, I n a s -> looks (cond a) s false) ->
    acts R 0 (I n) (loop fuel cond body a) s.
  Proof. intros. replace 0 with (n * 0) by lia. apply acts_loop; auto; lia. Qed.

  (** the loops of the containers *)
  Definition at_ends (b e : Z) (s : st V) : Prop := mb s = b /\ me s = e.

  Section Loops.
    Variable B : Z.
    Variable torn : V.

    Lemma acts_loop_asg {A} (R : Z -> Prop) fuel (at_ : Z -> A) (cond : A -> M V bool) (src : A -> M V V)
          (dst : A -> Z) (nx : A -> A) n a0 b e s :
      0 <= n -> a0 = at_ 0 -> at_ends b e s ->
      (forall k, 0 <= k < n -> nx (at_ k) = at_ (k + 1)) ->
      (forall k s, 0 <= k <= n -> at_ends b e s -> looks (cond (at_ k)) s (negb (k =? n))) ->
      (forall k s, 0 <= k < n -> acts R 0 (fun _ s' => s' = s) (src (at_ k)) s) ->
      (forall k, 0 <= k < n -> ~ R (dst (at_ k))) ->
      acts R n (fun a s' => a = at_ n /\ at_ends b e s')
        (loop fuel cond (fun a => x <- src a ;; asg B torn (dst a) x ;;; ret (nx a)) a0) s.
    Proof.
      intros Hn -> Hs Hnx Hcond Hsrc Hdst.
      apply (acts_loop1 R (fun k a s' => a = at_ k /\ at_ends b e s')); [exact Hn|split; [reflexivity|exact Hs]| |].
      - intros k a s1 Hk [-> H1]. split.
        + replace true with (negb (k =? n)); [apply Hcond; [lia|exact H1]|]. destruct (Z.eqb_spec k n); [lia|reflexivity].
        + apply (acts_bind R 0 1 (fun _ s' => s' = s1)); [lia|apply Hsrc, Hk|]. intros x s2 ->.
          apply (acts_bind R 1 0 (still s1)); [lia|apply acts_asg, Hdst, Hk|]. intros u s3 [E1 E2].
          apply acts_ret. split; [apply Hnx, Hk|]. unfold at_ends in *. rewrite E1, E2. exact H1.
      - intros a s1 [-> H1]. replace false with (negb (n =? n)); [apply Hcond; [lia|exact H1]|]. now rewrite Z.eqb_refl.
    Qed.

    Lemma acts_loop_dtor (R : Z -> Prop) fuel (at_ : Z -> Z) (cond : Z -> M V bool)
          (nx : Z -> Z) n a0 b e s :
      0 <= n -> a0 = at_ 0 -> at_ends b e s ->
      (forall k, 0 <= k < n -> nx (at_ k) = at_ (k + 1)) ->
      (forall k s, 0 <= k <= n -> at_ends b e s -> looks (cond (at_ k)) s (negb (k =? n))) ->
      (forall k, 0 <= k < n -> ~ R (at_ k)) ->
      acts R 0 (fun a s' => a = at_ n /\ at_ends b e s')
        (loop fuel cond (fun a => dtor B a ;;; ret (nx a)) a0) s.
    Proof.
      intros Hn -> Hs Hnx Hcond Hdst.
      apply (acts_loop0 R (fun k a s' => a = at_ k /\ at_ends b e s') _ _ n); [exact Hn|split; [reflexivity|exact Hs]| |].
      - intros k a s1 Hk [-> H1]. split.
        + replace true with (negb (k =? n)); [apply Hcond; [lia|exact H1]|]. destruct (Z.eqb_spec k n); [lia|reflexivity].
        + apply (acts_bind R 0 0 (still s1)); [lia|apply acts_dtor, Hdst, Hk|]. intros u s3 [E1 E2].
          apply acts_ret. split; [apply Hnx, Hk|]. unfold at_ends in *. rewrite E1, E2. exact H1.
      - intros a s1 [-> H1]. replace false with (negb (n =? n)); [apply Hcond; [lia|exact H1]|]. now rewrite Z.eqb_refl.
    Qed.

    (** construct at the place given by one end and move that end *)
    Lemma acts_loop_ctor {A} (R : Z -> Prop) fuel (at_ : Z -> A) (cond : A -> M V bool) (getp : M V Z)
          (src : A -> M V V) (place : Z -> Z) (adv : M V unit) (nx : A -> A) n a0 (P : Z -> st V -> Prop) (q : Z -> Z) s :
      0 <= n -> a0 = at_ 0 -> P 0 s ->
      (forall k s s', still s tt s' -> P k s -> P k s') ->
      (forall k s, 0 <= k < n -> P k s -> looks getp s (q k)) ->
      (forall k s, 0 <= k < n -> P k s -> acts R 0 (fun _ s' => P (k + 1) s') adv s) ->
      (forall k, 0 <= k < n -> nx (at_ k) = at_ (k + 1)) ->
      (forall k s, 0 <= k <= n -> looks (cond (at_ k)) s (negb (k =? n))) ->
      (forall k s, 0 <= k < n -> acts R 0 (fun _ s' => s' = s) (src (at_ k)) s) ->
      (forall k, 0 <= k < n -> ~ R (place (q k))) ->
      acts R n (fun a s' => a = at_ n /\ P n s')
        (loop fuel cond (fun a => p <- getp ;; x <- src a ;; ctor B (place p) x ;;; adv ;;; ret (nx a)) a0) s.
    Proof.
      intros Hn -> Hs Hst Hget Hadv Hnx Hcond Hsrc Hdst.
      apply (acts_loop1 R (fun k a s' => a = at_ k /\ P k s')); [exact Hn|split; [reflexivity|exact Hs]| |].
      - intros k a s1 Hk [-> H1]. split.
        + replace true with (negb (k =? n)); [apply Hcond; lia|]. destruct (Z.eqb_spec k n); [lia|reflexivity].
        + apply (acts_look _ _ _ _ _ _ _ (Hget k s1 Hk H1)).
          apply (acts_bind R 0 1 (fun _ s' => s' = s1)); [lia|apply Hsrc, Hk|]. intros x s2 ->.
          apply (acts_bind R 1 0 (still s1)); [lia|apply acts_ctor, Hdst, Hk|]. intros u s3 H3. destruct u.
          apply (acts_bind R 0 0 (fun _ s' => P (k + 1) s')); [lia|apply Hadv; [exact Hk|eapply Hst; eauto]|].
          intros u s4 H4. apply acts_ret. split; [apply Hnx, Hk|exact H4].
      - intros a s1 [-> H1]. replace false with (negb (n =? n)); [apply Hcond; lia|]. now rewrite Z.eqb_refl.
    Qed.
  End Loops.
End Cost.
