From Coq Require Import List ZArith Bool Lia.
Import ListNotations.
From Verif Require Import Spec.BitSpec Container.BitPatternModel.
Open Scope Z_scope.

(** bits of a number *)
Definition bits (w : Z) (d : Z) : list bool := map (fun i => Z.testbit d (Z.of_nat i)) (seq 0 (Z.to_nat w)).
Lemma bits_length w d : length (bits w d) = Z.to_nat w.
Proof. unfold bits. now rewrite map_length, seq_length. Qed.
Lemma nth_bits w d i : (i < Z.to_nat w)%nat -> nth i (bits w d) false = Z.testbit d (Z.of_nat i).
Proof.
  intros H. unfold bits. rewrite (nth_indep _ false (Z.testbit d (Z.of_nat 0))) by (rewrite map_length, seq_length; exact H).
  rewrite map_nth with (f := fun i => Z.testbit d (Z.of_nat i)). now rewrite seq_nth.
Qed.
Lemma list_ext (a b : list bool) : length a = length b -> (forall i, (i < length a)%nat -> nth i a false = nth i b false) -> a = b.
Proof. intros. apply nth_ext with (d := false) (d' := false); auto. Qed.
Lemma bits_ext w d l : length l = Z.to_nat w -> (forall i, (i < Z.to_nat w)%nat -> Z.testbit d (Z.of_nat i) = nth i l false) -> bits w d = l.
Proof.
  intros L H. apply list_ext; rewrite bits_length; [auto|]. intros i Hi. rewrite nth_bits by exact Hi. auto.
Qed.
Lemma value_bound l : 0 <= value l < 2 ^ Z.of_nat (length l).
Proof.
  induction l as [|b l IH]; [cbn; lia|]. cbn [value length]. rewrite Nat2Z.inj_succ, Z.pow_succ_r by lia. destruct b; lia.
Qed.
Lemma value_testbit l i : (i < length l)%nat -> Z.testbit (value l) (Z.of_nat i) = nth i l false.
Proof.
  revert i. induction l as [|b l IH]; intros i Hi; cbn in Hi; [lia|]. cbn [value]. destruct i as [|i].
  - cbn [nth]. replace ((if b then 1 else 0) + 2 * value l) with (Z.b2z b + 2 * value l) by (destruct b; cbn [Z.b2z]; lia).
    change (Z.of_nat 0) with 0. apply Z.add_b2z_double_bit0.
  - cbn [nth]. replace ((if b then 1 else 0) + 2 * value l) with (Z.b2z b + 2 * value l) by (destruct b; cbn [Z.b2z]; lia).
    rewrite Nat2Z.inj_succ, (Z.add_comm (Z.b2z b)). rewrite Z.testbit_succ_r by lia. apply IH. lia.
Qed.
Lemma eq_bits w a b : 0 <= w -> 0 <= a < 2 ^ w -> 0 <= b < 2 ^ w -> (forall i, (i < Z.to_nat w)%nat -> Z.testbit a (Z.of_nat i) = Z.testbit b (Z.of_nat i)) -> a = b.
Proof.
  intros Hw Ha Hb H. apply Z.bits_inj'. intros n Hn. destruct (Z_lt_le_dec n w) as [L|L].
  - specialize (H (Z.to_nat n) ltac:(lia)). now rewrite Z2Nat.id in H by lia.
  - rewrite <- (Z.mod_small a (2 ^ w)), <- (Z.mod_small b (2 ^ w)) by assumption. rewrite !Z.mod_pow2_bits_high by lia. reflexivity.
Qed.
Lemma value_bits w d : 0 <= w -> 0 <= d < 2 ^ w -> value (bits w d) = d.
Proof.
  intros Hw Hd. apply (eq_bits w); auto.
  - pose proof (value_bound (bits w d)) as B. rewrite bits_length, Z2Nat.id in B by lia. exact B.
  - intros i Hi. rewrite value_testbit by (rewrite bits_length; exact Hi). now rewrite nth_bits.
Qed.
Lemma bits_value l : bits (Z.of_nat (length l)) (value l) = l.
Proof. apply bits_ext; rewrite Nat2Z.id; [reflexivity|]. intros. now apply value_testbit. Qed.

Lemma nth_map (f : bool -> bool) l i : (i < length l)%nat -> nth i (map f l) false = f (nth i l false).
Proof. intros H. rewrite (nth_indep _ false (f false)) by (rewrite map_length; exact H). apply map_nth. Qed.

Section P.
  Variable w : Z.
  Hypothesis Hw : 0 < w.
  Notation castT := (castT w). Notation bnot := (bnot w).

  Lemma castT_range x : 0 <= castT x < 2 ^ w.
  Proof. unfold BitPatternModel.castT. apply Z.mod_pos_bound. apply Z.pow_pos_nonneg; lia. Qed.
  Lemma castT_bit x i : (i < Z.to_nat w)%nat -> Z.testbit (castT x) (Z.of_nat i) = Z.testbit x (Z.of_nat i).
  Proof. intros H. unfold BitPatternModel.castT. apply Z.mod_pow2_bits_low. lia. Qed.
  Lemma bnot_bit x i : (i < Z.to_nat w)%nat -> Z.testbit (castT (bnot x)) (Z.of_nat i) = negb (Z.testbit x (Z.of_nat i)).
  Proof.
    intros H. rewrite castT_bit by exact H. unfold BitPatternModel.bnot. destruct (w <? 32); [|rewrite castT_bit by exact H]; apply Z.lnot_spec; lia.
  Qed.
  Lemma one_bit pos i : 0 <= pos -> Z.testbit (Z.shiftl 1 pos) (Z.of_nat i) = (Z.of_nat i =? pos).
  Proof.
    intros Hp. rewrite Z.shiftl_spec by lia. destruct (Z.eqb_spec (Z.of_nat i) pos) as [->|N].
    - now rewrite Z.sub_diag.
    - destruct (Z_lt_le_dec (Z.of_nat i) pos); [apply Z.testbit_neg_r; lia|].
      apply (Z.bits_above_log2 1); [lia|]. change (Z.log2 1) with 0. lia.
  Qed.
  Lemma with_shl_ok pos k : 0 <= pos < w -> exists v, with_shl w pos k = k v /\
    forall i, (i < Z.to_nat w)%nat -> Z.testbit (castT v) (Z.of_nat i) = (Z.of_nat i =? pos) /\
      Z.testbit (castT (bnot v)) (Z.of_nat i) = negb (Z.of_nat i =? pos).
  Proof.
    intros Hp. unfold with_shl, shl1. destruct (w <? 32) eqn:E.
    - apply Z.ltb_lt in E. assert (X : (pos <? 31) = true) by (apply Z.ltb_lt; lia). rewrite X. eexists. split; [reflexivity|].
      intros i Hi. rewrite bnot_bit, castT_bit, one_bit by (lia || exact Hi). auto.
    - assert (X : (pos <? w) = true) by (apply Z.ltb_lt; lia). rewrite X. eexists. split; [reflexivity|].
      intros i Hi. rewrite bnot_bit, !castT_bit, one_bit by (lia || exact Hi). auto.
  Qed.
  Lemma dassert_ok dbg pos k : 0 <= pos < w -> dassert_pos w dbg pos k = k.
  Proof. intros Hp. unfold dassert_pos. assert (X : (pos <? w) = true) by (apply Z.ltb_lt; lia). rewrite X. now destruct dbg. Qed.

  Lemma upd_nth l n b i : (n < length l)%nat -> nth i (upd l n b) false = if (i =? n)%nat then b else nth i l false.
  Proof.
    intros H. unfold upd. destruct (Nat.lt_trichotomy i n) as [L|[->|L]].
    - rewrite app_nth1 by (rewrite firstn_length; lia). assert (X : (i =? n)%nat = false) by (apply Nat.eqb_neq; lia). rewrite X.
      rewrite <- (firstn_skipn n l) at 2. rewrite app_nth1 by (rewrite firstn_length; lia). reflexivity.
    - rewrite Nat.eqb_refl, app_nth2 by (rewrite firstn_length; lia). rewrite firstn_length, Nat.min_l, Nat.sub_diag by lia. reflexivity.
    - assert (X : (i =? n)%nat = false) by (apply Nat.eqb_neq; lia). rewrite X.
      rewrite app_nth2 by (rewrite firstn_length; lia). rewrite firstn_length, Nat.min_l by lia.
      destruct (i - n)%nat as [|k] eqn:E; [lia|]. cbn [nth].
      replace i with (length (firstn (S n) l) + k)%nat by (rewrite firstn_length; lia).
      rewrite <- (firstn_skipn (S n) l) at 3. rewrite app_nth2_plus. reflexivity.
  Qed.
  Lemma upd_length l n b : (n < length l)%nat -> length (upd l n b) = length l.
  Proof. intros H. unfold upd. rewrite app_length, firstn_length. cbn [length]. rewrite skipn_length. lia. Qed.

  Lemma forallb_nth f l : forallb f l = true <-> forall i, (i < length l)%nat -> f (nth i l false) = true.
  Proof.
    rewrite forallb_forall. split.
    - intros H i Hi. apply H. now apply nth_In.
    - intros H x Hx. apply In_nth with (d := false) in Hx as (i & Hi & <-). auto.
  Qed.
  Lemma all_zero d : 0 <= d < 2 ^ w -> (d =? 0) = forallb negb (bits w d).
  Proof.
    intros Hd. apply eq_true_iff_eq. rewrite Z.eqb_eq, forallb_nth, bits_length. split.
    - intros -> i Hi. rewrite nth_bits by exact Hi. now rewrite Z.testbit_0_l.
    - intros H. apply (eq_bits w); [lia|exact Hd|split; [lia|apply Z.pow_pos_nonneg; lia]|].
      intros i Hi. specialize (H i Hi). rewrite nth_bits in H by exact Hi. rewrite Z.testbit_0_l. now destruct (Z.testbit d (Z.of_nat i)).
  Qed.
  Lemma any_forall (l : list bool) : existsb (fun b => b) l = negb (forallb negb l).
  Proof. induction l as [|[] l IH]; cbn; auto. Qed.

  Lemma b_step_ok dbg d o : 0 <= d < 2 ^ w -> bpre w o ->
    exists d' r, b_step w dbg d o = BOk (d', r) /\ 0 <= d' < 2 ^ w /\ bspec (bits w d) o (bits w d') r.
  Proof.
    intros Hd Hp. destruct o; cbn [b_step bpre] in *.
    - do 2 eexists. split; [reflexivity|]. split; [apply castT_range|]. split; [|reflexivity].
      apply bits_ext; [rewrite map_length; apply bits_length|]. intros i Hi. rewrite bnot_bit, castT_bit by exact Hi.
      rewrite nth_map by (rewrite bits_length; exact Hi).
      now rewrite Z.testbit_0_l.
    - rewrite dassert_ok by exact Hp. destruct (with_shl_ok pos (fun v => BOk (castT (Z.lor d (castT v)), OUnitB)) Hp) as (v & E & B). rewrite E.
      do 2 eexists. split; [reflexivity|]. split; [apply castT_range|]. split; [|reflexivity].
      apply bits_ext; [rewrite upd_length; rewrite bits_length; lia|]. intros i Hi. destruct (B i Hi) as [B1 B2].
      rewrite castT_bit, Z.lor_spec, B1 by exact Hi. rewrite upd_nth by (rewrite bits_length; lia). rewrite nth_bits by exact Hi.
      destruct (Z.eqb_spec (Z.of_nat i) pos), (Nat.eqb_spec i (Z.to_nat pos)); try lia; rewrite ?orb_true_r, ?orb_false_r; reflexivity.
    - do 2 eexists. split; [reflexivity|]. split; [lia|]. split; [|reflexivity].
      apply bits_ext; [rewrite map_length; apply bits_length|]. intros i Hi.
      rewrite nth_map by (rewrite bits_length; exact Hi).
      now rewrite Z.testbit_0_l.
    - rewrite dassert_ok by exact Hp. destruct (with_shl_ok pos (fun v => BOk (castT (Z.land d (castT (bnot v))), OUnitB)) Hp) as (v & E & B). rewrite E.
      do 2 eexists. split; [reflexivity|]. split; [apply castT_range|]. split; [|reflexivity].
      apply bits_ext; [rewrite upd_length; rewrite bits_length; lia|]. intros i Hi. destruct (B i Hi) as [B1 B2].
      rewrite castT_bit, Z.land_spec, B2 by exact Hi. rewrite upd_nth by (rewrite bits_length; lia). rewrite nth_bits by exact Hi.
      destruct (Z.eqb_spec (Z.of_nat i) pos), (Nat.eqb_spec i (Z.to_nat pos)); try lia; rewrite ?andb_true_r, ?andb_false_r; reflexivity.
    - do 2 eexists. split; [reflexivity|]. split; [apply castT_range|]. split; [|reflexivity].
      apply bits_ext; [rewrite map_length; apply bits_length|]. intros i Hi. rewrite bnot_bit by exact Hi.
      rewrite nth_map by (rewrite bits_length; exact Hi).
      now rewrite nth_bits.
    - rewrite dassert_ok by exact Hp. destruct (with_shl_ok pos (fun v => BOk (castT (Z.lxor d (castT v)), OUnitB)) Hp) as (v & E & B). rewrite E.
      do 2 eexists. split; [reflexivity|]. split; [apply castT_range|]. split; [|reflexivity].
      apply bits_ext; [rewrite upd_length; rewrite bits_length; lia|]. intros i Hi. destruct (B i Hi) as [B1 B2].
      rewrite castT_bit, Z.lxor_spec, B1 by exact Hi. rewrite upd_nth by (rewrite bits_length; lia). unfold bit. rewrite !nth_bits by lia.
      destruct (Z.eqb_spec (Z.of_nat i) pos), (Nat.eqb_spec i (Z.to_nat pos)); try lia; [|now rewrite xorb_false_r].
      subst i. rewrite xorb_true_r. reflexivity.
    - rewrite dassert_ok by exact Hp. destruct (with_shl_ok pos (fun v => BOk (d, OBoolB (negb (Z.land d (castT v) =? 0)))) Hp) as (v & E & B). rewrite E.
      do 2 eexists. split; [reflexivity|]. split; [exact Hd|]. split; [reflexivity|]. f_equal. unfold bit. rewrite nth_bits by lia. rewrite Z2Nat.id by lia.
      assert (X : Z.land d (castT v) = castT (Z.land d (castT v))).
      { unfold BitPatternModel.castT. symmetry. apply Z.mod_small. pose proof (castT_range v) as C. unfold BitPatternModel.castT in C. split; [apply Z.land_nonneg; lia|].
        destruct (Z.eq_dec (Z.land d (v mod 2 ^ w)) 0) as [->|Nz]; [lia|]. apply Z.log2_lt_pow2; [pose proof (Z.land_nonneg d (v mod 2 ^ w)); lia|].
        eapply Z.le_lt_trans; [apply Z.log2_land; lia|]. apply Z.min_lt_iff. left. destruct (Z.eq_dec d 0) as [->|]; [cbn; lia|]. apply Z.log2_lt_pow2; lia. }
      rewrite X, all_zero by apply castT_range. rewrite <- any_forall. apply eq_true_iff_eq. rewrite existsb_exists. split.
      + intros (b & Hb & ->). apply In_nth with (d := false) in Hb as (i & Hi & Hn). rewrite bits_length in Hi. rewrite nth_bits, castT_bit, Z.land_spec in Hn by exact Hi.
        destruct (B i Hi) as [B1 _]. rewrite B1 in Hn. apply andb_true_iff in Hn as [H1 H2]. apply Z.eqb_eq in H2. now rewrite <- H2.
      + intros H. exists true. split; [|reflexivity]. assert (Hi : (Z.to_nat pos < Z.to_nat w)%nat) by lia.
        replace true with (nth (Z.to_nat pos) (bits w (castT (Z.land d (castT v)))) false); [apply nth_In; rewrite bits_length; exact Hi|].
        rewrite nth_bits, castT_bit, Z.land_spec by exact Hi. destruct (B _ Hi) as [B1 _]. rewrite B1. rewrite Z2Nat.id, Z.eqb_refl, H by lia. reflexivity.
    - do 2 eexists. split; [reflexivity|]. split; [exact Hd|]. split; [reflexivity|]. f_equal. apply eq_true_iff_eq.
      rewrite Z.eqb_eq, forallb_nth, bits_length. split.
      + intros -> i Hi. rewrite nth_bits by exact Hi. rewrite bnot_bit, castT_bit by exact Hi. now rewrite Z.testbit_0_l.
      + intros H. apply (eq_bits w); [lia|exact Hd|apply castT_range|]. intros i Hi. specialize (H i Hi). rewrite nth_bits in H by exact Hi.
        rewrite H, bnot_bit, castT_bit by exact Hi. now rewrite Z.testbit_0_l.
    - do 2 eexists. split; [reflexivity|]. split; [exact Hd|]. split; [reflexivity|]. f_equal. rewrite any_forall. now rewrite all_zero.
    - do 2 eexists. split; [reflexivity|]. split; [exact Hd|]. split; [reflexivity|]. f_equal. now rewrite all_zero.
    - do 2 eexists. split; [reflexivity|]. split; [exact Hd|]. split; [reflexivity|]. f_equal. symmetry. apply value_bits; lia.
    - do 2 eexists. split; [reflexivity|]. split; [exact Hd|]. split; [reflexivity|]. f_equal. rewrite bits_length. lia.
    - do 2 eexists. split; [reflexivity|]. split; [apply castT_range|]. split; [now rewrite !bits_length|]. split; [|reflexivity].
      rewrite value_bits; [|lia|apply castT_range]. unfold BitPatternModel.castT. now apply Z.mod_small.
  Qed.

  Theorem b_run_ok dbg os : forall d, 0 <= d < 2 ^ w -> (forall o, In o os -> bpre w o) ->
    exists d' rs, b_run w dbg d os = BOk (d', rs) /\ 0 <= d' < 2 ^ w /\ bspec_run (bits w d) os (bits w d') rs.
  Proof.
    induction os as [|o os IH]; intros d Hd Hp.
    - do 2 eexists. split; [reflexivity|]. split; [exact Hd|constructor].
    - destruct (b_step_ok dbg d o Hd (Hp o (or_introl eq_refl))) as (d1 & r & E & Hd1 & S1).
      destruct (IH d1 Hd1) as (d2 & rs & E2 & Hd2 & S2); [intros; apply Hp; now right|].
      exists d2, (r :: rs). cbn [b_run]. rewrite E, E2. split; [reflexivity|]. split; [exact Hd2|]. econstructor; eauto.
  Qed.
  (** from a list of bits *)
  Theorem b_run_spec dbg l os : Z.of_nat (length l) = w -> (forall o, In o os -> bpre w o) ->
    exists l' rs, length l' = length l /\ b_run w dbg (value l) os = BOk (value l', rs) /\ bspec_run l os l' rs.
  Proof.
    intros L Hp. pose proof (value_bound l) as B. rewrite L in B. destruct (b_run_ok dbg os (value l) B Hp) as (d' & rs & E & Hd' & S).
    exists (bits w d'), rs. rewrite bits_length, value_bits by lia. split; [lia|]. split; [exact E|]. rewrite <- (bits_value l), L. exact S.
  Qed.
  Theorem b_debug_assert d pos o : w <= pos -> (o = BSet pos \/ o = BReset pos \/ o = BFlip pos \/ o = BTest pos) ->
    b_step w true d o = BAssertFail.
  Proof.
    intros H O. assert (X : (pos <? w) = false) by (apply Z.ltb_ge; lia). destruct O as [-> | [-> | [-> | ->]]]; cbn; rewrite X; reflexivity.
  Qed.
End P.
