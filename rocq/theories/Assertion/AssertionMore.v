(** toCString for every buffer size *)
From Coq Require Import String List Arith NArith ZArith Bool Lia.
Import ListNotations.
From Verif Require Import Spec.AssertSpec Assertion.AssertionModel Assertion.AssertionProofs.

Lemma split_at (b : list nat) i : i < length b -> exists b1 c0 b2, b = b1 ++ c0 :: b2 /\ length b1 = i.
Proof.
  intros H. destruct (skipn i b) as [|c0 b2] eqn:Es; [assert (length (skipn i b) = 0) by (now rewrite Es); rewrite skipn_length in *; lia|].
  exists (firstn i b), c0, b2. rewrite <- Es. split; [symmetry; apply firstn_skipn|rewrite firstn_length; lia].
Qed.
Lemma rev_loop_any D C' size : 1 <= size -> forall fuel i b, fuel + i = length D -> i <= size -> length b = size -> firstn i b = firstn i (rev D) ->
  if length D <=? size then exists b', rev_loop fuel i (length D) size b (D ++ C') = Some (b', true) /\ length b' = size /\ firstn (length D) b' = rev D
  else rev_loop fuel i (length D) size b (D ++ C') = Some (firstn (size - 1) (rev D) ++ [0], false).
Proof.
  intros S1. induction fuel as [|fuel IH]; intros i b Hf Li Lb Hi.
  - assert (i = length D) by lia. subst i. destruct (Nat.leb_spec (length D) size) as [L|L]; [|lia]. exists b. split; [reflexivity|]. split; [exact Lb|].
    rewrite Hi, <- rev_length. apply firstn_all.
  - cbn [rev_loop]. destruct (Nat.ltb_spec i size) as [X|X].
    + unfold peek. rewrite nth_error_app1 by lia. destruct (nth_error D (length D - i - 1)) as [c|] eqn:E; [|apply nth_error_None in E; lia].
      assert (Er : nth_error (rev D) i = Some c).
      { apply nth_error_nth with (d := 0) in E. rewrite (nth_error_nth' _ 0) by (rewrite rev_length; lia). rewrite rev_nth by lia. rewrite <- E. f_equal. f_equal. lia. }
      destruct (split_at b i ltac:(lia)) as (b1 & c0 & b2 & -> & L1).
      assert (PK : poke (b1 ++ c0 :: b2) i c = Some (b1 ++ c :: b2)) by (rewrite <- L1; apply poke_app). rewrite PK. apply IH; try lia.
      * rewrite app_length in *. cbn in *. lia.
      * rewrite (firstn_S_nth _ _ _ Er). rewrite <- Hi. replace (S i) with (length (b1 ++ [c])) by (rewrite app_length; cbn; lia).
        replace (b1 ++ c :: b2) with ((b1 ++ [c]) ++ b2) by now rewrite <- app_assoc. rewrite firstn_app, firstn_all, Nat.sub_diag. cbn [firstn]. rewrite app_nil_r.
        rewrite <- L1, firstn_app, firstn_all, Nat.sub_diag. cbn [firstn]. now rewrite app_nil_r.
    + assert (i = size) by lia. subst i. destruct (Nat.leb_spec (length D) size) as [L|L]; [lia|].
      assert (B : b = firstn size (rev D)) by (rewrite <- Hi, <- Lb; symmetry; apply firstn_all).
      destruct (split_at b (size - 1) ltac:(lia)) as (b1 & c0 & b2 & EB & L1).
      assert (b2 = []) by (destruct b2; [reflexivity|]; rewrite EB, app_length in Lb; cbn in Lb; lia). subst b2.
      assert (F : firstn (size - 1) (rev D) = b1).
      { replace (firstn (size - 1) (rev D)) with (firstn (size - 1) (firstn size (rev D))) by (rewrite firstn_firstn; f_equal; lia).
        rewrite <- B, EB, <- L1, firstn_app, firstn_all, Nat.sub_diag. cbn. apply app_nil_r. }
      rewrite EB. assert (PK : poke (b1 ++ [c0]) (size - 1) 0 = Some (b1 ++ [0])) by (rewrite <- L1; apply poke_app). rewrite PK, F. reflexivity.
Qed.

(** the digits that fit, terminated - unless there are exactly as many digits as bytes *)
Theorem toCString_any buf tmp0 val : length tmp0 = 16 -> (1 <= val < 2 ^ 32)%N ->
  exists ls, is_decimal ls val /\
    (buf = [] -> toCString buf (length buf) val tmp0 = Some buf) /\
    (buf <> [] -> length ls <> length buf ->
       exists b, toCString buf (length buf) val tmp0 = Some b /\ length b = length buf /\ c_str b = Some (firstn (length buf - 1) ls)) /\
    (length ls = length buf -> toCString buf (length buf) val tmp0 = None).
Proof.
  intros Lt (V1 & V2).
  destruct (digits_loop_ok 15 0 val [] tmp0) as (D & C' & E & L1 & L2 & V & Dg & Nz & Z); [reflexivity|lia|eapply N.lt_trans; [exact V2|reflexivity]|].
  cbn [app Nat.add] in E. assert (DR : forall c, In c (rev D) -> is_digit c) by (intros c H; apply Dg; now apply in_rev).
  destruct (Nz ltac:(lia)) as [ND LD]. assert (LP : 1 <= length D) by (destruct D; [now elim ND|cbn; lia]).
  assert (CS : cstring (rev D)) by (intros H; apply DR in H; unfold is_digit in H; lia).
  exists (rev D). split; [|split; [|split]].
  - split; [|split; [exact DR|split]].
    + intros H. apply ND. rewrite <- (rev_involutive D), H. reflexivity.
    + intros H. exfalso. destruct (exists_last ND) as (D1 & e & ->). rewrite rev_app_distr in H. cbn in H. rewrite last_last in LD. congruence.
    + now rewrite dec_value_rev.
  - intros ->. reflexivity.
  - intros NB NE. rewrite rev_length in NE. assert (S1 : 1 <= length buf) by (destruct buf; [now elim NB|cbn; lia]).
    assert (R := rev_loop_any D C' (length buf) S1 (length D) 0 buf ltac:(lia) ltac:(lia) eq_refl eq_refl).
    unfold toCString. destruct (Nat.eqb_spec (length buf) 0) as [X|_]; [lia|]. change (TMP_SIZE - 1) with 15. rewrite E.
    destruct (Nat.leb_spec (length D) (length buf)) as [L|L].
    + destruct R as (b' & R1 & R2 & R3). rewrite R1. destruct (split_at b' (length D) ltac:(lia)) as (b1 & c0 & b2 & -> & LB).
      assert (PK : poke (b1 ++ c0 :: b2) (length D) 0 = Some (b1 ++ 0 :: b2)) by (rewrite <- LB; apply poke_app). rewrite PK. exists (b1 ++ 0 :: b2). split; [reflexivity|]. rewrite app_length in *. cbn [length] in *. split; [lia|].
      assert (F : b1 = rev D) by (rewrite <- R3, <- LB, firstn_app, firstn_all, Nat.sub_diag; cbn; now rewrite app_nil_r). subst b1.
      rewrite c_str_app by exact CS. f_equal. symmetry. apply firstn_all2. rewrite rev_length. lia.
    + rewrite R. eexists. split; [reflexivity|]. split; [rewrite app_length, firstn_length, rev_length; cbn; lia|].
      apply c_str_app. now apply cstring_firstn.
  - intros LE. rewrite rev_length in LE. assert (S1 : 1 <= length buf) by lia.
    assert (R := rev_loop_any D C' (length buf) S1 (length D) 0 buf ltac:(lia) ltac:(lia) eq_refl eq_refl).
    unfold toCString. destruct (Nat.eqb_spec (length buf) 0) as [X|_]; [lia|]. change (TMP_SIZE - 1) with 15. rewrite E.
    destruct (Nat.leb_spec (length D) (length buf)) as [L|L]; [|lia]. destruct R as (b' & R1 & R2 & R3). rewrite R1. unfold poke.
    destruct (Nat.ltb_spec (length D) (length b')); [lia|reflexivity].
Qed.
(** copyCString into any room [C] behind any text [A]: the text is untouched, the room holds the string truncated and terminated; the result
    is its length.  Without room nothing is written *)
Theorem copyCString_any A C s junk : cstring s ->
  exists C', copyCString (A ++ C) (length A) (length C) (s ++ 0 :: junk) = Some (A ++ C', min (length s) (length C - 1)) /\
    length C' = length C /\ (C <> [] -> c_str C' = Some (firstn (length C - 1) s)).
Proof.
  intros HS. destruct C as [|c C].
  - exists []. cbn. rewrite Nat.min_0_r. repeat split. intros H. now elim H.
  - destruct (copyCString_ok s junk A (c :: C) HS ltac:(cbn; lia)) as (rest & E & L). exists (firstn (length (c :: C) - 1) s ++ 0 :: rest).
    rewrite E. split; [|split].
    + f_equal. f_equal. f_equal. f_equal. destruct (Nat.le_gt_cases (length s) (length (c :: C) - 1)).
      * rewrite Nat.min_l, firstn_all, firstn_all2 by lia. reflexivity.
      * now rewrite Nat.min_r by lia.
    + rewrite app_length, firstn_length. cbn [length] in *. lia.
    + intros _. apply c_str_app. now apply cstring_firstn.
Qed.
