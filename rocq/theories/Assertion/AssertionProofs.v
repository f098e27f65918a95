From Coq Require Import String List Arith NArith ZArith Bool Lia.
Import ListNotations.
From Verif Require Import Spec.AssertSpec Assertion.AssertionModel.

Lemma poke_app A c C x : poke (A ++ c :: C) (length A) x = Some (A ++ x :: C).
Proof.
  unfold poke. rewrite app_length. cbn [length]. assert (X : (length A <? length A + S (length C)) = true) by (apply Nat.ltb_lt; lia). rewrite X.
  f_equal. rewrite firstn_app, firstn_all, Nat.sub_diag. cbn [firstn]. rewrite app_nil_r. f_equal. f_equal.
  replace (S (length A)) with (length (A ++ [c])) by (rewrite app_length; cbn; lia).
  replace (A ++ c :: C) with ((A ++ [c]) ++ C) by (now rewrite <- app_assoc). rewrite skipn_app, skipn_all, Nat.sub_diag. reflexivity.
Qed.
Lemma firstn_S_nth (l : list nat) i c : nth_error l i = Some c -> firstn (S i) l = firstn i l ++ [c].
Proof.
  revert i. induction l as [|x l IH]; intros [|i] H; try discriminate; cbn in *.
  - now injection H as ->.
  - f_equal. now apply IH.
Qed.

(** copyCString *)
Lemma copy_loop_ok S junk A size : forall fuel i C,
  cstring S -> 1 <= size -> fuel + i = size -> length C = fuel -> i <= length S ->
  exists rest, copy_loop fuel i size (A ++ firstn i S ++ C) (length A) (S ++ 0 :: junk) =
    Some (A ++ firstn (min (length S) (size - 1)) S ++ 0 :: rest, min (length S) (size - 1)) /\
    length rest = size - 1 - min (length S) (size - 1).
Proof.
  induction fuel as [|fuel IH]; intros i C HS Hs Hf HC Hi.
  - assert (i = size) by lia. subst i. destruct C; [|discriminate]. cbn [copy_loop].
    rewrite Nat.min_r by lia. destruct (nth_error S (size - 1)) as [c|] eqn:E; [|apply nth_error_None in E; lia].
    replace (firstn size S) with (firstn (Datatypes.S (size - 1)) S) by (f_equal; lia). rewrite (firstn_S_nth _ _ _ E).
    replace (A ++ (firstn (size - 1) S ++ [c]) ++ []) with ((A ++ firstn (size - 1) S) ++ c :: []) by (rewrite app_nil_r, <- app_assoc; reflexivity).
    replace (length A + (size - 1)) with (length (A ++ firstn (size - 1) S)) by (rewrite app_length, firstn_length; lia).
    rewrite poke_app. exists []. rewrite <- app_assoc. split; [reflexivity|cbn; lia].
  - destruct C as [|c0 C]; [discriminate|]. cbn [length] in HC. cbn [copy_loop]. unfold peek.
    replace (A ++ firstn i S ++ c0 :: C) with ((A ++ firstn i S) ++ c0 :: C) by now rewrite <- app_assoc.
    replace (length A + i) with (length (A ++ firstn i S)) by (rewrite app_length, firstn_length; lia).
    destruct (Nat.eq_dec i (length S)) as [E|N].
    + rewrite nth_error_app2 by lia. rewrite E, Nat.sub_diag. cbn [nth_error]. rewrite poke_app. cbn [Nat.eqb].
      exists C. rewrite Nat.min_l by lia. rewrite <- app_assoc. split; [|lia]. f_equal.
    + rewrite nth_error_app1 by lia. destruct (nth_error S i) as [c|] eqn:E; [|apply nth_error_None in E; lia].
      rewrite poke_app. assert (Z : (c =? 0) = false). { apply Nat.eqb_neq. intros ->. apply HS. apply nth_error_In with (n := i). exact E. }
      rewrite Z. replace ((A ++ firstn i S) ++ c :: C) with (A ++ firstn (Datatypes.S i) S ++ C)
        by (rewrite (firstn_S_nth _ _ _ E), <- !app_assoc; reflexivity).
      apply IH; auto; lia.
Qed.
Lemma copyCString_ok S junk A C : cstring S -> 1 <= length C ->
  exists rest, copyCString (A ++ C) (length A) (length C) (S ++ 0 :: junk) =
    Some (A ++ firstn (min (length S) (length C - 1)) S ++ 0 :: rest, min (length S) (length C - 1)) /\
    length rest = length C - 1 - min (length S) (length C - 1).
Proof.
  intros HS HC. unfold copyCString. assert (X : (length C =? 0) = false) by (apply Nat.eqb_neq; lia). rewrite X.
  apply (copy_loop_ok S junk A (length C) (length C) 0 C); auto; lia.
Qed.

(** concatCString: the buffer holds the text X so far, truncated *)
Definition cinv (B : nat) (X : list nat) (st : option (list nat * nat * nat)) : Prop :=
  exists rest, st = Some (firstn (B - 1) X ++ 0 :: rest, min (length X) (B - 1), B - min (length X) (B - 1)) /\
    length rest = B - 1 - min (length X) (B - 1).
Lemma concat_ok B X S junk st : 1 <= B -> cstring S -> cinv B X st -> cinv B (X ++ S) (concatCString st (S ++ 0 :: junk)).
Proof.
  intros HB HS (rest & -> & Hr). unfold concatCString.
  set (p := min (length X) (B - 1)) in *.
  destruct (B - p <=? 1) eqn:E.
  - apply Nat.leb_le in E. exists rest. rewrite app_length. rewrite Nat.min_r by lia.
    assert (p = B - 1) by lia. rewrite firstn_app. replace (B - 1 - length X) with 0 by lia. cbn [firstn]. rewrite app_nil_r.
    rewrite H. split; [reflexivity|lia].
  - apply Nat.leb_gt in E. assert (LX : length X < B - 1) by lia. assert (Ep : p = length X) by lia.
    rewrite (firstn_all2 X) by lia.
    destruct (copyCString_ok S junk X (0 :: rest) HS) as (rest' & Ec & Hr'); [cbn; lia|].
    assert (L : length (0 :: rest) = B - length X) by (cbn; lia).
    rewrite L in Ec, Hr'. rewrite Ep. rewrite Ec. exists rest'. rewrite app_length.
    replace (B - length X - 1) with (B - 1 - length X) in * by lia.
    replace (min (length X + length S) (B - 1)) with (length X + min (length S) (B - 1 - length X)) by lia.
    split; [|lia]. f_equal. f_equal; [f_equal|lia]. rewrite firstn_app, (firstn_all2 X) by lia. rewrite <- app_assoc. f_equal. f_equal.
    destruct (Nat.le_gt_cases (length S) (B - 1 - length X)).
    + rewrite Nat.min_l, firstn_all, firstn_all2 by lia. reflexivity.
    + now rewrite Nat.min_r by lia.
Qed.

(** toCString *)
Fixpoint le_value (D : list nat) : N := match D with [] => 0 | c :: D' => N.of_nat (c - 48) + 10 * le_value D' end%N.
Lemma dec_value_rev D : dec_value (rev D) = le_value D.
Proof.
  unfold dec_value. rewrite <- fold_left_rev_right, rev_involutive. induction D as [|c D IH]; cbn [fold_right le_value]; [reflexivity|]. rewrite IH. lia.
Qed.
Lemma digits_loop_ok : forall fuel i val T C, length T = i -> fuel <= length C -> (val < 10 ^ N.of_nat fuel)%N ->
  exists D C', digits_loop fuel i val (T ++ C) = Some (T ++ D ++ C', i + length D) /\ length D <= fuel /\
    length (D ++ C') = length C /\ le_value D = val /\ (forall c, In c D -> is_digit c) /\ (val <> 0%N -> D <> [] /\ last D 0 <> 48) /\ (val = 0%N -> D = []).
Proof.
  induction fuel as [|fuel IH]; intros i val T C HT HC HV.
  - exists [], C. cbn in *. assert (val = 0%N) by lia. subst val. split; [now rewrite Nat.add_0_r|]. repeat split; auto; try lia; try tauto; congruence.
  - cbn [digits_loop]. destruct (N.eqb_spec val 0) as [->|N0].
    + exists [], C. split; [now rewrite Nat.add_0_r|]. cbn. repeat split; auto; try lia; try tauto; congruence.
    + destruct C as [|c0 C]; [cbn in HC; lia|]. rewrite <- HT. rewrite poke_app.
      set (c := 48 + N.to_nat (val mod 10)). replace (T ++ c :: C) with ((T ++ [c]) ++ C) by now rewrite <- app_assoc.
      destruct (IH (S (length T)) (val / 10)%N (T ++ [c]) C) as (D & C' & E & L1 & L2 & V & Dg & Nz & Z).
      * rewrite app_length. cbn. lia.
      * cbn in HC. lia.
      * rewrite Nat2N.inj_succ, N.pow_succ_r in HV by lia. apply N.div_lt_upper_bound; lia.
      * exists (c :: D), C'. rewrite E. split; [f_equal; f_equal; [now rewrite <- app_assoc|cbn; lia]|].
        split; [cbn; lia|]. split; [cbn in *; lia|].
        assert (M : (val mod 10 < 10)%N) by (apply N.mod_lt; lia).
        split; [|split; [|split]].
        -- cbn [le_value]. rewrite V. unfold c. rewrite (Nat.add_comm 48), Nat.add_sub, N2Nat.id.
           pose proof (N.div_mod val 10 ltac:(lia)). lia.
        -- intros x [<-|H]; [unfold is_digit, c; generalize dependent (val mod 10)%N; clear; intros; lia|auto].
        -- intros _. split; [discriminate|]. destruct (N.eq_dec (val / 10) 0) as [E0|E0].
           ++ rewrite (Z E0). cbn [last]. unfold c. pose proof (N.div_mod val 10 ltac:(lia)) as DM. rewrite E0 in DM. revert DM M N0. generalize (val mod 10)%N. clear. intros; lia.
           ++ destruct (Nz E0) as [ND LD]. destruct D as [|d D]; [congruence|]. exact LD.
        -- congruence.
Qed.
Lemma rev_loop_ok D C' : forall fuel i b, length D <= 15 -> fuel + i = length D -> length b = 16 -> firstn i b = firstn i (rev D) ->
  exists b', rev_loop fuel i (length D) 16 b (D ++ C') = Some (b', true) /\ length b' = 16 /\ firstn (length D) b' = rev D.
Proof.
  induction fuel as [|fuel IH]; intros i b LD Hf Lb Hi.
  - exists b. cbn. assert (i = length D) by lia. subst i. split; [reflexivity|]. split; [exact Lb|]. rewrite Hi, <- rev_length. apply firstn_all.
  - cbn [rev_loop]. assert (X : (i <? 16) = true) by (apply Nat.ltb_lt; lia). rewrite X. unfold peek. rewrite nth_error_app1 by lia.
    destruct (nth_error D (length D - i - 1)) as [c|] eqn:E; [|apply nth_error_None in E; lia].
    assert (Er : nth_error (rev D) i = Some c).
    { apply nth_error_nth with (d := 0) in E. rewrite (nth_error_nth' _ 0) by (rewrite rev_length; lia). rewrite rev_nth by lia. rewrite <- E. f_equal. f_equal. lia. }
    assert (Hb : exists b1 c0 b2, b = b1 ++ c0 :: b2 /\ length b1 = i).
    { destruct (skipn i b) as [|c0 b2] eqn:Es; [assert (length (skipn i b) = 0) by (now rewrite Es); rewrite skipn_length in *; lia|].
      exists (firstn i b), c0, b2. rewrite <- Es. split; [symmetry; apply firstn_skipn|rewrite firstn_length; lia]. }
    destruct Hb as (b1 & c0 & b2 & -> & L1). assert (PK : poke (b1 ++ c0 :: b2) i c = Some (b1 ++ c :: b2)) by (rewrite <- L1; apply poke_app). rewrite PK. apply IH; auto; try lia.
    + rewrite app_length in *. cbn in *. lia.
    + rewrite (firstn_S_nth _ _ _ Er). rewrite <- Hi. replace (S i) with (length (b1 ++ [c])) by (rewrite app_length; cbn; lia).
      replace (b1 ++ c :: b2) with ((b1 ++ [c]) ++ b2) by now rewrite <- app_assoc. rewrite firstn_app, firstn_all, Nat.sub_diag. cbn [firstn]. rewrite app_nil_r.
      rewrite <- L1, firstn_app, firstn_all, Nat.sub_diag. cbn [firstn]. now rewrite app_nil_r.
Qed.
(** lineBuf holds the digits, terminated *)
Lemma toCString_ok lineBuf0 tmp0 val : length lineBuf0 = 16 -> length tmp0 = 16 -> (val < 2 ^ 32)%N ->
  exists ls junk, toCString lineBuf0 16 val tmp0 = Some (ls ++ 0 :: junk) /\ cstring ls /\
    (val <> 0%N -> is_decimal ls val) /\ (val = 0%N -> ls = []).
Proof.
  intros Lb Lt Hv. unfold toCString. change (16 =? 0) with false. cbv iota. change (TMP_SIZE - 1) with 15.
  destruct (digits_loop_ok 15 0 val [] tmp0) as (D & C' & E & L1 & L2 & V & Dg & Nz & Z); [reflexivity|lia|eapply N.lt_trans; [exact Hv|reflexivity]|].
  cbn [app Nat.add] in E. rewrite E. destruct (rev_loop_ok D C' (length D) 0 lineBuf0) as (b' & E2 & Lb' & Fb); auto; try lia.
  rewrite E2. assert (Hb : exists c0 b2, b' = rev D ++ c0 :: b2).
  { destruct (skipn (length D) b') as [|c0 b2] eqn:Es; [assert (length (skipn (length D) b') = 0) by (now rewrite Es); rewrite skipn_length in *; lia|].
    exists c0, b2. rewrite <- Es, <- Fb. symmetry. apply firstn_skipn. }
  destruct Hb as (c0 & b2 & ->). rewrite <- (rev_length D). rewrite poke_app. exists (rev D), b2. split; [reflexivity|].
  assert (DR : forall c, In c (rev D) -> is_digit c) by (intros c H; apply Dg; now apply in_rev).
  split; [|split].
  - intros H. apply DR in H. unfold is_digit in H. lia.
  - intros N0. destruct (Nz N0) as [ND LD]. split; [|split; [exact DR|split]].
    + intros H. apply ND. rewrite <- (rev_involutive D), H. reflexivity.
    + intros H. exfalso. destruct (exists_last ND) as (D1 & e & ->). rewrite rev_app_distr in H. cbn in H. rewrite last_last in LD. congruence.
    + now rewrite dec_value_rev.
  - intros H. rewrite (Z H). reflexivity.
Qed.

Lemma c_str_app s rest : cstring s -> c_str (s ++ 0 :: rest) = Some s.
Proof.
  induction s as [|c s IH]; cbn; [reflexivity|]. intros H. assert (N : (c =? 0) = false) by (apply Nat.eqb_neq; intros ->; apply H; now left).
  rewrite N, IH; [reflexivity|]. intros X. apply H. now right.
Qed.
Lemma cstring_app a b : cstring a -> cstring b -> cstring (a ++ b).
Proof. unfold cstring. intros H1 H2 H. apply in_app_or in H. tauto. Qed.
Lemma cstring_firstn n a : cstring a -> cstring (firstn n a).
Proof. unfold cstring. intros H X. apply H. rewrite <- (firstn_skipn n a). apply in_or_app. now left. Qed.
Lemma cstring_lit1 : cstring (chars "(") /\ cstring (chars "): Assertion failed (") /\ cstring (chars ")").
Proof. repeat split; cbn; intros H; repeat destruct H as [H|H]; try discriminate; auto. Qed.
Lemma to_unsigned_lt line : (to_unsigned line < 2 ^ 32)%N.
Proof. unfold to_unsigned. pose proof (Z.mod_pos_bound line (2 ^ 32) ltac:(lia)). lia. Qed.

Theorem failure_message bufsize lineBuf0 tmp0 file line expr :
  1 <= bufsize -> length lineBuf0 = 16 -> length tmp0 = 16 -> cstring file -> cstring expr ->
  exists buf ls, failure_buf bufsize lineBuf0 tmp0 file line expr = Some buf /\ length buf = bufsize /\
    (to_unsigned line <> 0%N -> is_decimal ls (to_unsigned line)) /\ (to_unsigned line = 0%N -> ls = []) /\
    c_str buf = Some (firstn (bufsize - 1) (full_message file ls expr)).
Proof.
  intros HB Lb Lt Hf He. unfold failure_buf.
  destruct (toCString_ok lineBuf0 tmp0 (to_unsigned line) Lb Lt (to_unsigned_lt line)) as (ls & junk & E & Cl & D1 & D2). rewrite E.
  destruct cstring_lit1 as (C1 & C2 & C3).
  assert (I0 : cinv bufsize [] (Some (repeat 0 bufsize, 0, bufsize))).
  { exists (repeat 0 (bufsize - 1)). rewrite repeat_length. cbn [length Nat.min]. rewrite firstn_nil. cbn [app].
    replace (repeat 0 bufsize) with (0 :: repeat 0 (bufsize - 1)) by (change (0 :: repeat 0 (bufsize - 1)) with (repeat 0 (S (bufsize - 1))); f_equal; lia).
    rewrite !Nat.sub_0_r. auto. }
  pose proof (concat_ok _ _ _ [] _ HB Hf I0) as I1.
  pose proof (concat_ok _ _ _ [] _ HB C1 I1) as I2.
  pose proof (concat_ok _ _ _ junk _ HB Cl I2) as I3.
  pose proof (concat_ok _ _ _ [] _ HB C2 I3) as I4.
  pose proof (concat_ok _ _ _ [] _ HB He I4) as I5.
  pose proof (concat_ok _ _ _ [] _ HB C3 I5) as I6.
  destruct I6 as (rest & Es & Lr). rewrite Es. eexists. exists ls. split; [reflexivity|]. split.
  - rewrite app_length, firstn_length. cbn [length]. lia.
  - split; [exact D1|]. split; [exact D2|]. rewrite c_str_app.
    + f_equal. f_equal. unfold full_message. cbn [app]. rewrite <- !app_assoc. reflexivity.
    + apply cstring_firstn. repeat apply cstring_app; auto. intros [].
Qed.

(** dispatch *)
Definition current (pre : list acall) (h : option nat) : option nat :=
  fold_left (fun h c => match c with ASetHandler h' => h' | ACheck _ _ => h end) pre h.
Lemma a_run_at nox beh : forall pre h c post,
  (forall ev r, In (ev, r) (a_run nox beh h pre) -> r <> ANoReturn) ->
  nth_error (a_run nox beh h (pre ++ c :: post)) (length pre) =
  Some (snd (fst (a_step nox beh (current pre h) c)), snd (a_step nox beh (current pre h) c)).
Proof.
  induction pre as [|p pre IH]; intros h c post H.
  - cbn [app a_run length]. destruct (a_step nox beh h c) as [[h' ev] r] eqn:E. cbn. now rewrite E.
  - cbn [app a_run length nth_error]. cbn [a_run] in H. destruct (a_step nox beh h p) as [[h' ev] r] eqn:E.
    assert (Hr : r <> ANoReturn) by (apply (H ev r); now left).
    assert (Hc : h' = match p with ASetHandler x => x | ACheck _ _ => h end).
    { destruct p as [x|[] msg]; cbn in E; [congruence|congruence|]. unfold assert_fail in E. destruct h; injection E; intros; subst; reflexivity. }
    cbn [nth_error]. cbn [current fold_left]. rewrite <- Hc.
    replace (match r with ANoReturn => [] | _ => a_run nox beh h' (pre ++ c :: post) end) with (a_run nox beh h' (pre ++ c :: post)) by (destruct r; congruence).
    apply IH. intros ev' r' Hi. apply (H ev' r'). right. destruct r; try congruence; exact Hi.
Qed.
Lemma to_unsigned_pos line : (1 <= line < 2 ^ 32)%Z -> to_unsigned line = Z.to_N line /\ to_unsigned line <> 0%N.
Proof. intros H. unfold to_unsigned. rewrite Z.mod_small by lia. split; [reflexivity|lia]. Qed.
Theorem failure_message_line bufsize lineBuf0 tmp0 file line expr :
  1 <= bufsize -> length lineBuf0 = 16 -> length tmp0 = 16 -> cstring file -> cstring expr -> (1 <= line < 2 ^ 31)%Z ->
  exists buf ls, failure_buf bufsize lineBuf0 tmp0 file line expr = Some buf /\ length buf = bufsize /\
    is_decimal ls (Z.to_N line) /\ c_str buf = Some (firstn (bufsize - 1) (full_message file ls expr)).
Proof.
  intros HB Lb Lt Hf He Hl. destruct (failure_message bufsize lineBuf0 tmp0 file line expr HB Lb Lt Hf He) as (buf & ls & E & L & D1 & _ & C).
  destruct (to_unsigned_pos line) as [U1 U2]; [lia|]. exists buf, ls. rewrite <- U1. auto.
Qed.
Theorem failure_safe bufsize lineBuf0 tmp0 file line expr :
  1 <= bufsize -> length lineBuf0 = 16 -> length tmp0 = 16 -> cstring file -> cstring expr ->
  exists buf s, failure_buf bufsize lineBuf0 tmp0 file line expr = Some buf /\ length buf = bufsize /\ c_str buf = Some s /\ length s < bufsize.
Proof.
  intros HB Lb Lt Hf He. destruct (failure_message bufsize lineBuf0 tmp0 file line expr HB Lb Lt Hf He) as (buf & ls & E & L & _ & _ & C).
  exists buf. eexists. split; [exact E|]. split; [exact L|]. split; [exact C|]. rewrite firstn_length. lia.
Qed.
Theorem line_decimal lineBuf0 tmp0 line :
  length lineBuf0 = 16 -> length tmp0 = 16 -> (1 <= line < 2 ^ 32)%Z ->
  exists ls junk, toCString lineBuf0 16 (to_unsigned line) tmp0 = Some (ls ++ 0 :: junk) /\ is_decimal ls (Z.to_N line).
Proof.
  intros Lb Lt Hl. destruct (toCString_ok lineBuf0 tmp0 (to_unsigned line) Lb Lt (to_unsigned_lt line)) as (ls & junk & E & _ & D & _).
  destruct (to_unsigned_pos line Hl) as [U1 U2]. exists ls, junk. split; [exact E|]. rewrite <- U1. auto.
Qed.
Theorem line_zero lineBuf0 tmp0 : length lineBuf0 = 16 -> length tmp0 = 16 ->
  exists buf, toCString lineBuf0 16 (to_unsigned 0) tmp0 = Some buf /\ c_str buf = Some [] /\ ~ is_decimal [] 0%N.
Proof.
  intros Lb Lt. destruct (toCString_ok lineBuf0 tmp0 (to_unsigned 0) Lb Lt (to_unsigned_lt 0)) as (ls & junk & E & _ & _ & D).
  rewrite (D eq_refl) in E. eexists. split; [exact E|]. split; [reflexivity|]. intros [H _]. congruence.
Qed.
Theorem failing_check nox beh pre post msg :
  (forall ev r, In (ev, r) (a_run nox beh None pre) -> r <> ANoReturn) ->
  nth_error (a_run nox beh None (pre ++ ACheck false msg :: post)) (length pre) =
  Some (match current pre None with
        | None => ([], if nox then AContinue else AThrowFailure msg)
        | Some h => ([ECall h msg],
                     match beh h with
                     | HReturns => if nox then AContinue else AThrowFailure msg
                     | HThrows e => AThrowHandler e
                     | HNever => ANoReturn
                     end)
        end).
Proof.
  intros H. rewrite (a_run_at nox beh pre None (ACheck false msg) post H). cbn. unfold assert_fail.
  destruct (current pre None); reflexivity.
Qed.
Theorem continues_only_if nox beh pre post msg ev :
  (forall ev r, In (ev, r) (a_run nox beh None pre) -> r <> ANoReturn) ->
  nth_error (a_run nox beh None (pre ++ ACheck false msg :: post)) (length pre) = Some (ev, AContinue) ->
  nox = true /\ (current pre None = None \/ exists h, current pre None = Some h /\ beh h = HReturns).
Proof.
  intros H. rewrite (failing_check nox beh pre post msg H). destruct (current pre None) as [h|].
  - destruct (beh h) eqn:E; destruct nox; try discriminate. intros _. split; [reflexivity|]. right. eauto.
  - destruct nox; try discriminate. auto.
Qed.
Theorem passing_check nox beh pre post msg :
  (forall ev r, In (ev, r) (a_run nox beh None pre) -> r <> ANoReturn) ->
  nth_error (a_run nox beh None (pre ++ ACheck true msg :: post)) (length pre) = Some ([], AContinue) /\
  firstn (length pre) (a_run nox beh None (pre ++ ACheck true msg :: post)) ++ skipn (S (length pre)) (a_run nox beh None (pre ++ ACheck true msg :: post)) =
  a_run nox beh None (pre ++ post).
Proof.
  intros H. split; [now rewrite (a_run_at nox beh pre None (ACheck true msg) post H)|].
  revert H. generalize (@None nat) as h. induction pre as [|p pre IH]; intros h H.
  - reflexivity.
  - cbn [app a_run length firstn skipn] in *. destruct (a_step nox beh h p) as [[h' ev] r] eqn:E.
    assert (Hr : r <> ANoReturn) by (apply (H ev r); now left). cbn [firstn skipn app].
    f_equal.
    replace (match r with ANoReturn => [] | _ => a_run nox beh h' (pre ++ ACheck true msg :: post) end) with (a_run nox beh h' (pre ++ ACheck true msg :: post)) by (destruct r; congruence).
    replace (match r with ANoReturn => [] | _ => a_run nox beh h' (pre ++ post) end) with (a_run nox beh h' (pre ++ post)) by (destruct r; congruence).
    apply IH. intros ev' r' Hi. apply (H ev' r'). right. destruct r; try congruence; exact Hi.
Qed.
