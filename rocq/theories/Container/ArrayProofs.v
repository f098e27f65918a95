From Coq Require Import List ZArith Bool Lia.
Import ListNotations.
From Verif Require Import Base.ZList Spec.Exn Container.ArrayModel.
Open Scope Z_scope.

Section P.
  Context {V : Type}.
  Variable Size : Z.
  Variable m : list V.
  Hypothesis HL : Z.of_nat (length m) = Size.

  Lemma load_ok p d : 0 <= p < Size -> a_load m p = ArrOk (nth (Z.to_nat p) m d).
  Proof.
    intros H. unfold a_load. assert (X : (p <? 0) = false) by (apply Z.ltb_ge; lia). rewrite X.
    rewrite (nth_error_nth' m d) by lia. reflexivity.
  Qed.
  Theorem at_ok idx d : 0 <= idx -> arr_at Size m idx = if idx <? Size then ArrOk (nth (Z.to_nat idx) m d) else ArrThrow OutOfRange.
  Proof.
    intros H. unfold arr_at, arr_size, arr_begin. destruct (Z.ltb_spec idx Size) as [L|L].
    - assert (X : (Size <=? idx) = false) by (apply Z.leb_gt; lia). rewrite X. cbn [Z.add]. apply load_ok. lia.
    - assert (X : (Size <=? idx) = true) by (apply Z.leb_le; lia). now rewrite X.
  Qed.
  Theorem index_ok idx d : 0 <= idx < Size -> arr_index m idx = ArrOk (nth (Z.to_nat idx) m d).
  Proof. intros H. unfold arr_index, arr_begin. cbn [Z.add]. now apply load_ok. Qed.
  Theorem iteration_ok d :
    arr_size Size = Z.of_nat (length m) /\ arr_empty Size = match m with [] => true | _ => false end /\
    arr_end Size - arr_begin = Z.of_nat (length m) /\
    forall k, (k < length m)%nat -> a_load m (arr_begin + Z.of_nat k) = ArrOk (nth k m d).
  Proof.
    unfold arr_size, arr_end, arr_begin, arr_empty, arr_size. repeat split; try lia.
    - destruct m; cbn [length] in HL; [|rewrite <- HL]; [subst Size; reflexivity|]. apply Z.eqb_neq. lia.
    - intros k Hk. cbn [Z.add]. rewrite (load_ok (Z.of_nat k) d) by lia. rewrite Nat2Z.id. reflexivity.
  Qed.
  Theorem front_back_ok d : 0 < Size -> arr_front m = ArrOk (hd d m) /\ arr_back Size m = ArrOk (last m d).
  Proof.
    intros H. split.
    - unfold arr_front, arr_begin. rewrite (load_ok 0 d) by lia. destruct m; [cbn in HL; lia|reflexivity].
    - unfold arr_back, arr_end, arr_size. rewrite (load_ok (Size - 1) d) by lia. f_equal.
      assert (N : m <> []) by (intros E; rewrite E in HL; cbn in HL; lia). destruct (exists_last N) as (l & e & E). 
      assert (HL' : Z.of_nat (length (l ++ [e])) = Size) by (rewrite <- E; exact HL). rewrite app_length in HL'. cbn in HL'.
      rewrite E, last_last. rewrite app_nth2 by lia. replace (Z.to_nat (Size - 1) - length l)%nat with 0%nat by lia. reflexivity.
  Qed.
End P.
Section F.
  Context {V : Type}.
  Variable Size : Z.
  Lemma fill_loop_ok d : forall fuel (rest : list V) i, Z.of_nat (i + length rest) = Size -> (length rest <= fuel)%nat ->
    fill_loop Size fuel (repeat d i ++ rest) (Z.of_nat i) d = ArrOk (repeat d (i + length rest)).
  Proof.
    induction fuel as [|fuel IH]; intros rest i HL HF.
    - destruct rest; [|cbn in HF; lia]. cbn [length] in *. cbn [fill_loop]. assert (X : (Z.of_nat i <? arr_end Size) = false) by (apply Z.ltb_ge; unfold arr_end, arr_size; lia).
      rewrite X, app_nil_r. now rewrite Nat.add_0_r.
    - destruct rest as [|r rest].
      + cbn [length] in *. cbn [fill_loop]. assert (X : (Z.of_nat i <? arr_end Size) = false) by (apply Z.ltb_ge; unfold arr_end, arr_size; lia).
        rewrite X, app_nil_r. now rewrite Nat.add_0_r.
      + cbn [length] in *. cbn [fill_loop]. assert (X : (Z.of_nat i <? arr_end Size) = true) by (apply Z.ltb_lt; unfold arr_end, arr_size; lia). rewrite X.
        unfold a_store. assert (Y : (Z.of_nat i <? 0) || (Size <=? Z.of_nat i) = false) by (apply orb_false_iff; split; [apply Z.ltb_ge; lia|apply Z.leb_gt; lia]).
        rewrite Y. rewrite Nat2Z.id. assert (Lr : length (repeat d i) = i) by apply repeat_length.
        assert (E1 : firstn i (repeat d i ++ r :: rest) = repeat d i).
        { rewrite firstn_app, Lr, Nat.sub_diag. cbn [firstn]. rewrite app_nil_r. apply firstn_all2. lia. }
        assert (E2 : skipn (S i) (repeat d i ++ r :: rest) = rest).
        { rewrite skipn_app, Lr. rewrite skipn_all2 by lia. replace (S i - i)%nat with 1%nat by lia. reflexivity. }
        rewrite E1, E2. replace (repeat d i ++ d :: rest) with (repeat d (S i) ++ rest).
        * replace (Z.of_nat i + 1) with (Z.of_nat (S i)) by lia. rewrite IH by lia. f_equal. f_equal. lia.
        * replace (d :: rest) with ([d] ++ rest) by reflexivity. rewrite app_assoc. f_equal. change [d] with (repeat d 1). rewrite <- repeat_app. f_equal. lia.
  Qed.
  Theorem fill_ok (m : list V) d fuel : Z.of_nat (length m) = Size -> (length m <= fuel)%nat ->
    arr_fill Size fuel m d = ArrOk (repeat d (length m)).
  Proof. intros. apply (fill_loop_ok d fuel m 0); auto. Qed.

  Variable eqb : V -> V -> bool.
  Hypothesis Heq : forall a b, eqb a b = true <-> a = b.
  Lemma eq_loop_ok : forall fuel (px x py y : list V), length px = length py -> length x = length y ->
    Z.of_nat (length px + length x) = Size -> (length x <= fuel)%nat ->
    exists b, eq_loop Size eqb fuel (px ++ x) (py ++ y) (Z.of_nat (length px)) = ArrOk b /\ (b = true <-> x = y).
  Proof.
    induction fuel as [|fuel IH]; intros px x py y L1 L2 L3 L4.
    - destruct x; [|cbn in L4; lia]. destruct y; [|discriminate]. cbn [length] in *. cbn [eq_loop].
      assert (X : (Z.of_nat (length px) <? Size) = false) by (apply Z.ltb_ge; lia). rewrite X. exists true. tauto.
    - destruct x as [|a x], y as [|b y]; try discriminate.
      + cbn [length] in *. cbn [eq_loop]. assert (X : (Z.of_nat (length px) <? Size) = false) by (apply Z.ltb_ge; lia). rewrite X. exists true. tauto.
      + cbn [length] in *. cbn [eq_loop]. assert (X : (Z.of_nat (length px) <? Size) = true) by (apply Z.ltb_lt; lia). rewrite X.
        unfold arr_index, arr_begin, a_load. cbn [Z.add]. assert (Y : (Z.of_nat (length px) <? 0) = false) by (apply Z.ltb_ge; lia).
        rewrite Y, Nat2Z.id.
        rewrite nth_error_app2, Nat.sub_diag by lia. rewrite (nth_error_app2 py) by lia. rewrite L1, Nat.sub_diag. cbn [nth_error].
        destruct (eqb a b) eqn:E; cbn [negb].
        * apply Heq in E. subst b. destruct (IH (px ++ [a]) x (py ++ [a]) y) as (r & E1 & E2).
          { rewrite !app_length. cbn. lia. } { lia. } { rewrite app_length. cbn. lia. } { lia. }
          exists r. rewrite <- !app_assoc in E1. cbn [app] in E1. rewrite app_length in E1. cbn [length] in E1.
          replace (Z.of_nat (length px + 1)) with (Z.of_nat (length py) + 1) in E1 by lia. split; [exact E1|]. rewrite E2. split; congruence.
        * exists false. split; [reflexivity|]. split; [discriminate|]. intros Q. injection Q as Q _. apply Heq in Q. congruence.
  Qed.
  Theorem arr_eq_ok (x y : list V) fuel : Z.of_nat (length x) = Size -> Z.of_nat (length y) = Size -> (length x <= fuel)%nat ->
    exists b, arr_eq Size eqb fuel x y = ArrOk b /\ (b = true <-> x = y) /\ arr_neq Size eqb fuel x y = ArrOk (negb b).
  Proof.
    intros Lx Ly Lf. destruct (eq_loop_ok fuel [] x [] y) as (b & E & H); auto; [lia|]. exists b. unfold arr_neq, arr_eq. cbn in E. rewrite E. auto.
  Qed.
End F.
