(** Z-indexed access to lists.  Nothing here models code. *)
From Coq Require Export List ZArith Lia Bool.
Export ListNotations.
Open Scope Z_scope.

Definition lenz {A} (l : list A) : Z := Z.of_nat (length l).
Definition nthz {A} (d : A) (l : list A) (k : Z) : A := nth (Z.to_nat k) l d.
Definition takez {A} (n : Z) (l : list A) : list A := firstn (Z.to_nat n) l.
Definition dropz {A} (n : Z) (l : list A) : list A := skipn (Z.to_nat n) l.
Definition repz {A} (v : A) (n : Z) : list A := repeat v (Z.to_nat n).
(** the list [F 0; F 1; ...; F (n-1)] *)
Definition tabz {A} (F : Z -> A) (n : Z) : list A :=
  map (fun i => F (Z.of_nat i)) (seq 0 (Z.to_nat n)).

Section L.
  Context {A : Type} (d : A).

  Lemma lenz_nonneg (l : list A) : 0 <= lenz l.
  Proof. unfold lenz; lia. Qed.
  Lemma lenz_nil : lenz (@nil A) = 0.
  Proof. reflexivity. Qed.
  Lemma lenz_cons (x : A) l : lenz (x :: l) = lenz l + 1.
  Proof. unfold lenz; simpl length; lia. Qed.
  Lemma lenz_1 (x : A) : lenz [x] = 1.
  Proof. reflexivity. Qed.
  Lemma lenz_app (l1 l2 : list A) : lenz (l1 ++ l2) = lenz l1 + lenz l2.
  Proof. unfold lenz; rewrite app_length; lia. Qed.
  Lemma lenz_takez n (l : list A) : 0 <= n <= lenz l -> lenz (takez n l) = n.
  Proof. unfold lenz, takez; rewrite firstn_length; lia. Qed.
  Lemma lenz_dropz n (l : list A) : 0 <= n <= lenz l -> lenz (dropz n l) = lenz l - n.
  Proof. unfold lenz, dropz; rewrite skipn_length; lia. Qed.
  Lemma lenz_repz (v : A) n : 0 <= n -> lenz (repz v n) = n.
  Proof. unfold lenz, repz; rewrite repeat_length; lia. Qed.
  Lemma lenz_tabz (F : Z -> A) n : 0 <= n -> lenz (tabz F n) = n.
  Proof. unfold lenz, tabz; rewrite map_length, seq_length; lia. Qed.
  Lemma lenz_0 (l : list A) : lenz l = 0 -> l = [].
  Proof. destruct l; unfold lenz; simpl; [reflexivity|lia]. Qed.
  Lemma lenz_rev (l : list A) : lenz (rev l) = lenz l.
  Proof. unfold lenz; now rewrite rev_length. Qed.

  Lemma nthz_tabz (F : Z -> A) n k : 0 <= k < n -> nthz d (tabz F n) k = F k.
  Proof.
    intros H; unfold nthz, tabz.
    rewrite nth_indep with (d' := (fun i => F (Z.of_nat i)) 0%nat)
      by (rewrite map_length, seq_length; lia).
    rewrite (map_nth (fun i => F (Z.of_nat i)) (seq 0 (Z.to_nat n)) 0%nat).
    rewrite seq_nth by lia. f_equal; lia.
  Qed.
  Lemma nthz_app (l1 l2 : list A) k :
    0 <= k -> nthz d (l1 ++ l2) k = if k <? lenz l1 then nthz d l1 k else nthz d l2 (k - lenz l1).
  Proof.
    intros H; unfold nthz, lenz. destruct (Z.ltb_spec k (Z.of_nat (length l1))) as [Hk|Hk].
    - apply app_nth1; lia.
    - rewrite app_nth2 by lia. f_equal; lia.
  Qed.
  Lemma nthz_takez n (l : list A) k : 0 <= k < n -> nthz d (takez n l) k = nthz d l k.
  Proof.
    intros H; unfold nthz, takez.
    assert (Hk : (Z.to_nat k < Z.to_nat n)%nat) by lia.
    revert Hk; generalize (Z.to_nat k) as a, (Z.to_nat n) as b; clear H.
    intros a b; revert a l; induction b as [|b IH]; intros a l Hk; [lia|].
    destruct l as [|x l]; [now destruct a|]. destruct a as [|a]; simpl; [reflexivity|]. apply IH; lia.
  Qed.
  Lemma nthz_dropz n (l : list A) k : 0 <= k -> 0 <= n -> nthz d (dropz n l) k = nthz d l (k + n).
  Proof.
    intros Hk Hn; unfold nthz, dropz.
    replace (Z.to_nat (k + n)) with (Z.to_nat n + Z.to_nat k)%nat by lia.
    generalize (Z.to_nat n) as b, (Z.to_nat k) as a. clear.
    intros b; revert l; induction b as [|b IH]; intros l a; [reflexivity|].
    destruct l as [|x l]; [simpl; now destruct a|]. simpl. apply IH.
  Qed.
  Lemma nthz_repz (v : A) n k : 0 <= k < n -> nthz d (repz v n) k = v.
  Proof.
    intros H; unfold nthz, repz. apply (repeat_spec (Z.to_nat n)). apply nth_In. rewrite repeat_length; lia.
  Qed.
  Lemma nthz_cons_0 (x : A) l : nthz d (x :: l) 0 = x.
  Proof. reflexivity. Qed.
  Lemma nthz_cons (x : A) l k : 0 < k -> nthz d (x :: l) k = nthz d l (k - 1).
  Proof.
    intros H; unfold nthz. replace (Z.to_nat k) with (S (Z.to_nat (k - 1))) by lia. reflexivity.
  Qed.
  Lemma list_ext (l1 l2 : list A) :
    lenz l1 = lenz l2 -> (forall k, 0 <= k < lenz l1 -> nthz d l1 k = nthz d l2 k) -> l1 = l2.
  Proof.
    intros Hl H. apply nth_ext with (d := d) (d' := d); [unfold lenz in Hl; lia|].
    intros n Hn. specialize (H (Z.of_nat n)). unfold nthz, lenz in H. rewrite !Nat2Z.id in H. apply H; lia.
  Qed.
  Lemma tabz_nthz (l : list A) : tabz (nthz d l) (lenz l) = l.
  Proof.
    apply list_ext; rewrite lenz_tabz by apply lenz_nonneg; [reflexivity|].
    intros k Hk. now rewrite nthz_tabz by lia.
  Qed.
  Lemma tabz_ext (F G : Z -> A) n : (forall k, 0 <= k < n -> F k = G k) -> tabz F n = tabz G n.
  Proof.
    intros H. unfold tabz. apply map_ext_in. intros i Hi. apply in_seq in Hi. apply H; lia.
  Qed.
  Lemma nth_error_nthz (l : list A) k :
    0 <= k < lenz l -> nth_error l (Z.to_nat k) = Some (nthz d l k).
  Proof. unfold lenz, nthz; intros H. apply nth_error_nth'. lia. Qed.
End L.

(** 64-bit size_t *)
Definition W64 : Z := 2 ^ 64.
Definition w64 (x : Z) : Z := x mod W64.
Lemma w64_small x : 0 <= x < W64 -> w64 x = x.
Proof. intros H; unfold w64; now rewrite Z.mod_small. Qed.
Lemma W64_val : W64 = 18446744073709551616.
Proof. reflexivity. Qed.

(** size_t converted to ptrdiff_t (two's complement) *)
Definition s64 (x : Z) : Z := if x <? 2 ^ 63 then x else x - W64.
Lemma s64_small x : x < 2 ^ 63 -> s64 x = x.
Proof. unfold s64; intros H. destruct (Z.ltb_spec x (2 ^ 63)); [reflexivity|lia]. Qed.
