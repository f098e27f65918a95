(** IntrusiveList: the heap represents the family of lists. *)
From Coq Require Import List Arith Bool Lia.
Import ListNotations.
From Verif Require Import Spec.ListFamSpec Container.IntrusiveListModel.

(** occurrences *)
Definition ind (x n : nat) : nat := if x =? n then 1 else 0.
Fixpoint cn (n : nat) (l : list nat) : nat := match l with [] => 0 | x :: l' => ind x n + cn n l' end.
Lemma cn_app n a b : cn n (a ++ b) = cn n a + cn n b.
Proof. induction a; cbn; lia. Qed.
Lemma cn_In n l : In n l <-> 1 <= cn n l.
Proof.
  induction l as [|x l IH]; cbn; [lia|]. unfold ind. destruct (Nat.eqb_spec x n) as [->|H]; [split; [lia|auto]|].
  rewrite IH. split; [intros [?|?]; [congruence|lia]|right; lia].
Qed.
Lemma cn_notIn n l : ~ In n l <-> cn n l = 0.
Proof. rewrite cn_In. lia. Qed.
Lemma ind_same n : ind n n = 1.
Proof. unfold ind. now rewrite Nat.eqb_refl. Qed.
Lemma ind_le x n : ind x n <= 1.
Proof. unfold ind. destruct (x =? n); lia. Qed.
Lemma ind_diff x n : x <> n -> ind x n = 0.
Proof. intros H. unfold ind. destruct (Nat.eqb_spec x n); congruence. Qed.
Lemma ind_sym x n : ind x n = ind n x.
Proof. unfold ind. now rewrite Nat.eqb_sym. Qed.
Lemma cn_rev n l : cn n (rev l) = cn n l.
Proof. induction l; cbn; [reflexivity|]. rewrite cn_app. cbn. lia. Qed.

(** edges *)
Definition edge (h : heap) (a b : nat) : Prop := nx h a = Some b /\ pv h b = Some a.
Fixpoint edges (h : heap) (L : list nat) : Prop :=
  match L with
  | a :: ((b :: _) as L') => edge h a b /\ edges h L'
  | _ => True
  end.
Lemma edges_cons h a b L : edges h (a :: b :: L) <-> edge h a b /\ edges h (b :: L).
Proof. reflexivity. Qed.
Lemma edges_app h A x B : edges h (A ++ x :: B) <-> edges h (A ++ [x]) /\ edges h (x :: B).
Proof.
  induction A as [|a A IH]; cbn [app].
  - cbn. tauto.
  - destruct A as [|b A]; cbn [app] in *.
    + rewrite !edges_cons. cbn. tauto.
    + rewrite !edges_cons. rewrite IH. tauto.
Qed.
Lemma edges_glue h A a b B : edges h (A ++ [a]) -> edge h a b -> edges h (b :: B) -> edges h (A ++ a :: b :: B).
Proof. intros. apply edges_app. split; [assumption|]. rewrite edges_cons. auto. Qed.
Lemma edges_split h A a b B : edges h (A ++ a :: b :: B) -> edges h (A ++ [a]) /\ edge h a b /\ edges h (b :: B).
Proof. intros H. apply edges_app in H. rewrite edges_cons in H. tauto. Qed.
Lemma edges_frame h h' L :
  edges h L -> (forall n, In n (removelast L) -> nx h' n = nx h n) -> (forall n, In n (tl L) -> pv h' n = pv h n) ->
  edges h' L.
Proof.
  induction L as [|a [|b L] IH]; cbn; auto.
  intros [[H1 H2] H3] Hn Hp. split.
  - split; [rewrite Hn by auto; assumption|rewrite Hp by auto; assumption].
  - apply IH; auto.
Qed.

(** tl and removelast of a concatenation *)
Lemma tl_app_ne (A B : list nat) : A <> [] -> tl (A ++ B) = tl A ++ B.
Proof. destruct A; [congruence|reflexivity]. Qed.
Lemma removelast_app_cons (A : list nat) x B : removelast (A ++ x :: B) = A ++ removelast (x :: B).
Proof. apply removelast_app. discriminate. Qed.
Lemma snoc_ne (A : list nat) a : A ++ [a] <> [].
Proof. destruct A; discriminate. Qed.

Lemma hupd_eq f n v : hupd f n v n = v.
Proof. unfold hupd. now rewrite Nat.eqb_refl. Qed.
Lemma hupd_ne f n v m : m <> n -> hupd f n v m = f m.
Proof. intros H. unfold hupd. destruct (Nat.eqb_spec m n); congruence. Qed.

(** membership turned into counting *)
Ltac cnt :=
  repeat match goal with
  | H : In _ _ |- _ => apply cn_In in H
  | H : ~ In _ _ |- _ => rewrite cn_notIn in H
  end;
  repeat (rewrite cn_app in *); cbn [cn] in *; rewrite ?ind_same in *; try lia.
Tactic Notation "ne" constr(a) constr(b) constr(H) :=
  let X := fresh in
  assert (X : a <> b) by (intros ->; specialize (H b); cnt); revert X.

(** ** The two relinking patterns *)

(** inserting [d] between q and p *)
Definition ins_heap (h : heap) (q d p : nat) : heap :=
  mkh (hupd (hupd (nx h) d (Some p)) q (Some d)) (hupd (hupd (pv h) d (Some q)) p (Some d)).

Lemma ins_edges h A q p B d :
  (forall n, cn n (tl (A ++ [q])) + cn n (p :: B) + ind d n <= 1) ->
  (forall n, cn n (A ++ [q]) + cn n (removelast (p :: B)) + ind d n <= 1) ->
  edges h (A ++ q :: p :: B) -> edges (ins_heap h q d p) (A ++ q :: d :: p :: B).
Proof.
  intros Hp Hn H. apply edges_split in H as (H1 & H2 & H3).
  assert (Dqd : q <> d) by (intros ->; specialize (Hn d); cnt).
  assert (Dpd : p <> d) by (intros ->; specialize (Hp d); cnt).
  apply edges_glue; [|split|apply edges_cons; split; [split|]].
  - eapply edges_frame; [exact H1| |]; intros n Hi.
    + rewrite removelast_last in Hi. cbn. rewrite !hupd_ne; auto; intros ->; specialize (Hn q) as Hq; specialize (Hn d) as Hd; cnt.
    + cbn. rewrite !hupd_ne; auto; intros ->; specialize (Hp p) as Hq; specialize (Hp d) as Hd; cnt.
  - cbn. now rewrite hupd_eq.
  - cbn. rewrite hupd_ne by auto. now rewrite hupd_eq.
  - cbn. rewrite hupd_ne by auto. now rewrite hupd_eq.
  - cbn. now rewrite hupd_eq.
  - eapply edges_frame; [exact H3| |]; intros n Hi.
    + cbn [nx ins_heap]. rewrite !hupd_ne; auto; intros ->; specialize (Hn q) as Hq; specialize (Hn d) as Hd; cnt.
    + cbn [tl] in Hi. cbn. rewrite !hupd_ne; auto; intros ->; specialize (Hp p) as Hq; specialize (Hp d) as Hd; cnt.
Qed.

(** removing x between a and b *)
Definition del_heap (h : heap) (a b : nat) : heap := mkh (hupd (nx h) a (Some b)) (hupd (pv h) b (Some a)).
Lemma del_edges h A a x b B :
  (forall n, cn n (tl (A ++ [a])) + ind x n + cn n (b :: B) <= 1) ->
  (forall n, cn n (A ++ [a]) + ind x n + cn n (removelast (b :: B)) <= 1) ->
  edges h (A ++ a :: x :: b :: B) -> edges (del_heap h a b) (A ++ a :: b :: B).
Proof.
  intros Hp Hn H. apply edges_split in H as (H1 & H2 & H3). rewrite edges_cons in H3. destruct H3 as [_ H3].
  apply edges_glue; [|split|].
  - eapply edges_frame; [exact H1| |]; intros n Hi.
    + rewrite removelast_last in Hi. cbn. rewrite hupd_ne; auto; intros ->; specialize (Hn a) as Hq; cnt.
    + cbn. rewrite hupd_ne; auto; intros ->; specialize (Hp b) as Hq; cnt.
  - cbn. now rewrite hupd_eq.
  - cbn. now rewrite hupd_eq.
  - eapply edges_frame; [exact H3| |]; intros n Hi.
    + cbn [nx del_heap]. rewrite hupd_ne; auto; intros ->; specialize (Hn a) as Hq; cnt.
    + cbn [tl] in Hi. cbn. rewrite hupd_ne; auto; intros ->; specialize (Hp b) as Hq; cnt.
Qed.

(** splice: lp/fp/pp are the predecessors of last/first/pos *)
Definition spl_heap (h : heap) (fp first lp last pp pos : nat) : heap :=
  mkh (hupd (hupd (hupd (nx h) lp (Some pos)) fp (Some last)) pp (Some first))
      (hupd (hupd (hupd (pv h) pos (Some lp)) last (Some fp)) first (Some pp)).

(** A segment is described by its two ends. *)
Lemma seg_ends (S : list nat) : S <> [] -> exists s S' S'' e, S = s :: S' /\ S = S'' ++ [e].
Proof.
  intros H. destruct (exists_last H) as (S'' & e & He). destruct S as [|s S']; [congruence|]. eauto 8.
Qed.

Lemma seg_frame h h' S s S' S'' e :
  S = s :: S' -> S = S'' ++ [e] -> edges h S ->
  (forall n, In n S'' -> nx h' n = nx h n) -> (forall n, In n S' -> pv h' n = pv h n) -> edges h' S.
Proof.
  intros E1 E2 H Hn Hp. eapply edges_frame; [exact H| |]; intros n Hi.
  - apply Hn. rewrite E2, removelast_last in Hi. exact Hi.
  - apply Hp. rewrite E1 in Hi. exact Hi.
Qed.

(** from another list *)
Lemma spl_other h A fp M lst B C pp pos D first M' M'' lp :
  M = first :: M' -> M = M'' ++ [lp] ->
  (forall n, cn n (tl (A ++ [fp])) + cn n M + cn n (lst :: B) + (cn n (tl (C ++ [pp])) + cn n (pos :: D)) <= 1) ->
  (forall n, cn n (A ++ [fp]) + cn n M + cn n (removelast (lst :: B)) + (cn n (C ++ [pp]) + cn n (removelast (pos :: D))) <= 1) ->
  edges h (A ++ fp :: M ++ lst :: B) -> edges h (C ++ pp :: pos :: D) ->
  let h' := spl_heap h fp first lp lst pp pos in
  edges h' (A ++ fp :: lst :: B) /\ edges h' (C ++ pp :: M ++ pos :: D).
Proof.
  intros E1 E2 Hp Hn HX HT h'.
  assert (C1 : forall n, cn n M = ind first n + cn n M') by (intros; rewrite E1; reflexivity).
  assert (C2 : forall n, cn n M = cn n M'' + ind lp n) by (intros; rewrite E2, cn_app; cbn; lia).
  apply edges_split in HT as (T1 & T2 & T3).
  apply edges_app in HX as (X1 & X2).
  assert (X3 : edges h M /\ edges h (lst :: B)).
  { rewrite E1 in X2. cbn [app] in X2. rewrite edges_cons in X2. destruct X2 as [_ X2].
    change (first :: M' ++ lst :: B) with ((first :: M') ++ lst :: B) in X2. rewrite <- E1, E2 in X2.
    rewrite <- app_assoc in X2. cbn [app] in X2. apply edges_split in X2. rewrite <- E2 in X2. tauto. }
  destruct X3 as [X3 X4].
  assert (N1 : lp <> fp) by (intros ->; specialize (Hn fp); specialize (C2 fp); cnt).
  assert (N2 : lp <> pp) by (intros ->; specialize (Hn pp); specialize (C2 pp); cnt).
  assert (N3 : fp <> pp) by (intros ->; specialize (Hn pp); cnt).
  assert (P1 : first <> lst) by (intros ->; specialize (Hp lst); specialize (C1 lst); cnt).
  assert (P2 : first <> pos) by (intros ->; specialize (Hp pos); specialize (C1 pos); cnt).
  assert (P3 : lst <> pos) by (intros ->; specialize (Hp pos); cnt).
  assert (NX : forall n, n <> lp -> n <> fp -> n <> pp -> nx h' n = nx h n) by (intros; cbn; now rewrite !hupd_ne by auto).
  assert (PV : forall n, n <> pos -> n <> lst -> n <> first -> pv h' n = pv h n) by (intros; cbn; now rewrite !hupd_ne by auto).
  assert (EP : edge h' pp first) by (split; cbn; now rewrite hupd_eq).
  assert (EF : edge h' fp lst) by (split; cbn; rewrite hupd_ne, hupd_eq by auto; reflexivity).
  assert (EL : edge h' lp pos) by (split; cbn; rewrite !hupd_ne, hupd_eq by auto; reflexivity).
  split.
  - apply edges_glue; [|exact EF|].
    + eapply edges_frame; [exact X1| |]; intros n Hi.
      * rewrite removelast_last in Hi. apply NX; intros ->; specialize (Hn lp) as Q1; specialize (Hn fp) as Q2; specialize (Hn pp) as Q3; specialize (C2 lp); cnt.
      * apply PV; intros ->; specialize (Hp pos) as Q1; specialize (Hp lst) as Q2; specialize (Hp first) as Q3; specialize (C1 first); cnt.
    + eapply edges_frame; [exact X4| |]; intros n Hi.
      * apply NX; intros ->; specialize (Hn lp) as Q1; specialize (Hn fp) as Q2; specialize (Hn pp) as Q3; specialize (C2 lp); cnt.
      * cbn [tl] in Hi. apply PV; intros ->; specialize (Hp pos) as Q1; specialize (Hp lst) as Q2; specialize (Hp first) as Q3; specialize (C1 first); cnt.
  - assert (G1 : edges h' (C ++ [pp])).
    { eapply edges_frame; [exact T1| |]; intros n Hi.
      * rewrite removelast_last in Hi. apply NX; intros ->; specialize (Hn lp) as Q1; specialize (Hn fp) as Q2; specialize (Hn pp) as Q3; specialize (C2 lp); cnt.
      * apply PV; intros ->; specialize (Hp pos) as Q1; specialize (Hp lst) as Q2; specialize (Hp first) as Q3; specialize (C1 first); cnt. }
    assert (G2 : edges h' M).
    { eapply seg_frame; [exact E1|exact E2|exact X3| |]; intros n Hi.
      * apply NX; intros ->; specialize (Hn lp) as Q1; specialize (Hn fp) as Q2; specialize (Hn pp) as Q3;
          specialize (C2 lp) as Q4; specialize (C2 fp) as Q5; specialize (C2 pp) as Q6; cnt.
      * apply PV; intros ->; specialize (Hp pos) as Q1; specialize (Hp lst) as Q2; specialize (Hp first) as Q3;
          specialize (C1 first) as Q4; specialize (C1 pos) as Q5; specialize (C1 lst) as Q6; cnt. }
    assert (G3 : edges h' (pos :: D)).
    { eapply edges_frame; [exact T3| |]; intros n Hi.
      * apply NX; intros ->; specialize (Hn lp) as Q1; specialize (Hn fp) as Q2; specialize (Hn pp) as Q3; specialize (C2 lp); cnt.
      * cbn [tl] in Hi. apply PV; intros ->; specialize (Hp pos) as Q1; specialize (Hp lst) as Q2; specialize (Hp first) as Q3; specialize (C1 first); cnt. }
    apply edges_app. split; [exact G1|]. rewrite E1. cbn [app]. rewrite edges_cons. split; [exact EP|].
    change (first :: M' ++ pos :: D) with ((first :: M') ++ pos :: D). rewrite <- E1, E2, <- app_assoc. cbn [app].
    apply edges_glue; [rewrite <- E2; exact G2|exact EL|exact G3].
Qed.

(** within one ring: exchanging two neighbouring segments.  nx is rewritten at a, last of S1, last of S2, and pv at
    b, head of S1, head of S2. *)
Lemma swap_segments h h' A a S1 s1 S1' S1'' e1 S2 s2 S2' S2'' e2 b B :
  S1 = s1 :: S1' -> S1 = S1'' ++ [e1] -> S2 = s2 :: S2' -> S2 = S2'' ++ [e2] ->
  (forall n, cn n (tl (A ++ [a])) + cn n S1 + cn n S2 + cn n (b :: B) <= 1) ->
  (forall n, cn n (A ++ [a]) + cn n S1 + cn n S2 + cn n (removelast (b :: B)) <= 1) ->
  edges h (A ++ a :: S1 ++ S2 ++ b :: B) ->
  (forall n, n <> a -> n <> e1 -> n <> e2 -> nx h' n = nx h n) ->
  (forall n, n <> b -> n <> s1 -> n <> s2 -> pv h' n = pv h n) ->
  edge h' a s2 -> edge h' e2 s1 -> edge h' e1 b ->
  edges h' (A ++ a :: S2 ++ S1 ++ b :: B).
Proof.
  intros E1 E1' E2 E2' Hp Hn H NX PV F1 F2 F3.
  assert (C1 : forall n, cn n S1 = ind s1 n + cn n S1') by (intros; rewrite E1; reflexivity).
  assert (C1' : forall n, cn n S1 = cn n S1'' + ind e1 n) by (intros; rewrite E1', cn_app; cbn; lia).
  assert (C2 : forall n, cn n S2 = ind s2 n + cn n S2') by (intros; rewrite E2; reflexivity).
  assert (C2' : forall n, cn n S2 = cn n S2'' + ind e2 n) by (intros; rewrite E2', cn_app; cbn; lia).
  (* the parts of the old ring *)
  apply edges_app in H as (H1 & H).
  assert (H' : edges h (S1 ++ S2 ++ b :: B)).
  { rewrite E1 in H |- *. cbn [app] in *. rewrite edges_cons in H. apply H. }
  assert (H2 : edges h S1 /\ edges h (S2 ++ b :: B)).
  { rewrite E1' in H'. rewrite <- app_assoc in H'. cbn [app] in H'. rewrite E2 in H'. cbn [app] in H'.
    apply edges_split in H'. rewrite <- E1' in H'. rewrite E2. cbn [app]. tauto. }
  destruct H2 as [H2 H3].
  assert (H4 : edges h S2 /\ edges h (b :: B)).
  { rewrite E2' in H3. rewrite <- app_assoc in H3. cbn [app] in H3. apply edges_split in H3. rewrite <- E2' in H3. tauto. }
  destruct H4 as [H4 H5].
  assert (G1 : edges h' (A ++ [a])).
  { eapply edges_frame; [exact H1| |]; intros n Hi.
    - rewrite removelast_last in Hi. apply NX; intros ->; [specialize (Hn a)|specialize (Hn e1); specialize (C1' e1)|specialize (Hn e2); specialize (C2' e2)]; cnt.
    - apply PV; intros ->; [specialize (Hp b)|specialize (Hp s1); specialize (C1 s1)|specialize (Hp s2); specialize (C2 s2)]; cnt. }
  assert (G2 : edges h' S1).
  { eapply seg_frame; [exact E1|exact E1'|exact H2| |]; intros n Hi.
    - apply NX; intros ->; [specialize (Hn a); specialize (C1' a)|specialize (Hn e1); specialize (C1' e1)|specialize (Hn e2); specialize (C1' e2); specialize (C2' e2)]; cnt.
    - apply PV; intros ->; [specialize (Hp b); specialize (C1 b)|specialize (Hp s1); specialize (C1 s1)|specialize (Hp s2); specialize (C1 s2); specialize (C2 s2)]; cnt. }
  assert (G3 : edges h' S2).
  { eapply seg_frame; [exact E2|exact E2'|exact H4| |]; intros n Hi.
    - apply NX; intros ->; [specialize (Hn a); specialize (C2' a)|specialize (Hn e1); specialize (C1' e1); specialize (C2' e1)|specialize (Hn e2); specialize (C2' e2)]; cnt.
    - apply PV; intros ->; [specialize (Hp b); specialize (C2 b)|specialize (Hp s1); specialize (C1 s1); specialize (C2 s1)|specialize (Hp s2); specialize (C2 s2)]; cnt. }
  assert (G4 : edges h' (b :: B)).
  { eapply edges_frame; [exact H5| |]; intros n Hi.
    - apply NX; intros ->; [specialize (Hn a)|specialize (Hn e1); specialize (C1' e1)|specialize (Hn e2); specialize (C2' e2)]; cnt.
    - cbn [tl] in Hi. apply PV; intros ->; [specialize (Hp b)|specialize (Hp s1); specialize (C1 s1)|specialize (Hp s2); specialize (C2 s2)]; cnt. }
  apply edges_app. split; [exact G1|]. rewrite E2. cbn [app]. rewrite edges_cons. split; [exact F1|].
  change (s2 :: S2' ++ S1 ++ b :: B) with ((s2 :: S2') ++ S1 ++ b :: B). rewrite <- E2, E2', <- app_assoc. cbn [app].
  rewrite E1. cbn [app]. apply edges_glue; [rewrite <- E2'; exact G3|exact F2|].
  change (s1 :: S1' ++ b :: B) with ((s1 :: S1') ++ b :: B). rewrite <- E1, E1', <- app_assoc. cbn [app].
  apply edges_glue; [rewrite <- E1'; exact G2|exact F3|exact G4].
Qed.
