(** Proofs about the Itron table of variable-size memory pools. *)
From Coq Require Import List NArith Bool Lia Arith.
Import ListNotations.
From Verif Require Import Spec.Linear Spec.VarPoolSpec OS.Sched OS.VarPoolModel.

(** * places *)
Lemma apartb_iff a n b m : apartb a n b m = true <-> apart a n b m.
Proof. unfold apartb, apart. rewrite orb_true_iff, !N.leb_le. tauto. Qed.
Lemma grants_free us p n a : grants us p n a = true <-> free_at p a n /\ us p a n = true.
Proof.
  unfold grants, free_at. rewrite !andb_true_iff, negb_true_iff, N.eqb_neq, !N.leb_le, forallb_forall. split.
  - intros (((A & B & C) & D) & E). repeat split; auto. intros b m H. apply apartb_iff. exact (D (b, m) H).
  - intros ((A & B & C & D) & E). repeat split; auto. intros (b, m) H. apply apartb_iff. now apply D.
Qed.
Lemma no_place_true us p n : no_place us p n = true -> forall a, free_at p a n -> us p a n = false.
Proof.
  unfold no_place. rewrite forallb_forall. intros H a F. destruct (us p a n) eqn:U; [|reflexivity]. exfalso.
  pose proof F as (A & B & C & _). specialize (H (N.to_nat (a - v_base p))).
  replace (v_base p + N.of_nat (N.to_nat (a - v_base p)))%N with a in H by lia.
  assert (X : negb (grants us p n a) = true) by (apply H, in_seq; lia).
  apply negb_true_iff in X. assert (Y : grants us p n a = true) by (apply grants_free; auto). congruence.
Qed.
Lemma no_place_false us p n : no_place us p n = false -> exists a, grants us p n a = true.
Proof.
  unfold no_place. induction (seq 0 (N.to_nat (v_size p))) as [|k l IH]; cbn; [discriminate|].
  destruct (grants us p n (v_base p + N.of_nat k)) eqn:G; cbn; eauto.
Qed.
(** what a pool promises *)
Definition pool_ok (p : vpool) : Prop :=
  v_base p <> 0%N /\ all_apart (v_out p) /\ forall a n, In (a, n) (v_out p) -> n <> 0%N /\ (v_base p <= a)%N /\ (a + n <= v_base p + v_size p)%N.
Lemma all_apart_filter f l : all_apart l -> all_apart (filter f l).
Proof.
  induction l as [|(a, n) l IH]; cbn; [auto|]. intros (A & B). destruct (f (a, n)); cbn; auto. split; auto. intros b m H. apply A. now apply filter_In in H.
Qed.
Lemma pool_ok_new base size : base <> 0%N -> pool_ok (mkV base size []).
Proof. intros H. split; [exact H|]. split; [exact I|]. intros a n []. Qed.
Lemma pool_ok_get p a n : pool_ok p -> free_at p a n -> pool_ok (mkV (v_base p) (v_size p) ((a, n) :: v_out p)).
Proof.
  intros (A & B & C) (D & E & F & G). split; [exact A|]. split; [split; auto|]. cbn. intros b m [[= <- <-]|H]; auto.
Qed.
Lemma pool_ok_free p f : pool_ok p -> pool_ok (mkV (v_base p) (v_size p) (filter f (v_out p))).
Proof. intros (A & B & C). split; [exact A|]. split; [now apply all_apart_filter|]. cbn. intros a n H. apply C. now apply filter_In in H. Qed.
Lemma filter_zero p : pool_ok p -> filter (fun x => negb (N.eqb 0 (fst x))) (v_out p) = v_out p.
Proof.
  intros (A & _ & C). assert (G : forall l : list (N * N), (forall a n, In (a, n) l -> a <> 0%N) -> filter (fun x => negb (N.eqb 0 (fst x))) l = l).
  { induction l as [|(a, n) l IH]; intros H; [reflexivity|]. cbn [filter fst]. destruct (N.eqb_spec 0 a) as [X|X]; cbn [negb].
    - elim (H a n); [now left|now symmetry].
    - f_equal. apply IH. intros b m Y. apply (H b m). now right. }
  apply G. intros a n H. destruct (C a n H) as (_ & L & _). lia.
Qed.
(** non-overlapping pieces of an interval are no longer than it *)
Definition below (x : N) (l : list (N * N)) : list (N * N) := filter (fun y => (fst y <? x)%N) l.
Definition above (x : N) (l : list (N * N)) : list (N * N) := filter (fun y => negb (fst y <? x)%N) l.
Lemma total_split x l : (total (below x l) + total (above x l) = total l)%N.
Proof. induction l as [|(a, n) l IH]; [reflexivity|]. unfold below, above in *. cbn [filter fst]. destruct (a <? x)%N; cbn [negb total fold_right snd] in *; unfold total in *; cbn [fold_right snd]; lia. Qed.
Lemma length_split x l : length (below x l) + length (above x l) = length l.
Proof. induction l as [|(a, n) l IH]; [reflexivity|]. unfold below, above in *. cbn [filter fst]. destruct (a <? x)%N; cbn [negb length] in *; lia. Qed.
Lemma total_fits k : forall l lo hi, length l <= k -> (lo <= hi)%N -> all_apart l ->
  (forall a n, In (a, n) l -> n <> 0%N /\ (lo <= a)%N /\ (a + n <= hi)%N) -> (total l <= hi - lo)%N.
Proof.
  induction k as [|k IH]; intros l lo hi K LH A H.
  - destruct l; [cbn; lia|cbn in K; lia].
  - destruct l as [|(a, n) l]; [cbn; lia|]. destruct A as (A1 & A2). destruct (H a n (or_introl eq_refl)) as (NZ & L1 & L2).
    pose proof (total_split a l) as T. pose proof (length_split a l) as LL. cbn in K.
    assert (B1 : (total (below a l) <= a - lo)%N).
    { apply IH; [lia|lia|now apply all_apart_filter|]. intros b m X. unfold below in X. apply filter_In in X. destruct X as (X & Y). cbn in Y. apply N.ltb_lt in Y.
      destruct (H b m (or_intror X)) as (Z1 & Z2 & Z3). split; [exact Z1|]. split; [exact Z2|]. destruct (A1 b m X) as [Q|Q]; lia. }
    assert (B2 : (total (above a l) <= hi - (a + n))%N).
    { apply IH; [lia|lia|now apply all_apart_filter|]. intros b m X. unfold above in X. apply filter_In in X. destruct X as (X & Y). cbn in Y. apply negb_true_iff, N.ltb_ge in Y.
      destruct (H b m (or_intror X)) as (Z1 & Z2 & Z3). split; [exact Z1|]. split; [destruct (A1 b m X) as [Q|Q]; lia|exact Z3]. }
    unfold total at 1. cbn [fold_right snd]. fold (total l). lia.
Qed.
Lemma pool_total p : pool_ok p -> (total (v_out p) <= v_size p)%N.
Proof.
  intros (_ & A & H). replace (v_size p) with (v_base p + v_size p - v_base p)%N by lia. apply (total_fits (length (v_out p))); auto. lia.
Qed.

(** * state invariant *)
Definition in_cs (q : ypc) : bool := match q with YScan _ _ _ | YAcre _ _ _ | YAssign _ _ _ _ | YDel _ | YClear _ | YUnlock _ => true | _ => false end.
Section M.
  Variables (max nids : nat) (us : vpool -> N -> N -> bool).
  Definition yok (s : yst) (q : ypc) : Prop :=
    match q with
    | YIdle | YRet _ | YUnlock _ => True
    | YLock c => match c with VCreate size _ => size <> 0%N | VDestroy _ => True | _ => False end
    | YAt c => match c with VCreate _ _ | VDestroy _ => False | _ => True end
    | YScan size addr i => size <> 0%N /\ i <= max /\ forall j, j < i -> y_id s j <> 0
    | YAcre size addr i => size <> 0%N /\ i < max /\ y_id s i = 0
    | YAssign size addr i id =>
        size <> 0%N /\ i < max /\ y_id s i = 0 /\ id <> 0 /\ (forall j, y_id s j <> id) /\
        exists base, y_kern s id = Some (mkV base size []) /\ base <> 0%N /\ (addr <> 0%N -> base = addr) /\
          (addr = 0%N -> forall j p, y_kern s (y_id s j) = Some p -> apart base size (v_base p) (v_size p))
    | YDel i => True
    | YClear i => y_kern s (y_id s i) = None
    end.
  Record yinv (s : yst) : Prop := {
    yi_lock : forall t, in_cs (y_thr s t) = true <-> y_mtx s = Some t;
    yi_lt : forall i, y_id s i <> 0 -> i < max;
    yi_inj : forall i j, y_id s i = y_id s j -> y_id s i <> 0 -> i = j;
    yi_zero : y_kern s 0 = None;
    yi_nids : forall id, y_kern s id <> None -> id <= nids;
    yi_pool : forall id p, y_kern s id = Some p -> pool_ok p;
    yi_live : forall i, y_id s i <> 0 -> y_kern s (y_id s i) <> None \/ exists t, y_thr s t = YClear i;
    yi_own : forall id, y_kern s id <> None -> (exists i, y_id s i = id) \/ exists t size addr i, y_thr s t = YAssign size addr i id;
    yi_thr : forall t, yok s (y_thr s t)
  }.
  Lemma yinv_init : yinv y_init.
  Proof. constructor; cbn; try tauto; try congruence; try (intros; split; congruence). Qed.
  Lemma cs_unique s t u : yinv s -> in_cs (y_thr s t) = true -> in_cs (y_thr s u) = true -> u = t.
  Proof. intros I A B. apply (yi_lock s I) in A. apply (yi_lock s I) in B. congruence. Qed.

  (** two states of the kernel that differ only in what is handed out, in pools of the table *)
  Definition same_areas (s : yst) (k : nat -> option vpool) : Prop :=
    forall id, match k id, y_kern s id with
               | Some p', Some p => v_base p' = v_base p /\ v_size p' = v_size p /\ pool_ok p' /\ ((forall i, y_id s i <> id) -> p' = p)
               | None, None => True
               | _, _ => False
               end.
  Lemma same_areas_refl s : yinv s -> same_areas s (y_kern s).
  Proof. intros I id. destruct (y_kern s id) eqn:E; [|exact Logic.I]. split; [reflexivity|]. split; [reflexivity|]. split; [exact (yi_pool s I id v E)|reflexivity]. Qed.
  Lemma same_areas_upd s i p p' : yinv s -> y_kern s (y_id s i) = Some p -> v_base p' = v_base p -> v_size p' = v_size p -> pool_ok p' ->
    same_areas s (fupd (y_kern s) (y_id s i) (Some p')).
  Proof.
    intros I E A B C id. rewrite fupd_eq. destruct (Nat.eqb_spec id (y_id s i)) as [->|N]; [|exact (same_areas_refl s I id)].
    rewrite E. split; [exact A|]. split; [exact B|]. split; [exact C|]. intros X. now elim (X i).
  Qed.
  Lemma same_none s k id : same_areas s k -> k id = None <-> y_kern s id = None.
  Proof. intros H. specialize (H id). destruct (k id), (y_kern s id); split; try tauto; try discriminate. Qed.

  (** a task outside the critical section moves to a point outside it *)
  Lemma yinv_out s t q k : yinv s -> in_cs (y_thr s t) = false -> in_cs q = false -> yok s q -> same_areas s k ->
    yinv (mkY (y_id s) k (y_mtx s) (fupd (y_thr s) t q)).
  Proof.
    intros I O O' K SA. pose proof I as [LK LT IN ZE NI PO LI OW TH]. pose proof (fun id => same_none s k id SA) as HK. constructor; cbn; auto.
    - intros u. rewrite fupd_eq. destruct (Nat.eqb_spec u t) as [->|N]; [|apply LK]. rewrite <- LK, O, O'. tauto.
    - now apply HK.
    - intros id H. apply NI. intros X. apply H. now apply HK.
    - intros id p H. specialize (SA id). rewrite H in SA. destruct (y_kern s id); [|tauto]. apply SA.
    - intros i H. destruct (LI i H) as [A|(u & A)].
      + left. intros X. apply A. now apply HK.
      + right. exists u. rewrite fupd_other; [exact A|]. intros ->. rewrite A in O. discriminate.
    - intros id H. destruct (OW id) as [A|(u & bs & size & i & A)]; [intros X; apply H; now apply HK|now left|].
      right. exists u, bs, size, i. rewrite fupd_other; [exact A|]. intros ->. rewrite A in O. discriminate.
    - intros u. rewrite fupd_eq. destruct (Nat.eqb_spec u t) as [_|N].
      + clear -K O'. destruct q; cbn in *; auto; discriminate.
      + pose proof (TH u) as B. destruct (y_thr s u); cbn in *; auto.
        * destruct B as (B1 & B2 & B3 & B4 & B5 & base & C1 & C2 & C3 & C4). repeat (split; [assumption|]). exists base.
          split. { pose proof (SA id) as S1. rewrite C1 in S1. destruct (k id); [|tauto]. destruct S1 as (_ & _ & _ & S1). now rewrite (S1 B5). }
          split; [exact C2|]. split; [exact C3|]. intros Z j p H. pose proof (SA (y_id s j)) as S1. rewrite H in S1. destruct (y_kern s (y_id s j)) as [p0|] eqn:E0; [|tauto].
          destruct S1 as (-> & -> & _). exact (C4 Z j p0 E0).
        * now apply HK.
  Qed.
  Lemma yinv_go s t q : yinv s -> in_cs (y_thr s t) = false -> in_cs q = false -> yok s q -> yinv (y_go s t q).
  Proof. intros I O O' K. apply (yinv_out s t q (y_kern s)); auto. now apply same_areas_refl. Qed.
  (** the holder moves inside, nothing else changes *)
  Lemma yinv_in s t q : yinv s -> in_cs (y_thr s t) = true -> in_cs q = true -> yok s q ->
    (forall i, y_thr s t <> YClear i) -> (forall bs size i id, y_thr s t <> YAssign bs size i id) -> yinv (y_go s t q).
  Proof.
    intros I O O' K C A. pose proof I as [LK LT IN ZE NI PO LI OW TH]. constructor; cbn; auto.
    - intros u. rewrite fupd_eq. destruct (Nat.eqb_spec u t) as [->|N]; [|apply LK]. rewrite <- LK, O, O'. tauto.
    - intros i H. destruct (LI i H) as [X|(u & X)]; [now left|]. right. exists u. rewrite fupd_other; [exact X|]. intros ->. now apply (C i).
    - intros id H. destruct (OW id H) as [X|(u & bs & size & i & X)]; [now left|]. right. exists u, bs, size, i. rewrite fupd_other; [exact X|]. intros ->.
      now apply (A bs size i id).
    - intros u. rewrite fupd_eq. destruct (Nat.eqb_spec u t) as [_|N]; [destruct q; exact K|]. exact (TH u).
  Qed.
  (** other tasks are outside: what they rely on does not depend on the table *)
  Lemma yok_out s s' q : in_cs q = false -> yok s q -> yok s' q.
  Proof. destruct q; cbn; auto; discriminate. Qed.
  Lemma yinv_cs_step s s' t q :
    yinv s -> in_cs (y_thr s t) = true -> y_thr s' = fupd (y_thr s) t q ->
    y_mtx s' = (if in_cs q then y_mtx s else None) ->
    (forall i, y_id s' i <> 0 -> i < max) -> (forall i j, y_id s' i = y_id s' j -> y_id s' i <> 0 -> i = j) -> y_kern s' 0 = None ->
    (forall id, y_kern s' id <> None -> id <= nids) -> (forall id p, y_kern s' id = Some p -> pool_ok p) ->
    (forall i, y_id s' i <> 0 -> y_kern s' (y_id s' i) <> None \/ q = YClear i) ->
    (forall id, y_kern s' id <> None -> (exists i, y_id s' i = id) \/ exists bs size i, q = YAssign bs size i id) ->
    yok s' q -> yinv s'.
  Proof.
    intros I O ET EM LT IN ZE NI PO LI OW K. constructor; auto.
    - intros u. rewrite ET, EM, fupd_eq. destruct (Nat.eqb_spec u t) as [->|N].
      + destruct (in_cs q); [|split; discriminate]. rewrite <- (yi_lock s I). now rewrite O.
      + assert (X : in_cs (y_thr s u) = false). { destruct (in_cs (y_thr s u)) eqn:Y; [|reflexivity]. elim N. now apply (cs_unique s t u). }
        rewrite X. split; [discriminate|]. destruct (in_cs q); [|discriminate]. intros Y. apply (yi_lock s I) in Y. congruence.
    - intros i H. destruct (LI i H) as [A|A]; [now left|]. right. exists t. now rewrite ET, fupd_same.
    - intros id H. destruct (OW id H) as [A|(bs & size & i & A)]; [now left|]. right. exists t, bs, size, i. now rewrite ET, fupd_same.
    - intros u. rewrite ET, fupd_eq. destruct (Nat.eqb_spec u t) as [_|N]; [exact K|]. apply (yok_out s); [|apply (yi_thr s I)].
      destruct (in_cs (y_thr s u)) eqn:Y; [|reflexivity]. elim N. now apply (cs_unique s t u).
  Qed.
  Lemma live_cs s t i : yinv s -> in_cs (y_thr s t) = true -> (forall j, y_thr s t <> YClear j) -> y_id s i <> 0 -> y_kern s (y_id s i) <> None.
  Proof.
    intros I O C H. destruct (yi_live s I i H) as [A|(u & A)]; [exact A|]. assert (u = t) by (apply (cs_unique s); auto; now rewrite A). subst. now elim (C i).
  Qed.
  Lemma own_cs s t id : yinv s -> in_cs (y_thr s t) = true -> (forall bs size i j, y_thr s t <> YAssign bs size i j) -> y_kern s id <> None -> exists i, y_id s i = id.
  Proof.
    intros I O C H. destruct (yi_own s I id H) as [A|(u & bs & size & i & A)]; [exact A|].
    assert (u = t) by (apply (cs_unique s); auto; now rewrite A). subst. now elim (C bs size i id).
  Qed.
  Lemma place_sound s size addr base : place_ok nids s size addr base = true -> yinv s ->
    base <> 0%N /\ (addr <> 0%N -> base = addr) /\ (addr = 0%N -> forall k p, y_kern s k = Some p -> apart base size (v_base p) (v_size p)).
  Proof.
    unfold place_ok. intros H I. destruct (N.eqb_spec addr 0) as [Z|NZ].
    - apply andb_true_iff in H. destruct H as (A & B). apply negb_true_iff, N.eqb_neq in A. split; [exact A|]. split; [congruence|]. intros _ k p K.
      rewrite forallb_forall in B. apply apartb_iff. specialize (B k). rewrite K in B. apply B, in_seq.
      assert (k <= nids) by (apply (yi_nids s I); congruence). assert (k <> 0) by (intros ->; rewrite (yi_zero s I) in K; discriminate). lia.
    - apply N.eqb_eq in H. subst base. split; [exact NZ|]. split; [reflexivity|]. congruence.
  Qed.

  Notation step := (y_step max nids us true).
  Lemma yinv_step s l s' e : yinv s -> step s l = Some (s', e) -> yinv s'.
  Proof.
    intros I E. pose proof I as [LK LT IN ZE NI PO LI OW TH]. destruct l as [t c|t|t id base|t b]; cbn beta iota delta [y_step] in E.
    - destruct (y_thr s t) eqn:ET; try discriminate.
      assert (O : in_cs (y_thr s t) = false) by now rewrite ET.
      destruct c as [size addr|i|i n|i a]; try (injection E as <- <-; apply yinv_go; auto; exact Logic.I).
      destruct (N.eqb_spec size 0); cbn in E; injection E as <- <-; apply yinv_go; auto; cbn; auto.
    - pose proof (TH t) as MT. destruct (y_thr s t) as [|c|size addr i|size addr i|size addr i id|i|i|r|c|r] eqn:ET; cbn in MT; try discriminate.
      + (* lock *)
        destruct (y_mtx s) eqn:EM; [discriminate|]. injection E as <- <-.
        assert (N0 : forall u, in_cs (y_thr s u) = false). { intros u. destruct (in_cs (y_thr s u)) eqn:X; [|reflexivity]. apply LK in X. congruence. }
        set (q := match c with VCreate size addr => YScan size addr 0 | VDestroy i => YDel i | _ => YIdle end).
        assert (Q : in_cs q = true /\ (forall i, q <> YClear i) /\ (forall bs size i id, q <> YAssign bs size i id)).
        { subst q. destruct c; cbn in MT; try tauto; repeat split; congruence. }
        destruct Q as (Q & Q1 & Q2). constructor; cbn; auto.
        * intros u. rewrite fupd_eq. destruct (Nat.eqb_spec u t) as [->|N]; [rewrite Q; tauto|]. rewrite N0. split; congruence.
        * intros i H. destruct (LI i H) as [A|(u & A)]; [now left|]. specialize (N0 u). rewrite A in N0. discriminate.
        * intros id H. destruct (OW id H) as [A|(u & bs & size & i & A)]; [now left|]. specialize (N0 u). rewrite A in N0. discriminate.
        * intros u. rewrite fupd_eq. destruct (Nat.eqb_spec u t) as [_|N]; [|exact (TH u)].
          subst q. destruct c; cbn in MT; try tauto; cbn; auto. split; [exact MT|]. split; [lia|]. intros; lia.
      + (* scan *)
        destruct MT as (B1 & B3 & B4). assert (O : in_cs (y_thr s t) = true) by now rewrite ET.
        destruct (Nat.ltb_spec i max) as [L|L].
        * destruct (Nat.ltb_spec 0 (y_id s i)) as [EI|EI]; injection E as <- <-; apply yinv_in; auto; try (rewrite ET; congruence); cbn; auto.
          { split; [exact B1|]. split; [lia|]. intros j J. destruct (Nat.eq_dec j i) as [->|N]; [lia|]. apply B4. lia. } split; [exact B1|]. split; [exact L|lia].
        * injection E as <- <-. apply yinv_in; auto; try (rewrite ET; congruence). exact Logic.I.
      + (* assign *)
        destruct MT as (B1 & B3 & B4 & B5 & B8 & base & C1 & C2 & C3 & C4). injection E as <- <-. assert (O : in_cs (y_thr s t) = true) by now rewrite ET.
        apply (yinv_cs_step s _ t (YUnlock (VPool i)) I O); [reflexivity|reflexivity| | | | | | | |exact Logic.I]; cbn.
        * intros j. rewrite fupd_eq. destruct (Nat.eqb_spec j i) as [->|N]; auto.
        * intros j j'. rewrite !fupd_eq. destruct (Nat.eqb_spec j i) as [->|N]; destruct (Nat.eqb_spec j' i) as [->|N']; auto.
          -- intros X. now elim (B8 j').
          -- intros X. now elim (B8 j).
        * exact ZE.
        * exact NI.
        * exact PO.
        * intros j. rewrite !fupd_eq. destruct (Nat.eqb_spec j i) as [->|N]; [left; congruence|]. intros H. left.
          apply (live_cs s t); auto. rewrite ET. congruence.
        * intros k H. left. destruct (OW k H) as [(j & J)|(u & bs' & size' & i' & X)].
          -- exists j. rewrite fupd_other; [exact J|]. intros ->. rewrite B4 in J. subst k. now rewrite ZE in H.
          -- assert (u = t) by (apply (cs_unique s); auto; now rewrite X). subst u. rewrite ET in X. injection X as _ _ _ <-. exists i. now rewrite fupd_same.
      + (* del *)
        injection E as <- <-. assert (O : in_cs (y_thr s t) = true) by now rewrite ET.
        assert (K0 : forall k, (if 0 <? y_id s i then fupd (y_kern s) (y_id s i) None else y_kern s) k = if Nat.eqb k (y_id s i) then if 0 <? y_id s i then None else y_kern s k else y_kern s k).
        { intros k. unfold fupd. now destruct (0 <? y_id s i), (Nat.eqb k (y_id s i)). }
        assert (K1 : forall k, (if 0 <? y_id s i then fupd (y_kern s) (y_id s i) None else y_kern s) k <> None -> (if 0 <? y_id s i then fupd (y_kern s) (y_id s i) None else y_kern s) k = y_kern s k).
        { intros k. rewrite K0. now destruct (Nat.eqb k (y_id s i)), (0 <? y_id s i). }
        apply (yinv_cs_step s _ t (YClear i) I O); [reflexivity|reflexivity| | | | | | | |]; cbn [y_id y_kern y_mtx y_thr]; auto.
        * rewrite K0. destruct (Nat.eqb_spec 0 (y_id s i)); [destruct (0 <? y_id s i)|]; auto.
        * intros k H. apply NI. now rewrite <- (K1 k H).
        * intros k p H. apply (PO k p). rewrite <- (K1 k); [exact H|congruence].
        * intros j H. rewrite K0. destruct (Nat.eqb_spec (y_id s j) (y_id s i)) as [X|N].
          -- right. f_equal. symmetry. now apply IN.
          -- left. apply (live_cs s t); auto. rewrite ET. congruence.
        * intros k H. left. apply (own_cs s t); auto; [rewrite ET; congruence|]. now rewrite <- (K1 k H).
        * cbn. rewrite K0, Nat.eqb_refl. destruct (Nat.ltb_spec 0 (y_id s i)); [reflexivity|]. replace (y_id s i) with 0 by lia. exact ZE.
      + (* clear *)
        injection E as <- <-. assert (O : in_cs (y_thr s t) = true) by now rewrite ET.
        apply (yinv_cs_step s _ t (YUnlock VVoid) I O); [reflexivity|reflexivity| | | | | | | |exact Logic.I]; cbn; auto.
        * intros j. rewrite fupd_eq. destruct (Nat.eqb_spec j i); [tauto|auto].
        * intros j j'. rewrite !fupd_eq. destruct (Nat.eqb_spec j i) as [->|N]; destruct (Nat.eqb_spec j' i) as [->|N']; auto; congruence.
        * intros j. rewrite !fupd_eq. destruct (Nat.eqb_spec j i) as [->|N]; [tauto|]. intros H. left. destruct (LI j H) as [A|(u & A)]; [exact A|].
          assert (u = t) by (apply (cs_unique s); auto; now rewrite A). subst u. rewrite ET in A. injection A as <-. now elim N.
        * intros k H. left. destruct (own_cs s t k I O ltac:(rewrite ET; congruence) H) as (j & J). exists j. rewrite fupd_other; [exact J|]. intros ->. congruence.
      + (* unlock *)
        injection E as <- <-. assert (O : in_cs (y_thr s t) = true) by now rewrite ET.
        apply (yinv_cs_step s _ t (YRet r) I O); [reflexivity|reflexivity| | | | | | | |exact Logic.I]; cbn; auto.
        * intros j H. left. apply (live_cs s t); auto. rewrite ET. congruence.
        * intros k H. left. apply (own_cs s t); auto. rewrite ET. congruence.
      + (* allocate, deallocate *)
        assert (O : in_cs (y_thr s t) = false) by now rewrite ET.
        destruct c as [size addr|i|i n|i a]; cbn in MT; try tauto.
        * destruct (y_kern s (y_id s i)) as [p|] eqn:EK; [destruct (no_place us p n); [|discriminate]|]; injection E as <- <-; apply yinv_go; auto; exact Logic.I.
        * injection E as <- <-. apply yinv_out; auto; try exact Logic.I.
          destruct (y_kern s (y_id s i)) as [p|] eqn:EK; [|now apply same_areas_refl]. destruct (N.eqb a 0); [now apply same_areas_refl|].
          apply (same_areas_upd s i p); auto. apply pool_ok_free. exact (PO _ _ EK).
      + injection E as <- <-. apply yinv_go; [exact I|now rewrite ET|reflexivity|exact Logic.I].
    - pose proof (TH t) as MT. destruct (y_thr s t) as [|c|size addr i|size addr i|size addr i k|i|i|r|c|r] eqn:ET; try discriminate. cbn in MT.
      destruct MT as (B1 & B3 & B4). assert (O : in_cs (y_thr s t) = true) by now rewrite ET.
      destruct (Nat.eqb_spec id 0) as [->|N0]; [injection E as <- <-; apply yinv_in; auto; try (rewrite ET; congruence); exact Logic.I|].
      destruct ((id <=? nids) && place_ok nids s size addr base)%bool eqn:PL; [|discriminate]. apply andb_true_iff in PL. destruct PL as (PN & PL). apply Nat.leb_le in PN.
      destruct (place_sound _ _ _ _ PL I) as (P1 & P2 & P3).
      destruct (y_kern s id) eqn:EK; [discriminate|]. injection E as <- <-.
      assert (FR : forall j, y_id s j <> id). { intros j X. apply (live_cs s t j I O); [rewrite ET; congruence|congruence|now rewrite X]. }
      apply (yinv_cs_step s _ t (YAssign size addr i id) I O); [reflexivity|reflexivity| | | | | | | |]; cbn; auto.
      + rewrite fupd_other by auto. exact ZE.
      + intros k. rewrite fupd_eq. destruct (Nat.eqb_spec k id) as [->|N]; auto.
      + intros k p. rewrite fupd_eq. destruct (Nat.eqb_spec k id) as [->|N]; [|apply PO]. intros [= <-]. now apply pool_ok_new.
      + intros j H. left. rewrite fupd_other by auto. apply (live_cs s t); auto. rewrite ET. congruence.
      + intros k. rewrite fupd_eq. destruct (Nat.eqb_spec k id) as [->|N]; [right; eauto|]. intros H. left. apply (own_cs s t); auto. rewrite ET. congruence.
      + repeat (split; [assumption|]). exists base. split; [apply fupd_same|]. split; [exact P1|]. split; [exact P2|].
        intros Z j p H. rewrite fupd_other in H by auto. exact (P3 Z _ p H).
    - destruct (y_thr s t) as [|c|size addr i|size addr i|size addr i k|i|i|r|c|r] eqn:ET; try discriminate. destruct c as [size addr|i|i n|i a]; try discriminate.
      destruct (y_kern s (y_id s i)) as [p|] eqn:EK; [|discriminate]. destruct (grants us p n b) eqn:G; [|discriminate]. injection E as <- <-.
      apply grants_free in G. destruct G as (G & _).
      apply yinv_out; [exact I|now rewrite ET|reflexivity|exact Logic.I|]. apply (same_areas_upd s i p); auto. apply pool_ok_get; auto. exact (PO _ _ EK).
  Qed.

  (** * linearizability *)
  Definition yabs (s : yst) : vstate := fun i => y_kern s (y_id s i).
  Definition yst_of (q : ypc) : status vcall vres :=
    match q with
    | YIdle => Out
    | YLock c | YAt c => Pending c
    | YScan size addr _ | YAcre size addr _ | YAssign size addr _ _ => Pending (VCreate size addr)
    | YDel i => Pending (VDestroy i)
    | YClear i => Done VVoid
    | YUnlock r | YRet r => Done r
    end.
  Definition ystof (s : yst) (t : nat) : status vcall vres := yst_of (y_thr s t).
  Notation spec := (vspec max us).
  Definition ylin (s : yst) (es : yout) : Prop :=
    exists f a, lin_run spec (fun _ => Out) v_new es f a /\ (forall t, f t = ystof s t) /\ veq a (yabs s).

  Lemma veq_vset f g i x : veq f g -> veq (vset f i x) (vset g i x).
  Proof. intros H j. unfold vset. destruct (Nat.eqb j i); [reflexivity|apply H]. Qed.
  Lemma veq_trans f g h : veq f g -> veq g h -> veq f h.
  Proof. intros A B i. now rewrite A. Qed.
  Lemma veq_sym f g : veq f g -> veq g f.
  Proof. intros A i. now rewrite A. Qed.
  Lemma vspec_pre a a' t c r b : veq a a' -> spec a' t c r b -> spec a t c r b.
  Proof.
    intros P H. destruct c as [size addr|i|i n|i x]; cbn in *; rewrite ?(P i).
    - destruct r; auto.
      + destruct H as (A & B & C & base & D1 & D2 & D3 & G). rewrite (P i). repeat (split; [assumption|]). exists base. split; [exact D1|]. split; [exact D2|]. split.
        * intros Z j p. rewrite (P j). now apply D3.
        * apply (veq_trans _ _ _ G). now apply veq_vset, veq_sym.
      + destruct H as (A & B). split; [intros j J; rewrite (P j); now apply A|]. apply (veq_trans _ _ _ B). now apply veq_sym.
      + destruct H as ((j & A & A') & B). split; [exists j; now rewrite (P j)|]. apply (veq_trans _ _ _ B). now apply veq_sym.
      + destruct H as (A & B). split; [exact A|]. apply (veq_trans _ _ _ B). now apply veq_sym.
    - destruct H as (A & B). split; [exact A|]. apply (veq_trans _ _ _ B). now apply veq_vset, veq_sym.
    - destruct (a' i) as [p|].
      + destruct r; auto.
        * destruct H as (A & C). split; [assumption|]. apply (veq_trans _ _ _ C). now apply veq_vset, veq_sym.
        * destruct H as (A & B). split; [exact A|]. apply (veq_trans _ _ _ B). now apply veq_sym.
      + destruct H as (A & B). split; [exact A|]. apply (veq_trans _ _ _ B). now apply veq_sym.
    - destruct H as (A & B). split; [exact A|]. destruct (a' i).
      + apply (veq_trans _ _ _ B). now apply veq_vset, veq_sym.
      + apply (veq_trans _ _ _ B). now apply veq_sym.
  Qed.
  Lemma ylin_nil s es s' : ylin s es -> veq (yabs s') (yabs s) -> (forall u, ystof s' u = ystof s u) -> ylin s' (es ++ []).
  Proof.
    intros (f & a & L & F & A) P S. rewrite app_nil_r. exists f, a. split; [exact L|]. split; [intros u; now rewrite S|].
    apply (veq_trans _ _ _ A). now apply veq_sym.
  Qed.
  Lemma ylin_call s es s' t c : ylin s es -> veq (yabs s') (yabs s) -> ystof s t = Out ->
    (forall u, ystof s' u = if Nat.eqb u t then Pending c else ystof s u) -> ylin s' (es ++ [Call t c]).
  Proof.
    intros (f & a & L & F & A) P O S. exists (set_st f t (Pending c)), a. split.
    - apply (lin_run_app _ _ _ _ _ _ _ _ _ _ _ _ L). constructor; [now rewrite F|constructor].
    - split; [intros u; unfold set_st; rewrite S; destruct (Nat.eqb u t); auto|]. apply (veq_trans _ _ _ A). now apply veq_sym.
  Qed.
  Lemma ylin_eff s es s' t c r : ylin s es -> ystof s t = Pending c -> spec (yabs s) t c r (yabs s') ->
    (forall u, ystof s' u = if Nat.eqb u t then Done r else ystof s u) -> ylin s' (es ++ [Eff t c r]).
  Proof.
    intros (f & a & L & F & A) O H S. exists (set_st f t (Done r)), (yabs s'). split.
    - apply (lin_run_app _ _ _ _ _ _ _ _ _ _ _ _ L). econstructor; [now rewrite F|exact (vspec_pre _ _ _ _ _ _ A H)|constructor].
    - split; [intros u; unfold set_st; rewrite S; destruct (Nat.eqb u t); auto|]. intros i. reflexivity.
  Qed.
  Lemma ylin_call_eff s es s' t c r : ylin s es -> ystof s t = Out -> spec (yabs s) t c r (yabs s') ->
    (forall u, ystof s' u = if Nat.eqb u t then Done r else ystof s u) -> ylin s' (es ++ [Call t c; Eff t c r]).
  Proof.
    intros (f & a & L & F & A) O H S. exists (set_st (set_st f t (Pending c)) t (Done r)), (yabs s'). split.
    - apply (lin_run_app _ _ _ _ _ _ _ _ _ _ _ _ L). constructor; [now rewrite F|]. econstructor; [unfold set_st; now rewrite Nat.eqb_refl|exact (vspec_pre _ _ _ _ _ _ A H)|constructor].
    - split; [intros u; unfold set_st; rewrite S; destruct (Nat.eqb u t); auto|]. intros i. reflexivity.
  Qed.
  Lemma ylin_ret s es s' t r : ylin s es -> veq (yabs s') (yabs s) -> ystof s t = Done r ->
    (forall u, ystof s' u = if Nat.eqb u t then Out else ystof s u) -> ylin s' (es ++ [Ret t r]).
  Proof.
    intros (f & a & L & F & A) P O S. exists (set_st f t Out), a. split.
    - apply (lin_run_app _ _ _ _ _ _ _ _ _ _ _ _ L). constructor; [now rewrite F|constructor].
    - split; [intros u; unfold set_st; rewrite S; destruct (Nat.eqb u t); auto|]. apply (veq_trans _ _ _ A). now apply veq_sym.
  Qed.
  Lemma ystof_upd s s' t q x u : y_thr s' = fupd (y_thr s) t q -> yst_of q = x -> ystof s' u = if Nat.eqb u t then x else ystof s u.
  Proof. intros H <-. unfold ystof. rewrite H, fupd_eq. now destruct (Nat.eqb u t). Qed.
  Lemma ystof_same s s' t q u : y_thr s' = fupd (y_thr s) t q -> ystof s t = yst_of q -> ystof s' u = ystof s u.
  Proof. intros H E. rewrite (ystof_upd s s' t q (yst_of q) u H eq_refl). destruct (Nat.eqb_spec u t) as [->|]; [now rewrite E|reflexivity]. Qed.
  Lemma veq_refl (f : vstate) : veq f f. Proof. now intros i. Qed.
  (** the kernel's pool of slot i changes *)
  Lemma yabs_upd s i x k : yinv s -> y_kern s (y_id s i) <> None -> k = fupd (y_kern s) (y_id s i) x ->
    forall j, k (y_id s j) = vset (yabs s) i x j.
  Proof.
    intros I NN -> j. unfold vset, yabs. rewrite fupd_eq. destruct (Nat.eqb_spec j i) as [->|N]; [now rewrite Nat.eqb_refl|].
    destruct (Nat.eqb_spec (y_id s j) (y_id s i)) as [X|_]; [|reflexivity].
    elim N. apply (yi_inj s I); [exact X|]. intros Z. rewrite X in Z. apply NN. rewrite Z. apply (yi_zero s I).
  Qed.

  Lemma ylin_step s es l s' e : yinv s -> ylin s es -> step s l = Some (s', e) -> ylin s' (es ++ e).
  Proof.
    intros I L E. pose proof I as [LK LT IN ZE NI PO LI OW TH]. destruct l as [t c|t|t id base|t b]; cbn beta iota delta [y_step] in E.
    - destruct (y_thr s t) eqn:ET; try discriminate. assert (O : ystof s t = Out) by (unfold ystof; now rewrite ET).
      destruct c as [size addr|i|i n|i a]; try (injection E as <- <-; apply (ylin_call s); [exact L|apply veq_refl|exact O|intros u; eapply ystof_upd; reflexivity]).
      destruct (N.eqb_spec size 0) as [B|B]; injection E as <- <-.
      + apply (ylin_call_eff s); [exact L|exact O| |intros u; eapply ystof_upd; reflexivity]. cbn. split; [exact B|apply veq_refl].
      + apply (ylin_call s); [exact L|apply veq_refl|exact O|intros u; eapply ystof_upd; reflexivity].
    - pose proof (TH t) as MT. destruct (y_thr s t) as [|c|size addr i|size addr i|size addr i id|i|i|r|c|r] eqn:ET; cbn in MT; try discriminate.
      + destruct (y_mtx s) eqn:EM; [discriminate|]. injection E as <- <-. apply (ylin_nil s); [exact L|apply veq_refl|].
        intros u. destruct c; cbn in MT; try tauto; (eapply ystof_same; [reflexivity|unfold ystof; now rewrite ET]).
      + destruct MT as (B1 & B3 & B4). assert (O : in_cs (y_thr s t) = true) by now rewrite ET. assert (Q : ystof s t = Pending (VCreate size addr)) by (unfold ystof; now rewrite ET).
        destruct (Nat.ltb_spec i max) as [LM|LM].
        * destruct (0 <? y_id s i); injection E as <- <-; (apply (ylin_nil s); [exact L|apply veq_refl|]; intros u; eapply ystof_same; [reflexivity|exact Q]).
        * injection E as <- <-. apply (ylin_eff s); [exact L|exact Q| |intros u; eapply ystof_upd; reflexivity]. cbn. split; [|apply veq_refl].
          intros j J X. assert (J0 : y_id s j <> 0) by (apply B4; lia).
          apply (live_cs s t j I O); [rewrite ET; congruence|exact J0|]. exact X.
      + destruct MT as (B1 & B3 & B4 & B5 & B8 & base & C1 & C2 & C3 & C4). injection E as <- <-.
        apply (ylin_eff s); [exact L|unfold ystof; now rewrite ET| |intros u; eapply ystof_upd; reflexivity]. cbn.
        split; [exact B3|]. split; [unfold yabs; now rewrite B4, ZE|]. split; [exact B1|]. exists base. repeat (split; [assumption|]).
        intros j. unfold yabs, vset. cbn. rewrite !fupd_eq. destruct (Nat.eqb_spec j i) as [->|N]; [exact C1|reflexivity].
      + injection E as <- <-. apply (ylin_eff s); [exact L|unfold ystof; now rewrite ET| |intros u; eapply ystof_upd; reflexivity]. cbn [vspec].
        split; [reflexivity|]. intros j. unfold yabs, vset. cbn [y_kern y_id].
        destruct (Nat.ltb_spec 0 (y_id s i)) as [P|P].
        * rewrite fupd_eq. destruct (Nat.eqb_spec j i) as [->|N]; [now rewrite Nat.eqb_refl|]. destruct (Nat.eqb_spec (y_id s j) (y_id s i)) as [X|_]; [|reflexivity].
          elim N. apply IN; [exact X|]. lia.
        * destruct (Nat.eqb_spec j i) as [->|N]; [|reflexivity]. replace (y_id s i) with 0 by lia. now rewrite ZE.
      + injection E as <- <-. apply (ylin_nil s); [exact L| |intros u; eapply ystof_same; [reflexivity|unfold ystof; now rewrite ET]].
        intros j. unfold yabs. cbn. rewrite !fupd_eq. destruct (Nat.eqb_spec j i) as [->|N]; [|reflexivity]. now rewrite ZE, MT.
      + injection E as <- <-. apply (ylin_nil s); [exact L|apply veq_refl|intros u; eapply ystof_same; [reflexivity|unfold ystof; now rewrite ET]].
      + assert (Q : ystof s t = Pending c) by (unfold ystof; now rewrite ET). destruct c as [size addr|i|i n|i a]; cbn in MT; try tauto.
        * destruct (y_kern s (y_id s i)) as [p|] eqn:EK; [destruct (no_place us p n) eqn:AO; [|discriminate]|]; injection E as <- <-;
            (apply (ylin_eff s); [exact L|exact Q| |intros u; eapply ystof_upd; reflexivity]); cbn; unfold yabs at 1; rewrite EK; cbn; (split; [|apply veq_refl]).
          -- now apply no_place_true.
          -- reflexivity.
        * injection E as <- <-. apply (ylin_eff s); [exact L|exact Q| |intros u; eapply ystof_upd; reflexivity]. cbn. split; [reflexivity|].
          unfold yabs at 1. destruct (y_kern s (y_id s i)) as [p|] eqn:EK; cbn.
          -- destruct (N.eqb_spec a 0) as [->|NA].
             ++ rewrite (filter_zero p (PO _ _ EK)). intros j. unfold vset, yabs at 1. cbn. destruct (Nat.eqb_spec j i) as [->|N]; [|reflexivity]. rewrite EK. now destruct p.
             ++ intros j. unfold yabs at 1. cbn [y_kern y_id]. apply yabs_upd; auto. congruence.
          -- intros j. reflexivity.
      + injection E as <- <-. apply (ylin_ret s); [exact L|apply veq_refl|unfold ystof; now rewrite ET|intros u; eapply ystof_upd; reflexivity].
    - pose proof (TH t) as MT. destruct (y_thr s t) as [|c|size addr i|size addr i|size addr i k|i|i|r|c|r] eqn:ET; try discriminate. cbn in MT.
      destruct MT as (B1 & B3 & B4). assert (O : in_cs (y_thr s t) = true) by now rewrite ET. assert (Q : ystof s t = Pending (VCreate size addr)) by (unfold ystof; now rewrite ET).
      destruct (Nat.eqb_spec id 0) as [->|N0].
      + injection E as <- <-. apply (ylin_eff s); [exact L|exact Q| |intros u; eapply ystof_upd; reflexivity]. cbn. split; [|apply veq_refl]. exists i. split; [exact B3|].
        unfold yabs. now rewrite B4, ZE.
      + destruct (_ && _)%bool; [|discriminate]. destruct (y_kern s id) eqn:EK; [discriminate|]. injection E as <- <-.
        apply (ylin_nil s); [exact L| |intros u; eapply ystof_same; [reflexivity|exact Q]].
        intros j. unfold yabs. cbn. rewrite fupd_other; [reflexivity|]. intros X. destruct (Nat.eq_dec (y_id s j) 0) as [Z|Z]; [congruence|].
        apply (live_cs s t j I O); [rewrite ET; congruence|exact Z|congruence].
    - destruct (y_thr s t) as [|c|size addr i|size addr i|size addr i k|i|i|r|c|r] eqn:ET; try discriminate. destruct c as [size addr|i|i n|i a]; try discriminate.
      destruct (y_kern s (y_id s i)) as [p|] eqn:EK; [|discriminate]. destruct (grants us p n b) eqn:G; [|discriminate]. injection E as <- <-.
      apply grants_free in G. destruct G as (G & _).
      apply (ylin_eff s); [exact L|unfold ystof; now rewrite ET| |intros u; eapply ystof_upd; reflexivity]. cbn. unfold yabs at 1. rewrite EK. cbn.
      split; [exact G|]. intros j. unfold yabs at 1. cbn [y_kern y_id]. apply yabs_upd; auto. congruence.
  Qed.
  Lemma ylin_init : ylin y_init [].
  Proof. exists (fun _ => Out), v_new. split; [constructor|]. split; [reflexivity|]. intros i. reflexivity. Qed.
  Lemma y_reach ls s es : exec step y_init ls = Some (s, es) -> yinv s /\ ylin s es.
  Proof.
    intros E. refine (exec_inv _ _ _ step (fun s es => yinv s /\ ylin s es) _ ls y_init [] s es (conj yinv_init ylin_init) E).
    intros s0 es0 l s1 es1 (A & B) E1. split; [exact (yinv_step _ _ _ _ A E1)|exact (ylin_step _ _ _ _ _ A B E1)].
  Qed.
  Theorem y_linearizable ls s es : exec step y_init ls = Some (s, es) -> linearizable spec v_new (history es).
  Proof. intros E. destruct (y_reach _ _ _ E) as (_ & f & a & L & _). exists es, f, a. auto. Qed.
  (** when no call is running, the kernel's pools are exactly those of the pools that exist *)
  Theorem y_no_leak ls s es : exec step y_init ls = Some (s, es) -> (forall t, y_idle s t) ->
    exists a, sp_run spec v_new (effects es) a /\
      (forall id, y_kern s id <> None -> exists i, i < max /\ a i = y_kern s id /\ y_id s i = id) /\
      (forall i, a i <> None -> y_kern s (y_id s i) = a i) /\
      (forall i j, a i <> None -> a j <> None -> y_id s i = y_id s j -> i = j).
  Proof.
    intros E ID. destruct (y_reach _ _ _ E) as (I & f & a & L & _ & A). exists a. split; [exact (lin_run_effects _ _ _ _ _ _ _ _ _ L)|].
    assert (NZ : forall i, a i <> None -> y_id s i <> 0). { intros i X Z. rewrite (A i) in X. unfold yabs in X. rewrite Z in X. now rewrite (yi_zero s I) in X. }
    split; [|split].
    - intros id H. destruct (yi_own s I id H) as [(i & X)|(t & bs & size & i & X)]; [|specialize (ID t); unfold y_idle in ID; congruence].
      exists i. assert (Y : a i = y_kern s id) by (rewrite (A i); unfold yabs; now rewrite X). split; [|auto]. apply (yi_lt s I), NZ. now rewrite Y.
    - intros i _. now rewrite (A i).
    - intros i j B C X. apply (yi_inj s I); [exact X|now apply NZ].
  Qed.
  (** ** progress *)
  Theorem y_progress ls s es : exec step y_init ls = Some (s, es) -> y_stuck max nids us true s -> forall t, y_idle s t.
  Proof.
    intros E ST. destruct (y_reach _ _ _ E) as (I & _). clear E.
    assert (CS : forall t, in_cs (y_thr s t) = false).
    { intros t. destruct (in_cs (y_thr s t)) eqn:X; [|reflexivity]. pose proof (ST (UStep t) Logic.I) as A. pose proof (ST (UAcre t 0 0%N) Logic.I) as B.
      unfold y_step in A, B. destruct (y_thr s t) as [|c|bs size i|bs size i|bs size i k|i|i|r|c|r]; cbn in X; try discriminate.
      destruct (i <? max); [|discriminate]. destruct (0 <? y_id s i); discriminate. }
    intros t. unfold y_idle. pose proof (ST (UStep t) Logic.I) as A. pose proof (fun b => ST (UGet t b) Logic.I) as B. pose proof (yi_thr s I t) as MT. specialize (CS t) as CT.
    unfold y_step in A, B. destruct (y_thr s t) as [|c|bs size i|bs size i|bs size i k|i|i|r|c|r] eqn:ET; cbn in CT; try discriminate; [reflexivity| |].
    - destruct (y_mtx s) as [u|] eqn:EM; [|discriminate]. apply (yi_lock s I) in EM. rewrite CS in EM. discriminate.
    - cbn in MT. destruct c as [size addr|i|i n|i a]; try tauto; try discriminate.
      destruct (y_kern s (y_id s i)) as [p|]; [|discriminate]. destruct (no_place us p n) eqn:AO; [discriminate|].
      destruct (no_place_false _ _ _ AO) as (b & B1). specialize (B b). rewrite B1 in B. discriminate.
  Qed.
  Definition ym (q : ypc) : nat :=
    match q with
    | YIdle => 0 | YLock _ => max + 8 | YScan _ _ i => (max - i) + 6 | YAcre _ _ _ => 5 | YAssign _ _ _ _ => 4 | YDel _ => 4 | YClear _ => 3 | YUnlock _ => 2
    | YAt _ => 2 | YRet _ => 1
    end.
  Lemma y_step_decr b s l s' e : y_own_step l -> y_step max nids us b s l = Some (s', e) ->
    exists t q, y_thr s' = fupd (y_thr s) t q /\ ym q < ym (y_thr s t).
  Proof.
    intros P E. destruct l as [t c|t|t id base|t k]; cbn in P; [tauto| | |]; unfold y_step in E; exists t.
    - destruct (y_thr s t) as [|c|bs size i|bs size i|bs size i k|i|i|r|c|r] eqn:ET; try discriminate.
      + destruct b; [destruct (y_mtx s); [discriminate|]|]; injection E as <- <-; (eexists; split; [reflexivity|]); destruct c; cbn; lia.
      + destruct (Nat.ltb_spec i max); [destruct (0 <? y_id s i)|]; injection E as <- <-; (eexists; split; [reflexivity|]); cbn [ym]; lia.
      + injection E as <- <-. eexists. split; [reflexivity|]. cbn; lia.
      + injection E as <- <-. eexists. split; [reflexivity|]. cbn; lia.
      + injection E as <- <-. eexists. split; [reflexivity|]. cbn; lia.
      + injection E as <- <-. eexists. split; [reflexivity|]. cbn; lia.
      + destruct c as [size addr|i|i n|i a]; try discriminate.
        * destruct (y_kern s (y_id s i)) as [p|]; [destruct (no_place us p n); [|discriminate]|]; injection E as <- <-; (eexists; split; [reflexivity|]); cbn; lia.
        * injection E as <- <-. eexists. split; [reflexivity|]. cbn; lia.
      + injection E as <- <-. eexists. split; [reflexivity|]. cbn; lia.
    - destruct (y_thr s t) as [|c|bs size i|bs size i|bs size i k|i|i|r|c|r] eqn:ET; try discriminate.
      destruct (id =? 0); [|destruct (_ && _)%bool; [|discriminate]; destruct (y_kern s id); [discriminate|]]; injection E as <- <-; (eexists; split; [reflexivity|]); cbn; lia.
    - destruct (y_thr s t) as [|c|bs size i|bs size i|bs size i j|i|i|r|c|r] eqn:ET; try discriminate. destruct c as [size addr|i|i n|i a]; try discriminate.
      destruct (y_kern s (y_id s i)) as [p|]; [|discriminate]. destruct (grants us p n k); [|discriminate]. injection E as <- <-. eexists. split; [reflexivity|]. cbn; lia.
  Qed.
  Theorem y_bounded n ls0 s es0 ls s' es : exec step y_init ls0 = Some (s, es0) -> (forall t, n <= t -> y_idle s t) ->
    (forall l, In l ls -> y_own_step l) -> exec step s ls = Some (s', es) -> length ls <= n * (max + 8).
  Proof.
    intros _ ID OW E. set (m := fun s => sumn (fun t => ym (y_thr s t)) n).
    assert (H : length ls + m s' <= m s).
    { refine (exec_measure _ _ _ step (fun s => forall t, n <= t -> y_idle s t) y_own_step m _ ls s s' es ID OW E).
      clear. intros s l s' e ID P E. destruct (y_step_decr true s l s' e P E) as (t & q & ET & D).
      assert (T : t < n). { destruct (Nat.lt_ge_cases t n) as [X|X]; [exact X|]. specialize (ID t X). unfold y_idle in ID. rewrite ID in D. cbn in D. lia. }
      split.
      - intros u U. unfold y_idle. rewrite ET, fupd_other by lia. now apply ID.
      - unfold m. pose proof (sumn_change n (fun u => ym (y_thr s u)) (fun u => ym (y_thr s' u)) t T) as C. cbn beta in C.
        rewrite ET, fupd_same in C. rewrite ET. assert (X : forall u, u <> t -> ym (fupd (y_thr s) t q u) = ym (y_thr s u)) by (intros u U; now rewrite fupd_other).
        specialize (C X). lia. }
    assert (m s <= n * (max + 8)). { apply sumn_bound. intros k _. destruct (y_thr s k); cbn; lia. }
    lia.
  Qed.
End M.
