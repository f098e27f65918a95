(** Proofs about the Itron memory-pool table. *)
From Coq Require Import List NArith Bool Lia Arith.
Import ListNotations.
From Verif Require Import Spec.Linear Spec.MemPoolSpec OS.Sched OS.ItronPoolModel.

(** * blocks *)
Lemma is_out_in b l : is_out b l = true <-> In b l.
Proof.
  unfold is_out. rewrite existsb_exists. split.
  - intros (x & H & E). apply N.eqb_eq in E. now subst.
  - intros H. exists b. split; [exact H|apply N.eqb_refl].
Qed.
Lemma all_out_true cnt out : all_out cnt out = true <-> (forall b, (b < cnt)%N -> In b out).
Proof.
  unfold all_out. rewrite forallb_forall. split.
  - intros H b L. apply is_out_in. rewrite <- (Nnat.N2Nat.id b). apply H. apply in_seq. split; [lia|]. cbn. lia.
  - intros H k K. apply in_seq in K. apply is_out_in. apply H. lia.
Qed.
Lemma all_out_false cnt out : all_out cnt out = false -> exists b, (b <? cnt)%N = true /\ is_out b out = false.
Proof.
  intros H. unfold all_out in H.
  assert (G : forall l, forallb (fun k => existsb (N.eqb (N.of_nat k)) out) l = false -> exists k, In k l /\ is_out (N.of_nat k) out = false).
  { induction l as [|k l IH]; cbn; [discriminate|]. destruct (existsb (N.eqb (N.of_nat k)) out) eqn:X; cbn.
    - intros Y. destruct (IH Y) as (j & A & B). exists j. split; [now right|exact B].
    - intros _. exists k. split; [now left|exact X]. }
  destruct (G _ H) as (k & K & O). apply in_seq in K. exists (N.of_nat k). split; [apply N.ltb_lt; lia|exact O].
Qed.

(** * state invariant *)
Definition in_cs (q : qpc) : bool := match q with QScan _ _ _ | QAcre _ _ _ | QAssign _ _ _ _ | QDel _ | QClear _ | QUnlock _ => true | _ => false end.
Section M.
  Variables (max : nat) (tsz : N -> N -> N).
  Definition qok (s : qst) (q : qpc) : Prop :=
    match q with
    | QIdle | QRet _ | QUnlock _ => True
    | QLock c => match c with PCreate bs size => bs <> 0%N /\ size <> 0%N | PDestroy _ => True | _ => False end
    | QAt c => match c with PCreate _ _ | PDestroy _ => False | _ => True end
    | QScan bs size i => bs <> 0%N /\ size <> 0%N /\ i <= max /\ forall j, j < i -> q_id s j <> 0
    | QAcre bs size i => bs <> 0%N /\ size <> 0%N /\ i < max /\ q_id s i = 0
    | QAssign bs size i id =>
        bs <> 0%N /\ size <> 0%N /\ i < max /\ q_id s i = 0 /\ id <> 0 /\ (0 < q_count tsz bs size)%N /\ q_kern s id = Some (q_count tsz bs size, []) /\
        forall j, q_id s j <> id
    | QDel i => True
    | QClear i => q_kern s (q_id s i) = None
    end.
  Record qinv (s : qst) : Prop := {
    qi_lock : forall t, in_cs (q_thr s t) = true <-> q_mtx s = Some t;
    qi_lt : forall i, q_id s i <> 0 -> i < max;
    qi_inj : forall i j, q_id s i = q_id s j -> q_id s i <> 0 -> i = j;
    qi_zero : q_kern s 0 = None;
    qi_live : forall i, q_id s i <> 0 -> q_kern s (q_id s i) <> None \/ exists t, q_thr s t = QClear i;
    qi_own : forall id, q_kern s id <> None -> (exists i, q_id s i = id) \/ exists t bs size i, q_thr s t = QAssign bs size i id;
    qi_thr : forall t, qok s (q_thr s t)
  }.
  Lemma qinv_init : qinv q_init.
  Proof. constructor; cbn; try tauto; try congruence; try (intros; split; congruence). Qed.

  (** a caller outside the lock moves; the kernel may have changed a live pool into a live pool *)
  Lemma cs_unique s t u : qinv s -> in_cs (q_thr s t) = true -> in_cs (q_thr s u) = true -> u = t.
  Proof. intros I A B. apply (qi_lock s I) in A. apply (qi_lock s I) in B. congruence. Qed.

  (** a task outside the critical section moves to a point outside it *)
  Lemma qinv_out s t q k : qinv s -> in_cs (q_thr s t) = false -> in_cs q = false -> qok s q ->
    (forall id, k id = None <-> q_kern s id = None) -> (forall id cnt, q_kern s id = Some (cnt, []) -> (forall i, q_id s i <> id) -> k id = Some (cnt, [])) ->
    qinv (mkQ (q_id s) (q_bs s) k (q_mtx s) (fupd (q_thr s) t q)).
  Proof.
    intros I O O' K HK HE. pose proof I as [LK LT IN ZE LI OW TH]. constructor; cbn; auto.
    - intros u. rewrite fupd_eq. destruct (Nat.eqb_spec u t) as [->|N]; [|apply LK]. rewrite <- LK, O, O'. tauto.
    - now apply HK.
    - intros i H. destruct (LI i H) as [A|(u & A)].
      + left. intros X. apply A. now apply HK.
      + right. exists u. rewrite fupd_other; [exact A|]. intros ->. rewrite A in O. discriminate.
    - intros id H. destruct (OW id) as [A|(u & bs & size & i & A)]; [intros X; apply H; now apply HK|now left|].
      right. exists u, bs, size, i. rewrite fupd_other; [exact A|]. intros ->. rewrite A in O. discriminate.
    - intros u. rewrite fupd_eq. destruct (Nat.eqb_spec u t) as [_|N].
      + clear -K O'. destruct q; cbn in *; auto; discriminate.
      + pose proof (TH u) as B. destruct (q_thr s u); cbn in *; auto.
        * destruct B as (B1 & B2 & B3 & B4 & B5 & B6 & B7 & B8). repeat (split; [assumption|]). split; [now apply HE|assumption].
        * now apply HK.
  Qed.
  Lemma qinv_go s t q : qinv s -> in_cs (q_thr s t) = false -> in_cs q = false -> qok s q -> qinv (q_go s t q).
  Proof. intros I O O' K. apply (qinv_out s t q (q_kern s)); auto. tauto. Qed.
  (** the holder moves inside, nothing else changes *)
  Lemma qinv_in s t q : qinv s -> in_cs (q_thr s t) = true -> in_cs q = true -> qok s q ->
    (forall i, q_thr s t <> QClear i) -> (forall bs size i id, q_thr s t <> QAssign bs size i id) -> qinv (q_go s t q).
  Proof.
    intros I O O' K C A. pose proof I as [LK LT IN ZE LI OW TH]. constructor; cbn; auto.
    - intros u. rewrite fupd_eq. destruct (Nat.eqb_spec u t) as [->|N]; [|apply LK]. rewrite <- LK, O, O'. tauto.
    - intros i H. destruct (LI i H) as [X|(u & X)]; [now left|]. right. exists u. rewrite fupd_other; [exact X|]. intros ->. now apply (C i).
    - intros id H. destruct (OW id H) as [X|(u & bs & size & i & X)]; [now left|]. right. exists u, bs, size, i. rewrite fupd_other; [exact X|]. intros ->.
      now apply (A bs size i id).
    - intros u. rewrite fupd_eq. destruct (Nat.eqb_spec u t) as [_|N]; [destruct q; exact K|]. exact (TH u).
  Qed.
  (** other tasks are outside: what they rely on does not depend on the table *)
  Lemma qok_out s s' q : in_cs q = false -> qok s q -> qok s' q.
  Proof. destruct q; cbn; auto; discriminate. Qed.
  Lemma qinv_cs_step s s' t q :
    qinv s -> in_cs (q_thr s t) = true -> q_thr s' = fupd (q_thr s) t q ->
    q_mtx s' = (if in_cs q then q_mtx s else None) ->
    (forall i, q_id s' i <> 0 -> i < max) -> (forall i j, q_id s' i = q_id s' j -> q_id s' i <> 0 -> i = j) -> q_kern s' 0 = None ->
    (forall i, q_id s' i <> 0 -> q_kern s' (q_id s' i) <> None \/ q = QClear i) ->
    (forall id, q_kern s' id <> None -> (exists i, q_id s' i = id) \/ exists bs size i, q = QAssign bs size i id) ->
    qok s' q -> qinv s'.
  Proof.
    intros I O ET EM LT IN ZE LI OW K. constructor; auto.
    - intros u. rewrite ET, EM, fupd_eq. destruct (Nat.eqb_spec u t) as [->|N].
      + destruct (in_cs q); [|split; discriminate]. rewrite <- (qi_lock s I). now rewrite O.
      + assert (X : in_cs (q_thr s u) = false). { destruct (in_cs (q_thr s u)) eqn:Y; [|reflexivity]. elim N. now apply (cs_unique s t u). }
        rewrite X. split; [discriminate|]. destruct (in_cs q); [|discriminate]. intros Y. apply (qi_lock s I) in Y. congruence.
    - intros i H. destruct (LI i H) as [A|A]; [now left|]. right. exists t. now rewrite ET, fupd_same.
    - intros id H. destruct (OW id H) as [A|(bs & size & i & A)]; [now left|]. right. exists t, bs, size, i. now rewrite ET, fupd_same.
    - intros u. rewrite ET, fupd_eq. destruct (Nat.eqb_spec u t) as [_|N]; [exact K|]. apply (qok_out s); [|apply (qi_thr s I)].
      destruct (in_cs (q_thr s u)) eqn:Y; [|reflexivity]. elim N. now apply (cs_unique s t u).
  Qed.
  Lemma live_cs s t i : qinv s -> in_cs (q_thr s t) = true -> (forall j, q_thr s t <> QClear j) -> q_id s i <> 0 -> q_kern s (q_id s i) <> None.
  Proof.
    intros I O C H. destruct (qi_live s I i H) as [A|(u & A)]; [exact A|]. assert (u = t) by (apply (cs_unique s); auto; now rewrite A). subst. now elim (C i).
  Qed.
  Lemma own_cs s t id : qinv s -> in_cs (q_thr s t) = true -> (forall bs size i j, q_thr s t <> QAssign bs size i j) -> q_kern s id <> None -> exists i, q_id s i = id.
  Proof.
    intros I O C H. destruct (qi_own s I id H) as [A|(u & bs & size & i & A)]; [exact A|].
    assert (u = t) by (apply (cs_unique s); auto; now rewrite A). subst. now elim (C bs size i id).
  Qed.

  Lemma qinv_step s l s' e : qinv s -> q_step max tsz true s l = Some (s', e) -> qinv s'.
  Proof.
    intros I E. pose proof I as [LK LT IN ZE LI OW TH]. destruct l as [t c|t|t id|t b]; cbn beta iota delta [q_step] in E.
    - destruct (q_thr s t) eqn:ET; try discriminate.
      assert (O : in_cs (q_thr s t) = false) by now rewrite ET.
      destruct c as [bs size|i|i|i b|i]; try (injection E as <- <-; apply qinv_go; auto; exact Logic.I).
      destruct (N.eqb_spec bs 0); cbn in E; [injection E as <- <-; apply qinv_go; auto; exact Logic.I|].
      destruct (N.eqb_spec size 0); cbn in E; injection E as <- <-; apply qinv_go; auto; cbn; auto.
    - pose proof (TH t) as MT. destruct (q_thr s t) as [|c|bs size i|bs size i|bs size i id|i|i|r|c|r] eqn:ET; cbn in MT; try discriminate.
      + (* lock *)
        destruct (q_mtx s) eqn:EM; [discriminate|]. injection E as <- <-.
        assert (N0 : forall u, in_cs (q_thr s u) = false). { intros u. destruct (in_cs (q_thr s u)) eqn:X; [|reflexivity]. apply LK in X. congruence. }
        set (q := match c with PCreate bs size => QScan bs size 0 | PDestroy i => QDel i | _ => QIdle end).
        assert (Q : in_cs q = true /\ (forall i, q <> QClear i) /\ (forall bs size i id, q <> QAssign bs size i id)).
        { subst q. destruct c; cbn in MT; try tauto; repeat split; congruence. }
        destruct Q as (Q & Q1 & Q2). constructor; cbn; auto.
        * intros u. rewrite fupd_eq. destruct (Nat.eqb_spec u t) as [->|N]; [rewrite Q; tauto|]. rewrite N0. split; congruence.
        * intros i H. destruct (LI i H) as [A|(u & A)]; [now left|]. specialize (N0 u). rewrite A in N0. discriminate.
        * intros id H. destruct (OW id H) as [A|(u & bs & size & i & A)]; [now left|]. specialize (N0 u). rewrite A in N0. discriminate.
        * intros u. rewrite fupd_eq. destruct (Nat.eqb_spec u t) as [_|N]; [|exact (TH u)].
          subst q. destruct c; cbn in MT; try tauto; cbn; auto. destruct MT. repeat split; auto; [lia|]. intros; lia.
      + (* scan *)
        destruct MT as (B1 & B2 & B3 & B4). assert (O : in_cs (q_thr s t) = true) by now rewrite ET.
        destruct (Nat.ltb_spec i max) as [L|L].
        * destruct (Nat.ltb_spec 0 (q_id s i)) as [EI|EI]; injection E as <- <-; apply qinv_in; auto; try (rewrite ET; congruence); cbn; auto.
          { repeat split; auto. intros j J. destruct (Nat.eq_dec j i) as [->|N]; [lia|]. apply B4. lia. } repeat split; auto. lia.
        * injection E as <- <-. apply qinv_in; auto; try (rewrite ET; congruence). exact Logic.I.
      + (* assign *)
        destruct MT as (B1 & B2 & B3 & B4 & B5 & B6 & B7 & B8). injection E as <- <-. assert (O : in_cs (q_thr s t) = true) by now rewrite ET.
        apply (qinv_cs_step s _ t (QUnlock (QPool i)) I O); [reflexivity|reflexivity| | | | | |exact Logic.I]; cbn.
        * intros j. rewrite fupd_eq. destruct (Nat.eqb_spec j i) as [->|N]; auto.
        * intros j j'. rewrite !fupd_eq. destruct (Nat.eqb_spec j i) as [->|N]; destruct (Nat.eqb_spec j' i) as [->|N']; auto.
          -- intros X. now elim (B8 j').
          -- intros X. now elim (B8 j).
        * exact ZE.
        * intros j. rewrite !fupd_eq. destruct (Nat.eqb_spec j i) as [->|N]; [left; congruence|]. intros H. left.
          apply (live_cs s t); auto. rewrite ET. congruence.
        * intros k H. left. destruct (OW k H) as [(j & J)|(u & bs' & size' & i' & X)].
          -- exists j. rewrite fupd_other; [exact J|]. intros ->. rewrite B4 in J. subst k. now rewrite ZE in H.
          -- assert (u = t) by (apply (cs_unique s); auto; now rewrite X). subst u. rewrite ET in X. injection X as _ _ _ <-. exists i. now rewrite fupd_same.
      + (* del *)
        injection E as <- <-. assert (O : in_cs (q_thr s t) = true) by now rewrite ET.
        assert (K0 : forall k, (if 0 <? q_id s i then fupd (q_kern s) (q_id s i) None else q_kern s) k = if Nat.eqb k (q_id s i) then if 0 <? q_id s i then None else q_kern s k else q_kern s k).
        { intros k. unfold fupd. now destruct (0 <? q_id s i), (Nat.eqb k (q_id s i)). }
        apply (qinv_cs_step s _ t (QClear i) I O); [reflexivity|reflexivity| | | | | |]; cbn [q_id q_bs q_kern q_mtx q_thr]; auto.
        * rewrite K0. destruct (Nat.eqb_spec 0 (q_id s i)); [destruct (0 <? q_id s i)|]; auto.
        * intros j H. rewrite K0. destruct (Nat.eqb_spec (q_id s j) (q_id s i)) as [X|N].
          -- right. f_equal. symmetry. now apply IN.
          -- left. apply (live_cs s t); auto. rewrite ET. congruence.
        * intros k. rewrite K0. intros H. left. apply (own_cs s t); auto; [rewrite ET; congruence|]. intros X. apply H.
          rewrite X. now destruct (Nat.eqb k (q_id s i)), (0 <? q_id s i).
        * cbn. rewrite K0, Nat.eqb_refl. destruct (Nat.ltb_spec 0 (q_id s i)); [reflexivity|]. replace (q_id s i) with 0 by lia. exact ZE.
      + (* clear *)
        injection E as <- <-. assert (O : in_cs (q_thr s t) = true) by now rewrite ET.
        apply (qinv_cs_step s _ t (QUnlock QVoid) I O); [reflexivity|reflexivity| | | | | |exact Logic.I]; cbn; auto.
        * intros j. rewrite fupd_eq. destruct (Nat.eqb_spec j i); [tauto|auto].
        * intros j j'. rewrite !fupd_eq. destruct (Nat.eqb_spec j i) as [->|N]; destruct (Nat.eqb_spec j' i) as [->|N']; auto; congruence.
        * intros j. rewrite !fupd_eq. destruct (Nat.eqb_spec j i) as [->|N]; [tauto|]. intros H. left. destruct (LI j H) as [A|(u & A)]; [exact A|].
          assert (u = t) by (apply (cs_unique s); auto; now rewrite A). subst u. rewrite ET in A. injection A as <-. now elim N.
        * intros k H. left. destruct (own_cs s t k I O ltac:(rewrite ET; congruence) H) as (j & J). exists j. rewrite fupd_other; [exact J|]. intros ->. congruence.
      + (* unlock *)
        injection E as <- <-. assert (O : in_cs (q_thr s t) = true) by now rewrite ET.
        apply (qinv_cs_step s _ t (QRet r) I O); [reflexivity|reflexivity| | | | | |exact Logic.I]; cbn; auto.
        * intros j H. left. apply (live_cs s t); auto. rewrite ET. congruence.
        * intros k H. left. apply (own_cs s t); auto. rewrite ET. congruence.
      + (* allocate, deallocate, getBlockSize *)
        assert (O : in_cs (q_thr s t) = false) by now rewrite ET.
        destruct c as [bs size|i|i|i b|i]; cbn in MT; try tauto.
        * destruct (q_kern s (q_id s i)) as [[cnt out]|] eqn:EK; [destruct (all_out cnt out); [|discriminate]|]; injection E as <- <-; apply qinv_go; auto; exact Logic.I.
        * injection E as <- <-. apply qinv_out; auto; try exact Logic.I.
          -- intros k. destruct (q_kern s (q_id s i)) as [[cnt out]|] eqn:EK; [|tauto]. rewrite fupd_eq. destruct (Nat.eqb_spec k (q_id s i)) as [->|N]; [|tauto].
             rewrite EK. split; discriminate.
          -- intros k cnt H U. destruct (q_kern s (q_id s i)) as [[cnt' out]|] eqn:EK; [|exact H]. rewrite fupd_other; [exact H|]. intros ->. now elim (U i).
        * injection E as <- <-. apply qinv_go; auto; exact Logic.I.
      + injection E as <- <-. apply qinv_go; [exact I|now rewrite ET|reflexivity|exact Logic.I].
    - pose proof (TH t) as MT. destruct (q_thr s t) as [|c|bs size i|bs size i|bs size i k|i|i|r|c|r] eqn:ET; try discriminate. cbn in MT.
      destruct MT as (B1 & B2 & B3 & B4). assert (O : in_cs (q_thr s t) = true) by now rewrite ET.
      destruct (Nat.eqb_spec id 0) as [->|N0]; [injection E as <- <-; apply qinv_in; auto; try (rewrite ET; congruence); exact Logic.I|].
      destruct (q_kern s id) eqn:EK; [discriminate|]. destruct (N.ltb_spec 0 (q_count tsz bs size)) as [P|P]; [|discriminate]. injection E as <- <-.
      assert (FR : forall j, q_id s j <> id). { intros j X. apply (live_cs s t j I O); [rewrite ET; congruence|congruence|now rewrite X]. }
      apply (qinv_cs_step s _ t (QAssign bs size i id) I O); [reflexivity|reflexivity| | | | | |]; cbn; auto.
      + rewrite fupd_other by auto. exact ZE.
      + intros j H. left. rewrite fupd_other by auto. apply (live_cs s t); auto. rewrite ET. congruence.
      + intros k. rewrite fupd_eq. destruct (Nat.eqb_spec k id) as [->|N]; [right; eauto|]. intros H. left. apply (own_cs s t); auto. rewrite ET. congruence.
      + repeat (split; [assumption|]). split; [apply fupd_same|exact FR].
    - destruct (q_thr s t) as [|c|bs size i|bs size i|bs size i k|i|i|r|c|r] eqn:ET; try discriminate. destruct c as [bs size|i|i|i b'|i]; try discriminate.
      destruct (q_kern s (q_id s i)) as [[cnt out]|] eqn:EK; [|discriminate]. destruct (_ && _); [|discriminate]. injection E as <- <-.
      apply qinv_out; [exact I|now rewrite ET|reflexivity|exact Logic.I| |].
      + intros k. rewrite fupd_eq. destruct (Nat.eqb_spec k (q_id s i)) as [->|N]; [|tauto]. rewrite EK. split; discriminate.
      + intros k cnt' H U. rewrite fupd_other; [exact H|]. intros ->. now elim (U i).
  Qed.

  (** * linearizability *)
  Definition qabs (s : qst) : pstate := fun i =>
    match q_kern s (q_id s i) with Some (cnt, out) => Some (mkPool (q_bs s i) cnt out) | None => None end.
  Definition qst_of (q : qpc) : status pcall pres :=
    match q with
    | QIdle => Out
    | QLock c | QAt c => Pending c
    | QScan bs size _ | QAcre bs size _ | QAssign bs size _ _ => Pending (PCreate bs size)
    | QDel i => Pending (PDestroy i)
    | QClear i => Done QVoid
    | QUnlock r | QRet r => Done r
    end.
  Definition qstof (s : qst) (t : nat) : status pcall pres := qst_of (q_thr s t).
  Notation blk := (q_count tsz).
  Definition qlin (s : qst) (es : qout) : Prop :=
    exists f a, lin_run (pspec max blk) (fun _ => Out) p_new es f a /\ (forall t, f t = qstof s t) /\ peq a (qabs s).

  Lemma peq_pset f g i x : peq f g -> peq (pset f i x) (pset g i x).
  Proof. intros H j. unfold pset. destruct (Nat.eqb j i); [reflexivity|apply H]. Qed.
  Lemma peq_trans f g h : peq f g -> peq g h -> peq f h.
  Proof. intros A B i. now rewrite A. Qed.
  Lemma peq_sym f g : peq f g -> peq g f.
  Proof. intros A i. now rewrite A. Qed.
  Lemma pspec_pre a a' t c r b : peq a a' -> pspec max blk a' t c r b -> pspec max blk a t c r b.
  Proof.
    intros P H. destruct c as [bs size|i|i|i b'|i]; cbn in *; rewrite ?(P i).
    - destruct r; auto.
      + destruct H as (A & B & C & D & F & G). rewrite (P i). repeat (split; [assumption|]). apply (peq_trans _ _ _ G). now apply peq_pset, peq_sym.
      + destruct H as (A & B). split; [intros j J; rewrite (P j); now apply A|]. apply (peq_trans _ _ _ B). now apply peq_sym.
      + destruct H as ((j & A & A') & B). split; [exists j; now rewrite (P j)|]. apply (peq_trans _ _ _ B). now apply peq_sym.
      + destruct H as (A & B). split; [exact A|]. apply (peq_trans _ _ _ B). now apply peq_sym.
    - destruct H as (A & B). split; [exact A|]. apply (peq_trans _ _ _ B). now apply peq_pset, peq_sym.
    - destruct (a' i) as [p|].
      + destruct r; auto.
        * destruct H as (A & B & C). repeat (split; [assumption|]). apply (peq_trans _ _ _ C). now apply peq_pset, peq_sym.
        * destruct H as (A & B). split; [exact A|]. apply (peq_trans _ _ _ B). now apply peq_sym.
      + destruct H as (A & B). split; [exact A|]. apply (peq_trans _ _ _ B). now apply peq_sym.
    - destruct H as (A & B). split; [exact A|]. destruct (a' i).
      + apply (peq_trans _ _ _ B). now apply peq_pset, peq_sym.
      + apply (peq_trans _ _ _ B). now apply peq_sym.
    - destruct H as (A & B). split; [exact A|]. apply (peq_trans _ _ _ B). now apply peq_sym.
  Qed.

  Lemma qlin_nil s es s' : qlin s es -> peq (qabs s') (qabs s) -> (forall u, qstof s' u = qstof s u) -> qlin s' (es ++ []).
  Proof.
    intros (f & a & L & F & A) P S. rewrite app_nil_r. exists f, a. split; [exact L|]. split; [intros u; now rewrite S|].
    apply (peq_trans _ _ _ A). now apply peq_sym.
  Qed.
  Lemma qlin_call s es s' t c : qlin s es -> peq (qabs s') (qabs s) -> qstof s t = Out ->
    (forall u, qstof s' u = if Nat.eqb u t then Pending c else qstof s u) -> qlin s' (es ++ [Call t c]).
  Proof.
    intros (f & a & L & F & A) P O S. exists (set_st f t (Pending c)), a. split.
    - apply (lin_run_app _ _ _ _ _ _ _ _ _ _ _ _ L). constructor; [now rewrite F|constructor].
    - split; [intros u; unfold set_st; rewrite S; destruct (Nat.eqb u t); auto|]. apply (peq_trans _ _ _ A). now apply peq_sym.
  Qed.
  Lemma qlin_eff s es s' t c r : qlin s es -> qstof s t = Pending c -> pspec max blk (qabs s) t c r (qabs s') ->
    (forall u, qstof s' u = if Nat.eqb u t then Done r else qstof s u) -> qlin s' (es ++ [Eff t c r]).
  Proof.
    intros (f & a & L & F & A) O H S. exists (set_st f t (Done r)), (qabs s'). split.
    - apply (lin_run_app _ _ _ _ _ _ _ _ _ _ _ _ L). econstructor; [now rewrite F|exact (pspec_pre _ _ _ _ _ _ A H)|constructor].
    - split; [intros u; unfold set_st; rewrite S; destruct (Nat.eqb u t); auto|]. intros i. reflexivity.
  Qed.
  Lemma qlin_call_eff s es s' t c r : qlin s es -> qstof s t = Out -> pspec max blk (qabs s) t c r (qabs s') ->
    (forall u, qstof s' u = if Nat.eqb u t then Done r else qstof s u) -> qlin s' (es ++ [Call t c; Eff t c r]).
  Proof.
    intros (f & a & L & F & A) O H S. exists (set_st (set_st f t (Pending c)) t (Done r)), (qabs s'). split.
    - apply (lin_run_app _ _ _ _ _ _ _ _ _ _ _ _ L). constructor; [now rewrite F|]. econstructor; [unfold set_st; now rewrite Nat.eqb_refl|exact (pspec_pre _ _ _ _ _ _ A H)|constructor].
    - split; [intros u; unfold set_st; rewrite S; destruct (Nat.eqb u t); auto|]. intros i. reflexivity.
  Qed.
  Lemma qlin_ret s es s' t r : qlin s es -> peq (qabs s') (qabs s) -> qstof s t = Done r ->
    (forall u, qstof s' u = if Nat.eqb u t then Out else qstof s u) -> qlin s' (es ++ [Ret t r]).
  Proof.
    intros (f & a & L & F & A) P O S. exists (set_st f t Out), a. split.
    - apply (lin_run_app _ _ _ _ _ _ _ _ _ _ _ _ L). constructor; [now rewrite F|constructor].
    - split; [intros u; unfold set_st; rewrite S; destruct (Nat.eqb u t); auto|]. apply (peq_trans _ _ _ A). now apply peq_sym.
  Qed.
  Lemma qstof_upd s s' t q x u : q_thr s' = fupd (q_thr s) t q -> qst_of q = x -> qstof s' u = if Nat.eqb u t then x else qstof s u.
  Proof. intros H <-. unfold qstof. rewrite H, fupd_eq. now destruct (Nat.eqb u t). Qed.
  Lemma qstof_same s s' t q u : q_thr s' = fupd (q_thr s) t q -> qstof s t = qst_of q -> qstof s' u = qstof s u.
  Proof. intros H E. rewrite (qstof_upd s s' t q (qst_of q) u H eq_refl). destruct (Nat.eqb_spec u t) as [->|]; [now rewrite E|reflexivity]. Qed.
  Lemma peq_refl (f : pstate) : peq f f. Proof. now intros i. Qed.
  Lemma pset_self (f : pstate) i : peq (pset f i (f i)) f.
  Proof. intros j. unfold pset. destruct (Nat.eqb_spec j i) as [->|]; reflexivity. Qed.

  Lemma qlin_step s es l s' e : qinv s -> qlin s es -> q_step max tsz true s l = Some (s', e) -> qlin s' (es ++ e).
  Proof.
    intros I L E. pose proof I as [LK LT IN ZE LI OW TH]. destruct l as [t c|t|t id|t b]; cbn beta iota delta [q_step] in E.
    - destruct (q_thr s t) eqn:ET; try discriminate. assert (O : qstof s t = Out) by (unfold qstof; now rewrite ET).
      destruct c as [bs size|i|i|i b|i]; try (injection E as <- <-; apply (qlin_call s); [exact L|apply peq_refl|exact O|intros u; eapply qstof_upd; reflexivity]).
      destruct (N.eqb bs 0 || N.eqb size 0)%bool eqn:B; injection E as <- <-.
      + apply (qlin_call_eff s); [exact L|exact O| |intros u; eapply qstof_upd; reflexivity]. cbn. split; [|apply peq_refl].
        apply orb_true_iff in B. rewrite !N.eqb_eq in B. exact B.
      + apply (qlin_call s); [exact L|apply peq_refl|exact O|intros u; eapply qstof_upd; reflexivity].
    - pose proof (TH t) as MT. destruct (q_thr s t) as [|c|bs size i|bs size i|bs size i id|i|i|r|c|r] eqn:ET; cbn in MT; try discriminate.
      + destruct (q_mtx s) eqn:EM; [discriminate|]. injection E as <- <-. apply (qlin_nil s); [exact L|apply peq_refl|].
        intros u. destruct c; cbn in MT; try tauto; (eapply qstof_same; [reflexivity|unfold qstof; now rewrite ET]).
      + destruct MT as (B1 & B2 & B3 & B4). assert (O : in_cs (q_thr s t) = true) by now rewrite ET. assert (Q : qstof s t = Pending (PCreate bs size)) by (unfold qstof; now rewrite ET).
        destruct (Nat.ltb_spec i max) as [LM|LM].
        * destruct (0 <? q_id s i); injection E as <- <-; (apply (qlin_nil s); [exact L|apply peq_refl|]; intros u; eapply qstof_same; [reflexivity|exact Q]).
        * injection E as <- <-. apply (qlin_eff s); [exact L|exact Q| |intros u; eapply qstof_upd; reflexivity]. cbn. split; [|apply peq_refl].
          intros j J X. unfold qabs in X. assert (J0 : q_id s j <> 0) by (apply B4; lia).
          apply (live_cs s t j I O); [rewrite ET; congruence|exact J0|]. destruct (q_kern s (q_id s j)) as [[? ?]|]; [discriminate|reflexivity].
      + destruct MT as (B1 & B2 & B3 & B4 & B5 & B6 & B7 & B8). injection E as <- <-.
        apply (qlin_eff s); [exact L|unfold qstof; now rewrite ET| |intros u; eapply qstof_upd; reflexivity]. cbn.
        split; [exact B3|]. split; [unfold qabs; now rewrite B4, ZE|]. repeat (split; [assumption|]).
        intros j. unfold qabs, pset. cbn. rewrite !fupd_eq. destruct (Nat.eqb_spec j i) as [->|N]; [now rewrite B7|reflexivity].
      + injection E as <- <-. apply (qlin_eff s); [exact L|unfold qstof; now rewrite ET| |intros u; eapply qstof_upd; reflexivity]. cbn [pspec].
        split; [reflexivity|]. intros j. unfold qabs, pset. cbn [q_kern q_id q_bs].
        destruct (Nat.ltb_spec 0 (q_id s i)) as [P|P].
        * rewrite fupd_eq. destruct (Nat.eqb_spec j i) as [->|N]; [now rewrite Nat.eqb_refl|]. destruct (Nat.eqb_spec (q_id s j) (q_id s i)) as [X|_]; [|reflexivity].
          elim N. apply IN; [exact X|]. lia.
        * destruct (Nat.eqb_spec j i) as [->|N]; [|reflexivity]. replace (q_id s i) with 0 by lia. now rewrite ZE.
      + injection E as <- <-. apply (qlin_nil s); [exact L| |intros u; eapply qstof_same; [reflexivity|unfold qstof; now rewrite ET]].
        intros j. unfold qabs. cbn. rewrite !fupd_eq. destruct (Nat.eqb_spec j i) as [->|N]; [|reflexivity]. now rewrite ZE, MT.
      + injection E as <- <-. apply (qlin_nil s); [exact L|apply peq_refl|intros u; eapply qstof_same; [reflexivity|unfold qstof; now rewrite ET]].
      + assert (Q : qstof s t = Pending c) by (unfold qstof; now rewrite ET). destruct c as [bs size|i|i|i b|i]; cbn in MT; try tauto.
        * destruct (q_kern s (q_id s i)) as [[cnt out]|] eqn:EK; [destruct (all_out cnt out) eqn:AO; [|discriminate]|]; injection E as <- <-;
            (apply (qlin_eff s); [exact L|exact Q| |intros u; eapply qstof_upd; reflexivity]); cbn; unfold qabs at 1; rewrite EK; cbn; (split; [|apply peq_refl]).
          -- now apply all_out_true.
          -- reflexivity.
        * injection E as <- <-. apply (qlin_eff s); [exact L|exact Q| |intros u; eapply qstof_upd; reflexivity]. cbn. split; [reflexivity|].
          unfold qabs at 1. destruct (q_kern s (q_id s i)) as [[cnt out]|] eqn:EK; cbn.
          -- intros j. unfold pset, qabs. cbn. rewrite fupd_eq. destruct (Nat.eqb_spec j i) as [->|N]; [now rewrite Nat.eqb_refl|].
             destruct (Nat.eqb_spec (q_id s j) (q_id s i)) as [X|_]; [|reflexivity].
             elim N. apply IN; [exact X|]. intros Z. rewrite X in Z. rewrite Z, ZE in EK. discriminate.
          -- intros j. reflexivity.
        * injection E as <- <-. apply (qlin_eff s); [exact L|exact Q| |intros u; eapply qstof_upd; reflexivity]. cbn. split; [|apply peq_refl].
          unfold qabs. destruct (q_kern s (q_id s i)) as [[cnt out]|]; cbn; eauto.
      + injection E as <- <-. apply (qlin_ret s); [exact L|apply peq_refl|unfold qstof; now rewrite ET|intros u; eapply qstof_upd; reflexivity].
    - pose proof (TH t) as MT. destruct (q_thr s t) as [|c|bs size i|bs size i|bs size i k|i|i|r|c|r] eqn:ET; try discriminate. cbn in MT.
      destruct MT as (B1 & B2 & B3 & B4). assert (O : in_cs (q_thr s t) = true) by now rewrite ET. assert (Q : qstof s t = Pending (PCreate bs size)) by (unfold qstof; now rewrite ET).
      destruct (Nat.eqb_spec id 0) as [->|N0].
      + injection E as <- <-. apply (qlin_eff s); [exact L|exact Q| |intros u; eapply qstof_upd; reflexivity]. cbn. split; [|apply peq_refl]. exists i. split; [exact B3|].
        unfold qabs. now rewrite B4, ZE.
      + destruct (q_kern s id) eqn:EK; [discriminate|]. destruct (N.ltb_spec 0 (q_count tsz bs size)) as [P|P]; [|discriminate]. injection E as <- <-.
        apply (qlin_nil s); [exact L| |intros u; eapply qstof_same; [reflexivity|exact Q]].
        intros j. unfold qabs. cbn. rewrite fupd_other; [reflexivity|]. intros X. destruct (Nat.eq_dec (q_id s j) 0) as [Z|Z]; [congruence|].
        apply (live_cs s t j I O); [rewrite ET; congruence|exact Z|congruence].
    - destruct (q_thr s t) as [|c|bs size i|bs size i|bs size i k|i|i|r|c|r] eqn:ET; try discriminate. destruct c as [bs size|i|i|i b'|i]; try discriminate.
      destruct (q_kern s (q_id s i)) as [[cnt out]|] eqn:EK; [|discriminate]. destruct ((b <? cnt)%N && negb (is_out b out))%bool eqn:BB; [|discriminate]. injection E as <- <-.
      apply andb_true_iff in BB. destruct BB as (B1 & B2). apply N.ltb_lt in B1. apply negb_true_iff in B2.
      apply (qlin_eff s); [exact L|unfold qstof; now rewrite ET| |intros u; eapply qstof_upd; reflexivity]. cbn. unfold qabs at 1. rewrite EK. cbn.
      split; [exact B1|]. split; [intros X; apply is_out_in in X; congruence|].
      intros j. unfold pset, qabs. cbn. rewrite fupd_eq. destruct (Nat.eqb_spec j i) as [->|N]; [now rewrite Nat.eqb_refl|].
      destruct (Nat.eqb_spec (q_id s j) (q_id s i)) as [X|_]; [|reflexivity].
      elim N. apply IN; [exact X|]. intros Z. rewrite X in Z. rewrite Z, ZE in EK. discriminate.
  Qed.
  Lemma qlin_init : qlin q_init [].
  Proof. exists (fun _ => Out), p_new. split; [constructor|]. split; [reflexivity|]. intros i. reflexivity. Qed.
  Lemma q_reach ls s es : exec (q_step max tsz true) q_init ls = Some (s, es) -> qinv s /\ qlin s es.
  Proof.
    intros E. refine (exec_inv _ _ _ (q_step max tsz true) (fun s es => qinv s /\ qlin s es) _ ls q_init [] s es (conj qinv_init qlin_init) E).
    intros s0 es0 l s1 es1 (A & B) E1. split; [exact (qinv_step _ _ _ _ A E1)|exact (qlin_step _ _ _ _ _ A B E1)].
  Qed.
  Theorem q_linearizable ls s es : exec (q_step max tsz true) q_init ls = Some (s, es) -> linearizable (pspec max blk) p_new (history es).
  Proof. intros E. destruct (q_reach _ _ _ E) as (_ & f & a & L & _). exists es, f, a. auto. Qed.
  (** when no call is running, the kernel's pools are exactly those of the pools that exist *)
  Theorem q_no_leak ls s es : exec (q_step max tsz true) q_init ls = Some (s, es) -> (forall t, q_idle s t) ->
    exists a, sp_run (pspec max blk) p_new (effects es) a /\
      (forall id, q_kern s id <> None -> exists i, i < max /\ a i <> None /\ q_id s i = id) /\
      (forall i, a i <> None -> q_kern s (q_id s i) <> None) /\
      (forall i j, a i <> None -> a j <> None -> q_id s i = q_id s j -> i = j).
  Proof.
    intros E ID. destruct (q_reach _ _ _ E) as (I & f & a & L & _ & A). exists a. split; [exact (lin_run_effects _ _ _ _ _ _ _ _ _ L)|].
    assert (K : forall i, a i <> None <-> q_kern s (q_id s i) <> None).
    { intros i. rewrite (A i). unfold qabs. destruct (q_kern s (q_id s i)) as [[? ?]|]; split; intros X; try discriminate; elim X; reflexivity. }
    assert (NZ : forall i, a i <> None -> q_id s i <> 0) by (intros i X Z; apply K in X; rewrite Z in X; now rewrite (qi_zero s I) in X).
    split; [|split].
    - intros id H. destruct (qi_own s I id H) as [(i & X)|(t & bs & size & i & X)]; [|specialize (ID t); unfold q_idle in ID; congruence].
      exists i. assert (a i <> None) by (apply K; now rewrite X). split; [apply (qi_lt s I); auto|auto].
    - intros i. apply K.
    - intros i j B C X. apply (qi_inj s I); [exact X|now apply NZ].
  Qed.
  (** ** progress *)
  Theorem q_progress ls s es : exec (q_step max tsz true) q_init ls = Some (s, es) -> q_stuck max tsz true s -> forall t, q_idle s t.
  Proof.
    intros E ST. destruct (q_reach _ _ _ E) as (I & _). clear E.
    assert (CS : forall t, in_cs (q_thr s t) = false).
    { intros t. destruct (in_cs (q_thr s t)) eqn:X; [|reflexivity]. pose proof (ST (ZStep t) Logic.I) as A. pose proof (ST (ZAcre t 0) Logic.I) as B.
      unfold q_step in A, B. destruct (q_thr s t) as [|c|bs size i|bs size i|bs size i k|i|i|r|c|r]; cbn in X; try discriminate.
      destruct (i <? max); [|discriminate]. destruct (0 <? q_id s i); discriminate. }
    intros t. unfold q_idle. pose proof (ST (ZStep t) Logic.I) as A. pose proof (fun b => ST (ZGet t b) Logic.I) as B. pose proof (qi_thr s I t) as MT. specialize (CS t) as CT.
    unfold q_step in A, B. destruct (q_thr s t) as [|c|bs size i|bs size i|bs size i k|i|i|r|c|r] eqn:ET; cbn in CT; try discriminate; [reflexivity| |].
    - destruct (q_mtx s) as [u|] eqn:EM; [|discriminate]. apply (qi_lock s I) in EM. rewrite CS in EM. discriminate.
    - cbn in MT. destruct c as [bs size|i|i|i b|i]; try tauto; try discriminate.
      destruct (q_kern s (q_id s i)) as [[cnt out]|]; [|discriminate]. destruct (all_out cnt out) eqn:AO; [discriminate|].
      destruct (all_out_false _ _ AO) as (b & B1 & B2). specialize (B b). rewrite B1, B2 in B. discriminate.
  Qed.
  Definition qm (q : qpc) : nat :=
    match q with
    | QIdle => 0 | QLock _ => max + 8 | QScan _ _ i => (max - i) + 6 | QAcre _ _ _ => 5 | QAssign _ _ _ _ => 4 | QDel _ => 4 | QClear _ => 3 | QUnlock _ => 2
    | QAt _ => 2 | QRet _ => 1
    end.
  Lemma q_step_decr b s l s' e : q_own_step l -> q_step max tsz b s l = Some (s', e) ->
    exists t q, q_thr s' = fupd (q_thr s) t q /\ qm q < qm (q_thr s t).
  Proof.
    intros P E. destruct l as [t c|t|t id|t k]; cbn in P; [tauto| | |]; unfold q_step in E; exists t.
    - destruct (q_thr s t) as [|c|bs size i|bs size i|bs size i k|i|i|r|c|r] eqn:ET; try discriminate.
      + destruct b; [destruct (q_mtx s); [discriminate|]|]; injection E as <- <-; (eexists; split; [reflexivity|]); destruct c; cbn; lia.
      + destruct (Nat.ltb_spec i max); [destruct (0 <? q_id s i)|]; injection E as <- <-; (eexists; split; [reflexivity|]); cbn [qm]; lia.
      + injection E as <- <-. eexists. split; [reflexivity|]. cbn; lia.
      + injection E as <- <-. eexists. split; [reflexivity|]. cbn; lia.
      + injection E as <- <-. eexists. split; [reflexivity|]. cbn; lia.
      + injection E as <- <-. eexists. split; [reflexivity|]. cbn; lia.
      + destruct c as [bs size|i|i|i k|i]; try discriminate.
        * destruct (q_kern s (q_id s i)) as [[cnt out]|]; [destruct (all_out cnt out); [|discriminate]|]; injection E as <- <-; (eexists; split; [reflexivity|]); cbn; lia.
        * injection E as <- <-. eexists. split; [reflexivity|]. cbn; lia.
        * injection E as <- <-. eexists. split; [reflexivity|]. cbn; lia.
      + injection E as <- <-. eexists. split; [reflexivity|]. cbn; lia.
    - destruct (q_thr s t) as [|c|bs size i|bs size i|bs size i k|i|i|r|c|r] eqn:ET; try discriminate.
      destruct (id =? 0); [|destruct (q_kern s id); [discriminate|]; destruct (0 <? q_count tsz bs size)%N; [|discriminate]]; injection E as <- <-; (eexists; split; [reflexivity|]); cbn; lia.
    - destruct (q_thr s t) as [|c|bs size i|bs size i|bs size i j|i|i|r|c|r] eqn:ET; try discriminate. destruct c as [bs size|i|i|i j|i]; try discriminate.
      destruct (q_kern s (q_id s i)) as [[cnt out]|]; [|discriminate]. destruct (_ && _); [|discriminate]. injection E as <- <-. eexists. split; [reflexivity|]. cbn; lia.
  Qed.
  Theorem q_bounded n ls0 s es0 ls s' es : exec (q_step max tsz true) q_init ls0 = Some (s, es0) -> (forall t, n <= t -> q_idle s t) ->
    (forall l, In l ls -> q_own_step l) -> exec (q_step max tsz true) s ls = Some (s', es) -> length ls <= n * (max + 8).
  Proof.
    intros _ ID OW E. set (m := fun s => sumn (fun t => qm (q_thr s t)) n).
    assert (H : length ls + m s' <= m s).
    { refine (exec_measure _ _ _ (q_step max tsz true) (fun s => forall t, n <= t -> q_idle s t) q_own_step m _ ls s s' es ID OW E).
      clear. intros s l s' e ID P E. destruct (q_step_decr true s l s' e P E) as (t & q & ET & D).
      assert (T : t < n). { destruct (Nat.lt_ge_cases t n) as [X|X]; [exact X|]. specialize (ID t X). unfold q_idle in ID. rewrite ID in D. cbn in D. lia. }
      split.
      - intros u U. unfold q_idle. rewrite ET, fupd_other by lia. now apply ID.
      - unfold m. pose proof (sumn_change n (fun u => qm (q_thr s u)) (fun u => qm (q_thr s' u)) t T) as C. cbn beta in C.
        rewrite ET, fupd_same in C. rewrite ET. assert (X : forall u, u <> t -> qm (fupd (q_thr s) t q u) = qm (q_thr s u)) by (intros u U; now rewrite fupd_other).
        specialize (C X). lia. }
    assert (m s <= n * (max + 8)). { apply sumn_bound. intros k _. destruct (q_thr s k); cbn; lia. }
    lia.
  Qed.

  (** ** sizes *)
  Theorem q_fits bs size : (q_count tsz bs size * tsz 1 bs <= size)%N.
  Proof.
    unfold q_count. destruct (N.eq_dec (tsz 1 bs) 0) as [->|N]; [lia|]. rewrite N.mul_comm. now apply N.mul_div_le.
  Qed.
  Theorem q_required_enough bs n : (0 < tsz 1 bs)%N -> ((n <= q_count tsz bs (q_required tsz bs n))%N <-> (n * tsz 1 bs <= tsz n bs)%N).
  Proof.
    intros P. unfold q_count, q_required. split; intros H.
    - pose proof (N.mul_div_le (tsz n bs) (tsz 1 bs) ltac:(lia)). nia.
    - apply N.div_le_lower_bound; lia.
  Qed.
  Theorem q_required_exact bs n : (0 < tsz 1 bs)%N -> tsz n bs = (n * tsz 1 bs)%N -> q_count tsz bs (q_required tsz bs n) = n.
  Proof. intros P H. unfold q_count, q_required. rewrite H. apply N.div_mul. lia. Qed.
  Theorem q_too_small ls s es t bs size i : exec (q_step max tsz true) q_init ls = Some (s, es) -> (size < tsz 1 bs)%N -> ~ In (Eff t (PCreate bs size) (QPool i)) es.
  Proof.
    intros E Z H. destruct (q_reach _ _ _ E) as (_ & f & a & L & _).
    apply in_split in H. destruct H as (e1 & e2 & ->). apply lin_run_app_inv in L. destruct L as (f1 & s1 & _ & L). inversion L; subst.
    match goal with h : pspec _ _ _ _ _ _ _ |- _ => cbn in h; destruct h as (_ & _ & _ & _ & h & _) end.
    unfold q_count in *. rewrite N.div_small in * by assumption. lia.
  Qed.
End M.

(** * without the mutex *)
Definition race_schedule : list qlab :=
  [ZCall 1 (PCreate 4 16); ZCall 2 (PCreate 8 16); ZStep 1; ZStep 2; ZStep 1; ZStep 2; ZAcre 1 7; ZAcre 2 9; ZStep 1; ZStep 2; ZStep 1; ZStep 2; ZStep 1; ZStep 2].
Definition lin_tsz (n b : N) : N := (n * b)%N.

Definition rets0 (es : qout) : nat := length (filter (fun e => match e with Ret _ (QPool 0) => true | _ => false end) es).
Definition room (k : nat) (f : nat -> status pcall pres) (s : pstate) : Prop :=
  match k with
  | 0 => s 0 <> None /\ forall t, f t <> Done (QPool 0)
  | _ => (s 0 <> None /\ exists w, forall t, f t = Done (QPool 0) -> t = w) \/ (s 0 = None /\ forall t, f t <> Done (QPool 0))
  end.
Lemma room_set k f s t x : room k f s -> x <> Done (QPool 0) -> room k (set_st f t x) s.
Proof.
  intros R X. destruct k; cbn in *.
  - destruct R as (A & B). split; [exact A|]. intros u. unfold set_st. destruct (Nat.eqb u t); auto.
  - destruct R as [(A & w & B)|(A & B)]; [left|right]; (split; [exact A|]).
    + exists w. intros u. unfold set_st. destruct (Nat.eqb u t); auto. intros Y. now elim X.
    + intros u. unfold set_st. destruct (Nat.eqb u t); auto.
Qed.
Lemma room_eq k f s s' : s' 0 = s 0 -> room k f s -> room k f s'.
Proof. intros E. destruct k; cbn; rewrite E; auto. Qed.
Lemma one_pool_0 max blk es f s f' s' : lin_run (pspec max blk) f s es f' s' ->
  (forall t c, In (Call t c) es -> exists bs size, c = PCreate bs size) -> (forall t c, f t = Pending c -> exists bs size, c = PCreate bs size) ->
  forall k, room k f s -> rets0 es <= k.
Proof.
  intros L. induction L as [f s|f s t c es f' s' O L IH|f s t c r s1 es f' s' O SP L IH|f s t r es f' s' O L IH]; intros NC PC k R.
  - cbn. lia.
  - unfold rets0. cbn [filter]. apply IH; [intros; apply (NC t0); now right| |apply room_set; [exact R|discriminate]].
    intros t0 c0. unfold set_st. destruct (Nat.eqb t0 t); [|apply PC]. intros [= <-]. apply (NC t). now left.
  - unfold rets0. cbn [filter]. apply IH; [intros; apply (NC t0); now right| |].
    { intros t0 c0. unfold set_st. destruct (Nat.eqb t0 t); [discriminate|apply PC]. }
    destruct (PC _ _ O) as (bs & size & ->). cbn in SP.
    assert (Z : r <> QPool 0 -> s1 0 = s 0).
    { intros Z. destruct r; try tauto; [|destruct SP as (_ & SP)..]; try (now rewrite (SP 0)). destruct SP as (_ & _ & _ & _ & _ & SP). rewrite (SP 0). unfold pset.
      destruct i; [congruence|reflexivity]. }
    assert (D : r = QPool 0 \/ r <> QPool 0) by (destruct r as [|[|i]| | | | | |]; auto; right; discriminate).
    destruct D as [-> |D].
    + destruct SP as (_ & S0 & _ & _ & _ & SP). destruct k; cbn in R; [tauto|]. cbn. left. destruct R as [(A & _)|(A & B)]; [congruence|].
      split; [rewrite (SP 0); unfold pset; cbn; discriminate|]. exists t. intros u. unfold set_st. destruct (Nat.eqb_spec u t); [auto|]. intros X. now elim (B u).
    + apply (room_eq _ _ s); [now apply Z|]. apply room_set; [exact R|congruence].
  - assert (D : r = QPool 0 \/ r <> QPool 0) by (destruct r as [|[|i]| | | | | |]; auto; right; discriminate).
    assert (PC' : forall t0 c0, set_st f t Out t0 = Pending c0 -> exists bs size, c0 = PCreate bs size).
    { intros t0 c0. unfold set_st. destruct (Nat.eqb t0 t); [discriminate|apply PC]. }
    destruct D as [-> |D].
    + unfold rets0. cbn [filter length]. destruct k; cbn in R; [destruct R as (_ & R); now elim (R t)|]. destruct R as [(A & w & B)|(_ & R)]; [|now elim (R t)].
      enough (rets0 es <= 0) by (unfold rets0 in *; lia). apply IH; [intros; apply (NC t0); now right|exact PC'|]. cbn. split; [exact A|].
      intros u. unfold set_st. destruct (Nat.eqb_spec u t) as [->|N]; [discriminate|]. intros X. apply B in X. apply B in O. congruence.
    + replace (rets0 (Ret t r :: es)) with (rets0 es).
      * apply IH; [intros; apply (NC t0); now right|exact PC'|]. apply room_set; [exact R|discriminate].
      * unfold rets0. cbn [filter]. destruct r as [|[|i]| | | | | |]; try reflexivity. congruence.
Qed.
Lemma in_history {C R} (e : event C R) es : visible e = true -> (In e es <-> In e (history es)).
Proof. intros V. unfold history. rewrite filter_In. tauto. Qed.
Lemma rets0_history es : rets0 (history es) = rets0 es.
Proof.
  unfold rets0, history. f_equal. induction es as [|e es IH]; [reflexivity|]. destruct e as [t c|t c r|t r]; cbn; auto.
  destruct r as [|[|i]| | | | | |]; cbn; now rewrite IH.
Qed.
Lemma same_slot_not_lin max blk : ~ linearizable (pspec max blk) p_new
  [Call 1 (PCreate 4 16); Call 2 (PCreate 8 16); Ret 1 (QPool 0); Ret 2 (QPool 0)].
Proof.
  intros (es & f & a & H & L).
  assert (X : rets0 es <= 1).
  { apply (one_pool_0 _ _ _ _ _ _ _ L); [|discriminate|right; split; [reflexivity|discriminate]].
    intros t c I. apply in_history in I; [|reflexivity]. rewrite H in I. destruct I as [I|[I|[I|[I|[]]]]]; try discriminate; injection I as <- <-; eauto. }
  rewrite <- rets0_history, H in X. cbn in X. lia.
Qed.
Theorem q_race : ~ (forall max tsz ls s es, exec (q_step max tsz false) q_init ls = Some (s, es) -> linearizable (pspec max (q_count tsz)) p_new (history es)).
Proof.
  intros H. specialize (H 4 lin_tsz race_schedule). destruct (exec (q_step 4 lin_tsz false) q_init race_schedule) as [[s es]|] eqn:E; [|vm_compute in E; discriminate].
  specialize (H s es eq_refl). vm_compute in E. injection E as <- <-. exact (same_slot_not_lin _ _ H).
Qed.

(** * sizes with a macro that has a fixed overhead, and on StdCpp *)
Theorem q_required_short : ~ (forall (tsz : N -> N -> N) (bs n : N), (forall m b, tsz m b >= m * b)%N -> (0 < bs)%N -> (n <= q_count tsz bs (q_required tsz bs n))%N).
Proof. intros H. specialize (H (fun m b => m * b + 8)%N 4%N 10%N). assert (A : forall m b : N, (m * b + 8 >= m * b)%N) by (intros; lia). specialize (H A eq_refl). vm_compute in H. now apply H. Qed.
Theorem q_required_one (tsz : N -> N -> N) (bs : N) : (0 < tsz 1 bs)%N -> q_count tsz bs (q_required tsz bs 1) = 1%N.
Proof. intros P. apply N.div_same. lia. Qed.
Theorem std_required_wraps : ~ (forall w bs n : N, (bs < 2 ^ w)%N -> (n < 2 ^ w)%N -> (0 < bs)%N -> (0 < n)%N -> std_create_null bs (std_required w bs n) = false).
Proof. intros H. specialize (H 64%N (2 ^ 32)%N (2 ^ 32)%N). vm_compute in H. specialize (H eq_refl eq_refl eq_refl eq_refl). discriminate. Qed.
Theorem std_required_fits (w bs n : N) : (0 < bs)%N -> (0 < n)%N -> (bs * n < 2 ^ w)%N -> std_required w bs n = (bs * n)%N /\ std_create_null bs (std_required w bs n) = false.
Proof.
  intros A B C. unfold std_required. rewrite N.mod_small by exact C. split; [reflexivity|]. unfold std_create_null.
  destruct (N.eqb_spec bs 0); [lia|]. destruct (N.eqb_spec (bs * n) 0); [nia|reflexivity].
Qed.
