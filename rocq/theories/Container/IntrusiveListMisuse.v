(** IntrusiveList in debug builds: which violations of its contract the assertions catch. *)
From Coq Require Import List Arith Bool Lia.
Import ListNotations.
From Verif Require Import Spec.ListFamSpec Spec.ListMisuseSpec Container.IntrusiveListModel Container.IntrusiveListProofs Container.IntrusiveListRep Container.IntrusiveListTheorems.

Section D.
  Variable dbg : bool.
  (** m fails an assertion only in the state in which it was called *)
  Definition early {A} (m : LM A) : Prop := forall h h', m h = LAssert h' -> h' = h.
  (** m changes nothing *)
  Definition reads {A} (m : LM A) : Prop := early m /\ forall h a h', m h = LOk a h' -> h' = h.
  Definition never {A} (m : LM A) : Prop := forall h h', m h <> LAssert h'.
  Lemma reads_bind {A B} (m : LM A) (k : A -> LM B) : reads m -> (forall a, early (k a)) -> early (lbind m k).
  Proof.
    intros (E & R) K h h' X. unfold lbind in X. destruct (m h) as [a h1|h1| |] eqn:M; try discriminate.
    - rewrite (R _ _ _ M) in *. exact (K a _ _ X).
    - injection X as <-. exact (E _ _ M).
  Qed.
  Lemma reads_bind2 {A B} (m : LM A) (k : A -> LM B) : reads m -> (forall a, reads (k a)) -> reads (lbind m k).
  Proof.
    intros R K. split; [apply reads_bind; [exact R|intros a; apply K]|].
    intros h b h' X. unfold lbind in X. destruct R as (_ & R). destruct (m h) as [a h1|h1| |] eqn:M; try discriminate.
    rewrite (R _ _ _ M) in X. exact (proj2 (K a) _ _ _ X).
  Qed.
  Lemma never_early {A} (m : LM A) : never m -> early m. Proof. intros N h h' X. elim (N _ _ X). Qed.
  Lemma never_bind {A B} (m : LM A) (k : A -> LM B) : never m -> (forall a, never (k a)) -> never (lbind m k).
  Proof. intros N K h h' X. unfold lbind in X. destruct (m h) eqn:M; try discriminate; [exact (K _ _ _ X)|elim (N _ _ M)]. Qed.
  Lemma early_never {A B} (m : LM A) (k : A -> LM B) : early m -> (forall a, never (k a)) -> early (lbind m k).
  Proof. intros E K h h' X. unfold lbind in X. destruct (m h) eqn:M; try discriminate; [elim (K _ _ _ X)|injection X as <-; exact (E _ _ M)]. Qed.
  Lemma ret_reads {A} (a : A) : reads (lret a).
  Proof. split; [intros h h' X; discriminate|intros h b h' X; now injection X]. Qed.
  Lemma deref_reads p : reads (deref p). Proof. split; [intros h h'|intros h a h']; unfold deref; destruct p; intros X; try discriminate; now injection X. Qed.
  Lemma get_nx_reads p : reads (get_nx p).
  Proof. apply reads_bind2; [apply deref_reads|]. intros a. split; [intros h h' X; discriminate|intros h b h' X; now injection X]. Qed.
  Lemma get_pv_reads p : reads (get_pv p).
  Proof. apply reads_bind2; [apply deref_reads|]. intros a. split; [intros h h' X; discriminate|intros h b h' X; now injection X]. Qed.
  Lemma lassert_reads b : reads (lassert dbg b).
  Proof. split; [intros h h'|intros h a h']; unfold lassert; destruct dbg, b; intros X; try discriminate; now injection X. Qed.
  Lemma deref_never p : never (deref p). Proof. intros h h'. unfold deref. now destruct p. Qed.
  Lemma get_nx_never p : never (get_nx p). Proof. apply never_bind; [apply deref_never|]. intros a h h'. discriminate. Qed.
  Lemma get_pv_never p : never (get_pv p). Proof. apply never_bind; [apply deref_never|]. intros a h h'. discriminate. Qed.
  Lemma set_nx_never p v : never (set_nx p v). Proof. apply never_bind; [apply deref_never|]. intros a h h'. discriminate. Qed.
  Lemma set_pv_never p v : never (set_pv p v). Proof. apply never_bind; [apply deref_never|]. intros a h h'. discriminate. Qed.
  Lemma ret_never {A} (a : A) : never (lret a). Proof. intros h h'. discriminate. Qed.
End D.
Create HintDb ilm.
#[global] Hint Resolve ret_reads deref_reads get_nx_reads get_pv_reads lassert_reads deref_never get_nx_never get_pv_never set_nx_never set_pv_never ret_never : ilm.
Ltac nev := repeat first [solve [auto with ilm] | apply never_bind; [|intros ?] | match goal with |- never (if ?b then _ else _) => destruct b end].
Ltac rds := repeat first [solve [auto with ilm] | apply reads_bind2; [|intros ?] | match goal with |- reads (if ?b then _ else _) => destruct b end].
Ltac erl := repeat first [solve [match goal with |- early (lret _) => apply (proj1 (ret_reads _)) end] | solve [apply never_early; nev] | apply reads_bind; [solve [rds]|intros ?] | match goal with |- early (if ?b then _ else _) => destruct b end].

Section E.
  Variable dbg : bool.
  Lemma i_inc_reads i : reads (i_inc dbg i). Proof. unfold i_inc. rds. Qed.
  Lemma i_dec_reads i : reads (i_dec dbg i). Proof. unfold i_dec. rds. Qed.
  Lemma i_deref_reads i : reads (i_deref dbg i). Proof. unfold i_deref. rds. Qed.
  Lemma l_empty_reads t : reads (l_empty t). Proof. unfold l_empty. rds. Qed.
  Lemma l_begin_reads t : reads (l_begin t). Proof. unfold l_begin. rds. Qed.
  #[local] Hint Resolve i_inc_reads i_dec_reads i_deref_reads l_empty_reads l_begin_reads : ilm.
  Lemma diverge_reads {A} : reads (fun _ : heap => @LDiverge A).
  Proof. split; intros; discriminate. Qed.
  #[local] Hint Resolve diverge_reads : ilm.
  Lemma size_loop_reads fuel t : forall i num, reads (size_loop dbg fuel t i num).
  Proof. induction fuel as [|f IH]; intros i num; cbn; rds. Qed.
  Lemma fwd_loop_reads fuel t : forall i acc, reads (fwd_loop dbg fuel t i acc).
  Proof. induction fuel as [|f IH]; intros i num; cbn; rds. Qed.
  Lemma bwd_loop_reads fuel t : forall i acc, reads (bwd_loop dbg fuel t i acc).
  Proof. induction fuel as [|f IH]; intros i num; cbn; rds. Qed.
  #[local] Hint Resolve size_loop_reads fwd_loop_reads bwd_loop_reads : ilm.
  Lemma insert_early pos d : early (l_insert dbg pos d). Proof. unfold l_insert. erl. Qed.
  Lemma erase_early t pos : early (l_erase dbg t pos). Proof. unfold l_erase. erl. Qed.
  Lemma splice_range_early t pos x first lst : early (l_splice_range dbg t pos x first lst).
  Proof. unfold l_splice_range. erl. Qed.
  Lemma splice_all_early t pos x : early (l_splice_all dbg t pos x).
  Proof. unfold l_splice_all. erl; apply splice_range_early. Qed.
  Lemma splice_one_early t pos x i : early (l_splice_one dbg t pos x i).
  Proof. unfold l_splice_one. erl; apply splice_range_early. Qed.
  Lemma step_early N o : (forall t x tmp, o <> LSwap t x tmp) -> early (l_step dbg N o).
  Proof.
    intros NS. destruct o; cbn [l_step].
    - unfold l_new. erl.
    - erl.
    - apply early_never; [apply insert_early|intros ?; nev].
    - unfold l_push_back. apply early_never; [apply early_never; [apply insert_early|intros ?; nev]|intros ?; nev].
    - unfold l_push_front. apply early_never; [|intros ?; nev]. apply reads_bind; [rds|]. intros b. apply early_never; [apply insert_early|intros ?; nev].
    - apply early_never; [apply erase_early|intros ?; nev].
    - unfold l_pop_back. apply early_never; [|intros ?; nev]. do 3 (apply reads_bind; [solve [rds]|intros ?]). apply early_never; [apply erase_early|intros ?; nev].
    - unfold l_pop_front. apply early_never; [|intros ?; nev]. do 3 (apply reads_bind; [solve [rds]|intros ?]). apply early_never; [apply erase_early|intros ?; nev].
    - apply early_never; [apply splice_all_early|intros ?; nev].
    - apply early_never; [apply splice_one_early|intros ?; nev].
    - apply early_never; [apply splice_range_early|intros ?; nev].
    - elim (NS _ _ _ eq_refl).
    - unfold l_size. erl.
    - erl.
    - unfold l_front. erl; apply i_deref_reads.
    - unfold l_back. erl; apply i_deref_reads.
    - unfold l_forward. erl.
    - unfold l_backward. erl.
  Qed.
  Lemma step_reads N o : match o with LSize _ | LForward _ | LBackward _ => True | _ => False end -> reads (l_step dbg N o).
  Proof.
    destruct o; try contradiction; intros _; cbn [l_step].
    - unfold l_size. rds.
    - unfold l_forward. rds.
    - unfold l_backward. rds.
  Qed.
End E.

(** a traversal that fails an assertion fails it also when more iterations are allowed *)
Section C.
  Variable dbg : bool.
  Lemma size_cut t h h' f : forall f' i num, f <= f' -> size_loop dbg f t i num h = LAssert h' -> size_loop dbg f' t i num h = LAssert h'.
  Proof.
    induction f as [|f IH]; intros f' i num L; destruct f' as [|f']; try lia; cbn [size_loop]; destruct (onat_eqb i (l_end t)); try discriminate; auto.
    unfold lbind. destruct (i_inc dbg i h) as [a h1|h1| |] eqn:E1; try discriminate; auto. rewrite (proj2 (i_inc_reads dbg i) _ _ _ E1). apply IH. lia.
  Qed.
  Lemma fwd_cut t h h' f : forall f' i acc, f <= f' -> fwd_loop dbg f t i acc h = LAssert h' -> fwd_loop dbg f' t i acc h = LAssert h'.
  Proof.
    induction f as [|f IH]; intros f' i num L; destruct f' as [|f']; try lia; cbn [fwd_loop]; destruct (onat_eqb i (l_end t)); try discriminate; auto.
    unfold lbind. destruct (i_deref dbg i h) as [a h1|h1| |] eqn:E1; try discriminate; auto. rewrite (proj2 (i_deref_reads dbg i) _ _ _ E1).
    destruct (i_inc dbg i h) as [b h2|h2| |] eqn:E2; try discriminate; auto. rewrite (proj2 (i_inc_reads dbg i) _ _ _ E2). apply IH. lia.
  Qed.
  Lemma bwd_cut t h h' f : forall f' i acc, f <= f' -> bwd_loop dbg f t i acc h = LAssert h' -> bwd_loop dbg f' t i acc h = LAssert h'.
  Proof.
    induction f as [|f IH]; intros f' i num L; destruct f' as [|f']; try lia; cbn [bwd_loop]; unfold lbind;
      (destruct (l_begin t h) as [b h1|h1| |] eqn:E0; try discriminate; auto; rewrite (proj2 (l_begin_reads t) _ _ _ E0); destruct (onat_eqb i b); try discriminate; auto).
    destruct (i_dec dbg i h) as [j h2|h2| |] eqn:E1; try discriminate; auto. rewrite (proj2 (i_dec_reads dbg i) _ _ _ E1).
    destruct (i_deref dbg j h) as [c h3|h3| |] eqn:E2; try discriminate; auto. rewrite (proj2 (i_deref_reads dbg j) _ _ _ E2). apply IH. lia.
  Qed.
  Lemma cut_assert N N' o h h' : match o with LSize _ | LForward _ | LBackward _ => True | _ => False end -> N <= N' ->
    l_step dbg N o h = LAssert h' -> l_step dbg N' o h = LAssert h'.
  Proof.
    intros C L. destruct o; try contradiction; cbn [l_step]; unfold l_size, l_forward, l_backward, lbind.
    - destruct (l_begin t h) as [b h1|h1| |] eqn:E0; try discriminate; auto. destruct (size_loop dbg N t b 0 h1) eqn:E1; try discriminate. intros X. rewrite (size_cut _ _ _ _ N' _ _ L E1). exact X.
    - destruct (l_begin t h) as [b h1|h1| |] eqn:E0; try discriminate; auto. destruct (fwd_loop dbg N t b [] h1) eqn:E1; try discriminate. intros X. rewrite (fwd_cut _ _ _ _ N' _ _ L E1). exact X.
    - destruct (bwd_loop dbg N t (l_end t) [] h) eqn:E1; try discriminate. intros X. rewrite (bwd_cut _ _ _ _ N' _ _ L E1). exact X.
  Qed.
End C.

Section R.
  Variable dbg : bool.
  (** whatever number of iterations is allowed, a run of legal calls that ends leaves the lists the specification gives *)
  Lemma run_rep N os : forall h F outs h', Rep h F -> lpres dbg F os -> l_run dbg N h os = Some (outs, h') -> Rep h' (snd (lspec_run F os)).
  Proof.
    induction os as [|o os IH]; intros h F outs h' R P E; cbn [l_run lpres lspec_run] in *.
    - injection E as <- <-. exact R.
    - destruct P as (P & PS). destruct (l_step dbg N o h) as [r h1|h1| |] eqn:S; try discriminate. destruct (l_run dbg N h1 os) as [[rs h2]|] eqn:E2; [|discriminate]. injection E as <- <-.
      assert (R1 : Rep h1 (snd (lspec F o))).
      { assert (C : fuel_ok F o N \/ match o with LSize _ | LForward _ | LBackward _ => True | _ => False end) by (destruct o; cbn; auto).
        destruct C as [C|C].
        - destruct (step_good dbg h F o N R P C) as (h3 & E3 & R3). rewrite S in E3. injection E3 as _ <-. exact R3.
        - destruct (step_reads dbg N o C) as (_ & X). rewrite (X _ _ _ S). destruct o; try contradiction; exact R. }
      specialize (IH _ _ _ _ R1 PS E2). destruct (lspec F o) as [r' F']. cbn [snd] in IH. destruct (lspec_run F' os). exact IH.
  Qed.
End R.

(** a list spliced into itself; an element or range that begins at end() *)
Lemma self_caught N t pos h : l_step true N (LSpliceAll t pos t) h = LAssert h.
Proof. cbn [l_step]. unfold l_splice_all, lbind, lassert. now rewrite Nat.eqb_refl. Qed.
Lemma end_caught N t pos x i last h : i = t \/ i = x ->
  l_step true N (LSpliceOne t pos x i) h = LAssert h /\ l_step true N (LSpliceRange t pos x i last) h = LAssert h.
Proof.
  intros E. cbn [l_step]. unfold l_splice_one, l_splice_range, lbind, lassert, l_end. cbn [nonnull onat_eqb].
  destruct (i =? t) eqn:T; [split; reflexivity|]. destruct E as [-> | ->]; [now rewrite Nat.eqb_refl in T|]. rewrite Nat.eqb_refl. split; reflexivity.
Qed.
(** ** the theorems *)
Section T.
  Variables (os : list lop) (N : nat) (outs : list lout) (h : heap).
  Hypothesis P : lpres true F0 os.
  Hypothesis E : l_run true N h0 os = Some (outs, h).
  Let R : Rep h (after os).
  Proof. exact (run_rep true N os h0 F0 outs h Rep0 P E). Qed.
  (** an assertion fails only if the contract was violated, and nothing has been changed then *)
  Theorem only_misuse o h' : (forall t x tmp, o <> LSwap t x tmp) -> l_step true N o h = LAssert h' -> ~ lpre true (after os) o /\ h' = h.
  Proof.
    intros NS A. split; [|exact (step_early true N o NS h h' A)]. intros PO.
    assert (C : fuel_ok (after os) o N \/ match o with LSize _ | LForward _ | LBackward _ => True | _ => False end) by (destruct o; cbn; auto).
    destruct C as [C|C].
    - destruct (step_good true h (after os) o N R PO C) as (h3 & E3 & _). congruence.
    - destruct (Nat.le_gt_cases (length (contents (after os) (hd 0 (largs o)))) N) as [L|L].
      + destruct (step_good true h (after os) o N R PO) as (h3 & E3 & _); [destruct o; try contradiction; exact L|congruence].
      + destruct (step_good true h (after os) o (length (contents (after os) (hd 0 (largs o)))) R PO) as (h3 & E3 & _); [destruct o; try contradiction; cbn; lia|].
        rewrite (cut_assert true N (length (contents (after os) (hd 0 (largs o)))) o h h' C (Nat.lt_le_incl _ _ L) A) in E3. discriminate.
  Qed.
    (** exactly the violations in [caught] are noticed *)
  Lemma sassert b hh : b = true -> lassert true b hh = LOk tt hh. Proof. intros ->. reflexivity. Qed.
  Lemma range_no t pos x first lst hh h' : first <> t -> first <> x -> l_splice_range true t (Some pos) x (Some first) (Some lst) hh <> LAssert h'.
  Proof.
    intros A B. apply Nat.eqb_neq in A, B. unfold l_splice_range. cbn [nonnull onat_eqb l_end]. rewrite A, B. cbn [negb].
    revert hh h'. match goal with |- forall hh h', ?m hh <> _ => change (never m) end. repeat (apply never_bind; [intros ? ?; discriminate|intros _]). nev.
  Qed.
  Lemma insert_no pos d hh h' : l_insert true (Some pos) d hh <> LAssert h'.
  Proof. unfold l_insert. cbn [nonnull]. revert hh h'. match goal with |- forall hh h', ?m hh <> _ => change (never m) end. apply never_bind; [intros ? ?; discriminate|intros _]. nev. Qed.
  Lemma erase_no t l pos h' : after os t = Some l -> l <> [] -> l_erase true t (Some pos) h <> LAssert h'.
  Proof.
    intros Z NE. unfold l_erase, lbind at 1. rewrite (empty_runs _ _ _ _ R Z). destruct l as [|a l]; [congruence|]. cbn [negb nonnull].
    revert h'. generalize h. match goal with |- forall hh h', ?m hh <> _ => change (never m) end. do 2 (apply never_bind; [intros ? ?; discriminate|intros _]). nev.
  Qed.
  Lemma bind_no {A B} (m : LM A) (k : A -> LM B) hh h' : lbind m k hh <> LAssert h' -> m hh <> LAssert h'.
  Proof. unfold lbind. intros X Y. rewrite Y in X. now apply X. Qed.
  Lemma no_bind {A B} (m : LM A) (k : A -> LM B) hh h' : m hh <> LAssert h' -> (forall a, never (k a)) -> lbind m k hh <> LAssert h'.
  Proof. intros X K. unfold lbind. destruct (m hh) eqn:M; try congruence. apply K. Qed.
  Theorem caught_iff o : (forall t x tmp, o <> LSwap t x tmp) -> on_live_lists (after os) o -> (l_step true N o h = LAssert h <-> caught (after os) o).
  Proof.
    intros NS G. pose proof R as R0.
    assert (LV : forall t, live (after os) t -> after os t = Some (contents (after os) t)) by (intros t; apply live_Some).
    assert (EM : forall t, live (after os) t -> l_empty t h = LOk (match contents (after os) t with [] => true | _ => false end) h) by (intros t L; exact (empty_runs _ _ _ _ R (LV t L))).
    assert (EC : forall t k, live (after os) t -> contents (after os) t <> [] -> (lbind (l_empty t) (fun e => lbind (lassert true (negb e)) (fun _ => k : LM lout)) h = k h)).
    { intros t k L X. unfold lbind. rewrite (EM t L). destruct (contents (after os) t); [congruence|]. reflexivity. }
    destruct o; cbn [caught on_live_lists largs] in G |- *; cbn [l_step].
    - split; [|contradiction]. intros X. exfalso. revert X. apply no_bind; [|intros ?; nev]. unfold l_new. apply never_bind; [nev|intros ?; nev].
    - split; [discriminate|contradiction].
    - split; [|contradiction]. intros X. exfalso. revert X. apply no_bind; [apply insert_no|intros ?; nev].
    - split; [|contradiction]. intros X. exfalso. revert X. apply no_bind; [|intros ?; nev]. unfold l_push_back. apply no_bind; [apply insert_no|intros ?; nev].
    - split; [|contradiction]. intros X. exfalso. revert X. apply no_bind; [|intros ?; nev]. unfold l_push_front, l_begin, lbind at 1, get_nx, lbind, deref.
      rewrite (ring_next _ _ _ _ R (LV t (G t (or_introl eq_refl)))). destruct (l_insert true (Some (hd t (contents (after os) t))) d h) eqn:I; try discriminate. now apply insert_no in I.
    - pose proof (G t (or_introl eq_refl)) as L. split.
      + intros X. destruct (contents (after os) t) as [|a l] eqn:C; [reflexivity|]. exfalso. revert X. apply no_bind; [|intros ?; nev]. eapply erase_no; [exact (LV t L)|congruence].
      + intros C. unfold l_erase, lbind. rewrite (EM t L), C. reflexivity.
    - pose proof (G t (or_introl eq_refl)) as L. split.
      + intros X. destruct (contents (after os) t) as [|a l] eqn:C; [reflexivity|]. exfalso. revert X. apply no_bind; [|intros ?; nev]. unfold l_pop_back, lbind. rewrite (EM t L), C. cbn [negb lassert].
        unfold i_dec, lbind, lassert, get_pv, lbind, deref, l_end. cbn [nonnull]. rewrite (ring_prev _ _ _ _ R (LV t L)).
        destruct (l_erase true t (Some (last (contents (after os) t) t)) h) eqn:I; try discriminate. exfalso. revert I. eapply erase_no; [exact (LV t L)|congruence].
      + intros C. unfold l_pop_back, lbind. rewrite (EM t L), C. reflexivity.
    - pose proof (G t (or_introl eq_refl)) as L. split.
      + intros X. destruct (contents (after os) t) as [|a l] eqn:C; [reflexivity|]. exfalso. revert X. apply no_bind; [|intros ?; nev]. unfold l_pop_front, lbind. rewrite (EM t L), C. cbn [negb lassert].
        unfold l_begin, get_nx, lbind, deref. rewrite (ring_next _ _ _ _ R (LV t L)).
        destruct (l_erase true t (Some (hd t (contents (after os) t))) h) eqn:I; try discriminate. exfalso. revert I. eapply erase_no; [exact (LV t L)|congruence].
      + intros C. unfold l_pop_front, lbind. rewrite (EM t L), C. reflexivity.
    - pose proof (G t (or_introl eq_refl)) as Lt. pose proof (G x (or_intror (or_introl eq_refl))) as Lx. split.
      + intros X. destruct (Nat.eq_dec t x) as [E0|NE]; [exact E0|]. exfalso. revert X. apply no_bind; [|intros ?; nev]. unfold l_splice_all, lbind. rewrite (proj2 (Nat.eqb_neq t x) NE). cbn [negb lassert].
        rewrite (EM x Lx). destruct (contents (after os) x) as [|a l] eqn:C; [discriminate|]. unfold l_begin, get_nx, lbind, deref. rewrite (ring_next _ _ _ _ R (LV x Lx)), C. cbn [hd].
        pose proof R0 as [[W1 W2] _]. pose proof (LV x Lx) as Hx. rewrite C in Hx. apply range_no; intros ->.
        * specialize (W2 t x _ _ NE (LV t Lt) Hx t). cbn in W2. rewrite !ind_same in W2. lia.
        * specialize (W1 x _ Hx x). cbn in W1. rewrite !ind_same in W1. lia.
      + intros ->. unfold l_splice_all, lbind, lassert. now rewrite Nat.eqb_refl.
    - destruct G as (Lt & Lx & u & Lu & PI). split.
      + intros X. destruct (Nat.eq_dec i t) as [E0|NT]; [now left|]. destruct (Nat.eq_dec i x) as [E0|NX]; [now right|]. exfalso. revert X. apply no_bind; [|intros ?; nev].
        unfold l_splice_one, lbind, l_end. cbn [onat_eqb]. rewrite (proj2 (Nat.eqb_neq i t) NT), (proj2 (Nat.eqb_neq i x) NX). cbn [negb lassert].
        destruct (pos =? i); [discriminate|]. unfold i_inc, lbind, lassert, get_nx, lbind, deref. cbn [nonnull].
        assert (NI : exists j, nx h i = Some j).
        { destruct PI as [-> |PI]; [rewrite (ring_next _ _ _ _ R (LV u Lu)); eauto|]. apply in_split in PI. destruct PI as (C & D & PI). pose proof (LV u Lu) as Hu. rewrite PI in Hu.
          destruct (node_links _ _ _ _ _ _ R Hu) as (-> & _). eauto. }
        destruct NI as (j & ->). cbn [onat_eqb]. destruct (pos =? j); [discriminate|]. now apply range_no.
      + intros E0. exact (proj1 (end_caught N t pos x i 0 h E0)).
    - split.
      + intros X. destruct (Nat.eq_dec first t) as [E0|NT]; [now left|]. destruct (Nat.eq_dec first x) as [E0|NX]; [now right|]. exfalso. revert X. apply no_bind; [|intros ?; nev]. now apply range_no.
      + intros E0. exact (proj2 (end_caught N t pos x first last h E0)).
    - elim (NS _ _ _ eq_refl).
    - split; [|contradiction]. intros X. destruct (only_misuse (LSize t) h ltac:(discriminate) X) as (A & _). elim A. cbn. apply G. now left.
    - split; [|contradiction]. intros X. destruct (only_misuse (LEmpty t) h ltac:(discriminate) X) as (A & _). elim A. cbn. apply G. now left.
    - pose proof (G t (or_introl eq_refl)) as L. split.
      + intros X. destruct (contents (after os) t) as [|a l] eqn:C; [reflexivity|]. exfalso. destruct (only_misuse (LFront t) h ltac:(discriminate) X) as (A & _). elim A. cbn. split; [exact L|congruence].
      + intros C. unfold l_front, lbind. rewrite (EM t L), C. reflexivity.
    - pose proof (G t (or_introl eq_refl)) as L. split.
      + intros X. destruct (contents (after os) t) as [|a l] eqn:C; [reflexivity|]. exfalso. destruct (only_misuse (LBack t) h ltac:(discriminate) X) as (A & _). elim A. cbn. split; [exact L|congruence].
      + intros C. unfold l_back, lbind. rewrite (EM t L), C. reflexivity.
    - split; [|contradiction]. intros X. destruct (only_misuse (LForward t) h ltac:(discriminate) X) as (A & _). elim A. cbn. apply G. now left.
    - split; [|contradiction]. intros X. destruct (only_misuse (LBackward t) h ltac:(discriminate) X) as (A & _). elim A. cbn. apply G. now left.
  Qed.
End T.

(** an iterator that points to nothing (default constructor) *)
Lemma null_caught h d t x p q :
  i_inc true None h = LAssert h /\ i_dec true None h = LAssert h /\ i_deref true None h = LAssert h /\ l_insert true None d h = LAssert h /\ l_erase true t None h = LAssert h /\
  l_splice_range true t None x p q h = LAssert h /\ l_splice_range true t p x None q h = LAssert h /\ l_splice_range true t p x q None h = LAssert h.
Proof.
  unfold l_splice_range, l_erase, l_empty, get_nx, deref, lret, i_inc, i_dec, i_deref, l_insert, lbind, lassert. cbn [nonnull].
  repeat split; try (destruct (onat_eqb (nx h t) (Some t)); reflexivity); destruct p as [p|], q as [q|]; reflexivity.
Qed.
Lemma null_unchecked h d t :
  i_inc false None h = LUB /\ i_dec false None h = LUB /\ i_deref false None h = LUB /\ l_insert false None d h = LUB /\ l_erase false t None h = LUB.
Proof. unfold l_erase, l_empty, get_nx, deref, lret, i_inc, i_dec, i_deref, l_insert, lbind, lassert. cbn. auto 6. Qed.

(** erase(end()) of a list with one element: the element is linked to itself *)
Lemma self_loop_diverges h t d : d <> t -> nx h d = Some d -> forall f num, size_loop true f t (Some d) num h = LDiverge.
Proof.
  intros NE X. apply Nat.eqb_neq in NE. induction f as [|f IH]; intros num; cbn [size_loop onat_eqb l_end]; rewrite NE; [reflexivity|].
  unfold i_inc, lbind, lassert, get_nx, deref, lbind. cbn [nonnull]. rewrite X. apply IH.
Qed.
Lemma erase_end_hangs N : exists outs h, l_run true N h0 [LNew 0; LPushBack 0 10; LErase 0 0] = Some (outs, h) /\ l_step true N (LSize 0) h = LDiverge.
Proof.
  assert (E : forall M, l_run true M h0 [LNew 0; LPushBack 0 10; LErase 0 0] = l_run true 0 h0 [LNew 0; LPushBack 0 10; LErase 0 0]) by reflexivity.
  rewrite E. destruct (l_run true 0 h0 [LNew 0; LPushBack 0 10; LErase 0 0]) as [[outs h]|] eqn:X; [|vm_compute in X; discriminate].
  exists outs, h. split; [reflexivity|].
  assert (B : l_begin 0 h = LOk (Some 10) h /\ nx h 10 = Some 10).
  { assert (Y : match l_run true 0 h0 [LNew 0; LPushBack 0 10; LErase 0 0] with Some (_, h) => nx h 0 = Some 10 /\ nx h 10 = Some 10 | None => False end) by (vm_compute; auto).
    rewrite X in Y. destruct Y as (Y1 & Y2). split; [|exact Y2]. unfold l_begin, get_nx, lbind, deref. now rewrite Y1. }
  cbn [l_step]. unfold l_size, lbind. rewrite (proj1 B). now rewrite (self_loop_diverges h 0 10 ltac:(lia) (proj2 B)).
Qed.
