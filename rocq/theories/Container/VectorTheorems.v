(** Consequences of VectorProofs, in the vocabulary of the property statements. *)
From Verif Require Import Base.ZList Spec.SeqSpec Container.Mem Container.Triple Container.Rep Container.Loops
  Container.GenInsert Container.ListRep Container.VectorModel Container.VectorProofs.

(** The vector object [s] of capacity [cap] holds exactly the sequence [l]: slots below size() are live with the
    elements of l, all other slots are raw. *)
Definition v_holds {V} (cap : Z) (s : st V) (l : list V) : Prop :=
  lenz l <= cap /\ mb s = 0 /\ me s = lenz l /\ forall i, 0 <= i < cap -> mem s i = nth_error l (Z.to_nat i).

Definition arm {V} (f : option nat) (s : st V) : st V := mkst (mem s) (mb s) (me s) f.

Section VT.
  Context {V : Type}.
  Variable cap : Z.
  Variable torn dflt : V.
  Variable dbg : bool.
  Hypothesis Hcap : 0 <= cap < 2 ^ 63.
  Notation VR := (fun nf s l => LRep cap cap vph vok dflt nf s 0 l).

  Lemma holds_VR nf s l : v_holds cap s l -> (nf = true -> fuse s = None) -> VR nf s l.
  Proof.
    intros (H1 & H2 & H3 & H4) Hf. split; unfold vph, vok; auto.
    - pose proof (lenz_nonneg l). lia.
    - intros a Ha. rewrite H4 by lia. rewrite (nth_error_nthz dflt) by lia. do 2 f_equal; lia.
    - intros a Ha. rewrite H4 by (pose proof (lenz_nonneg l); lia). apply nth_error_None. unfold lenz in Ha. lia.
  Qed.
  Lemma VR_holds nf s l : VR nf s l -> v_holds cap s l.
  Proof.
    intros R. pose proof (VR_len cap dflt nf s l R) as Hl. destruct R as [H1 H2 H3 H4 H5 H6 H7].
    unfold v_holds. repeat split; auto; try lia.
    intros i Hi. destruct (Z_lt_le_dec i (lenz l)) as [H|H].
    - unfold vph in H5. rewrite H5 by lia. rewrite (nth_error_nthz dflt) by lia. do 2 f_equal; lia.
    - unfold vph in H6. rewrite H6 by lia. symmetry. apply nth_error_None. unfold lenz in H. lia.
  Qed.
  Lemma VR_true_fuse s l : VR true s l -> fuse s = None.
  Proof. intros R. exact (R_fuse _ _ _ _ _ _ _ _ _ R eq_refl). Qed.

  (** One call without throwing elements. *)
  Lemma v_step_exact s l o :
    v_holds cap s l -> fuse s = None -> seq_pre dbg false l o ->
    exists s', v_holds cap s' (snd (seq_step dflt cap l o)) /\ fuse s' = None /\
      match fst (seq_step dflt cap l o) with
      | OExn e => v_step cap torn dflt dbg o s = Thr e s'
      | r => v_step cap torn dflt dbg o s = Ok r s'
      end.
  Proof.
    intros Hs Hf Hpre.
    pose proof (v_step_runs cap torn dflt dbg Hcap true s l o (holds_VR true s l Hs (fun _ => Hf)) Hpre) as H.
    unfold runs in H. destruct (v_step cap torn dflt dbg o s) as [r s'|e s'|s'| |] eqn:Ho; try contradiction.
    - destruct H as [-> R]. exists s'. split; [eapply VR_holds; exact R|]. split; [eapply VR_true_fuse; exact R|].
      destruct (fst (seq_step dflt cap l o)) eqn:E; try reflexivity.
      (* an Ok outcome never reports an exception *)
      exfalso. clear -Ho E. destruct o; cbn in Ho; unfold bind in Ho;
        repeat match type of Ho with
        | match ?x with _ => _ end = _ => destruct x; try discriminate
        end; unfold ret in Ho; try discriminate; injection Ho; congruence.
    - destruct H as [[He R]|(-> & Hn & _)]; [|discriminate]. exists s'. rewrite He.
      assert (Hl : snd (seq_step dflt cap l o) = l).
      { clear - He. destruct o; cbn [seq_step] in *;
          repeat match goal with |- context [if ?b then _ else _] => destruct b end;
          cbn [fst snd] in *; try reflexivity; discriminate. }
      rewrite Hl. split; [eapply VR_holds; exact R|]. split; [eapply VR_true_fuse; exact R|reflexivity].
  Qed.

  Lemma v_run_from s l os :
    v_holds cap s l -> fuse s = None -> seq_pres dflt cap dbg false l os ->
    exists s', v_run cap torn dflt dbg s os = Some (fst (seq_run dflt cap l os), s') /\
               v_holds cap s' (snd (seq_run dflt cap l os)) /\ fuse s' = None.
  Proof.
    revert s l. induction os as [|o os IH]; intros s l Hs Hf Hpre.
    - exists s. cbn. auto.
    - cbn [seq_pres] in Hpre. destruct Hpre as [Hp Hps].
      destruct (v_step_exact s l o Hs Hf Hp) as (s1 & H1 & Hf1 & Hstep).
      destruct (IH s1 (snd (seq_step dflt cap l o)) H1 Hf1 Hps) as (s2 & Hrun & H2 & Hf2).
      exists s2. cbn [seq_run v_run].
      destruct (seq_step dflt cap l o) as [r l'] eqn:E. cbn [fst snd] in *.
      destruct (seq_run dflt cap l' os) as [rs l''] eqn:E'. cbn [fst snd] in *.
      split; [|auto].
      destruct r; rewrite Hstep, Hrun; reflexivity.
  Qed.

  Lemma v_init_holds : v_holds cap (@v_init V) [].
  Proof.
    unfold v_holds, v_init. cbn. repeat split; try lia. intros i Hi. now destruct (Z.to_nat i).
  Qed.

  (** Histories from the default-constructed vector. *)
  Lemma v_refines os :
    seq_pres dflt cap dbg false [] os ->
    exists s, v_run cap torn dflt dbg v_init os = Some (fst (seq_run dflt cap [] os), s) /\
              v_holds cap s (snd (seq_run dflt cap [] os)).
  Proof.
    intros H. destruct (v_run_from v_init [] os v_init_holds eq_refl H) as (s & H1 & H2 & _). eauto.
  Qed.

  (** With elements that may throw. *)
  Lemma v_step_fused f s l o :
    v_holds cap s l -> seq_pre dbg false l o ->
    match v_step cap torn dflt dbg o (arm f s) with
    | Ok r s' => r = fst (seq_step dflt cap l o) /\ v_holds cap s' (snd (seq_step dflt cap l o))
    | Thr ElemExn s' => exists l', v_holds cap s' l'
    | Thr e s' => fst (seq_step dflt cap l o) = OExn e /\ v_holds cap s' l
    | _ => False
    end.
  Proof.
    intros Hs Hpre.
    assert (Ha : v_holds cap (arm f s) l) by exact Hs.
    assert (R : VR false (arm f s) l) by (apply holds_VR; [exact Ha|discriminate]).
    pose proof (v_step_runs cap torn dflt dbg Hcap false _ l o R Hpre) as H.
    unfold runs in H. destruct (v_step cap torn dflt dbg o (arm f s)) as [r s'|e s'|s'| |]; try contradiction.
    - destruct H as [-> R']. split; [reflexivity|]. eapply VR_holds; exact R'.
    - destruct H as [[He R']|HE].
      + destruct e; [split; [exact He|eapply VR_holds; exact R'] ..|]. exists l. eapply VR_holds; exact R'.
      + destruct (vexc_LRep cap dflt _ _ _ HE) as (-> & _ & l' & R'). exists l'. eapply VR_holds; exact R'.
  Qed.

  (** "Valid for ever": after any sequence of calls, each with an arbitrary fuse and each made with its
      precondition satisfied by the contents at that time, the vector is in a valid state. *)
  Fixpoint v_safe (s : st V) (os : list (option nat * op V)) : Prop :=
    (exists l, v_holds cap s l) /\
    match os with
    | [] => True
    | (f, o) :: os' =>
        (forall l, v_holds cap s l -> seq_pre dbg false l o) ->
        match v_step cap torn dflt dbg o (arm f s) with
        | Ok _ s' | Thr _ s' => v_safe s' os'
        | _ => False
        end
    end.
  Lemma v_always_safe os : forall s l, v_holds cap s l -> v_safe s os.
  Proof.
    induction os as [|[f o] os IH]; intros s l Hs; cbn [v_safe]; (split; [eauto|]); [exact I|].
    intros Hpre. pose proof (v_step_fused f s l o Hs (Hpre l Hs)) as H.
    destruct (v_step cap torn dflt dbg o (arm f s)) as [r s'|e s'|s'| |]; try contradiction.
    - destruct H as [_ H]. eapply IH; exact H.
    - destruct e; [destruct H as [_ H]|destruct H as [_ H]|destruct H as [l' H]]; eapply IH; exact H.
  Qed.

  Lemma v_push_back_strong f s l v :
    v_holds cap s l ->
    match v_step cap torn dflt dbg (PushBack v) (arm f s) with
    | Ok r s' => r = OUnit /\ lenz l < cap /\ v_holds cap s' (l ++ [v])
    | Thr BadAlloc s' => lenz l = cap /\ s' = arm f s
    | Thr ElemExn s' => f <> None /\ v_holds cap s' l
    | _ => False
    end.
  Proof.
    intros Hs. set (nf := match f with None => true | Some _ => false end).
    assert (R : VR nf (arm f s) l) by (apply holds_VR; [exact Hs|unfold nf; now destruct f]).
    pose proof (v_push_back_runs cap dflt Hcap nf _ l (RVal v) v R (or_introl eq_refl)) as H.
    cbn [v_step]. unfold runs, bind in *. destruct (v_push_back cap (RVal v) (arm f s)) as [r s'|e s'|s'| |]; try contradiction.
    - cbn. destruct H as [H1 H2]. repeat split; auto; eapply VR_holds; exact H2.
    - destruct H as [(-> & H1 & H2)|(-> & Hn & R')]; [auto|].
      split; [unfold nf in Hn; destruct f; congruence|eapply VR_holds; exact R'].
  Qed.

  (** Over-capacity calls: nothing at all happens, not even a throwing copy. *)
  Lemma v_overflow s l o :
    v_holds cap s l -> seq_pre dbg false l o -> fst (seq_step dflt cap l o) = OExn BadAlloc ->
    v_step cap torn dflt dbg o s = Thr BadAlloc s.
  Proof.
    intros Hs Hpre He. pose proof Hs as (H1 & H2 & H3 & H4). pose proof (lenz_nonneg l) as Hl0.
    assert (Hpos : forall p, 0 <= p <= lenz l -> v_pos_ok (v_begin + p) s = Ok true s).
    { intros p Hp. unfold v_pos_ok, v_begin, bind, v_end, get_me, ret. cbn. rewrite H3.
      f_equal. bcase; try reflexivity; lia. }
    assert (Hav : v_available_size cap s = Ok (cap - lenz l) s).
    { unfold v_available_size, v_size, bind, get_me, ret. rewrite H3, w64_small by (rewrite W64_val; lia). reflexivity. }
    assert (Hd : dassert dbg true s = Ok tt s) by (unfold dassert; now destruct dbg).
    destruct o; cbn [seq_step fst] in He; try discriminate;
      repeat match type of He with
      | context [if ?b then _ else _] => destruct b eqn:?
      end; cbn [fst] in He; try discriminate; cbn [seq_pre] in Hpre; cbn [v_step].
    - unfold bind, v_push_back, v_full, v_size, get_me, ret. cbn. unfold bind, ret. rewrite H3, Heqb. reflexivity.
    - unfold v_insert_one, v_insert_n. unfold bind at 1 2. rewrite Hpos by lia.
      unfold bind at 1. rewrite Hd. unfold bind at 1 2. rewrite Hav, Heqb. reflexivity.
    - unfold v_insert_cnt, v_insert_n. unfold bind at 1 2. rewrite Hpos by lia.
      unfold bind at 1. rewrite Hd. unfold bind at 1. rewrite Hav, Heqb. reflexivity.
    - unfold v_insert_int, v_insert_n. unfold bind at 1 2. rewrite Hpos by lia.
      unfold bind at 1. rewrite Hd. unfold bind at 1. rewrite Hav. change (w64 n) with (n mod 2 ^ 64).
      rewrite Heqb. reflexivity.
    - unfold v_insert_rng, v_insert_range. unfold bind at 1 2. rewrite Hpos by lia.
      unfold bind at 1. rewrite Hd. unfold bind at 1. rewrite Hav.
      destruct Hpre as [Hp Hx]. unfold szt in Hx. rewrite w64_small by (rewrite W64_val; lia). rewrite Heqb. reflexivity.
    - unfold v_assign_n, bind. rewrite Heqb. reflexivity.
    - unfold v_assign_range, bind. unfold szt in Hpre. rewrite w64_small by (rewrite W64_val; lia). rewrite Heqb. reflexivity.
    - unfold v_resize, v_size, bind, get_me. rewrite H3, Heqb, Heqb0. reflexivity.
  Qed.

  (** Destructor *)
  Lemma v_destruct_clean f s l :
    v_holds cap s l -> exists s' : st V, v_destruct cap (arm f s) = Ok tt s' /\ forall i, 0 <= i < cap -> mem s' i = None.
  Proof.
    intros Hs. assert (R : VR false (arm f s) l) by (apply holds_VR; [exact Hs|discriminate]).
    pose proof (VR_len cap dflt _ _ _ R) as Hl.
    pose proof (v_destroy_range_runs cap dflt Hcap false _ l 0 (lenz l) (fun _ _ => False) R ltac:(lia) ltac:(lia)) as H.
    destruct Hs as (_ & _ & Hme & _).
    assert (Hd : v_destruct cap (arm f s) = v_destroy_range cap 0 (lenz l) (arm f s)).
    { unfold v_destruct, bind, v_end, get_me, ret, v_begin. cbn. rewrite Hme. reflexivity. }
    unfold runs in H. rewrite <- Hd in H. destruct (v_destruct cap (arm f s)) as [[] s'|e s'|s'| |]; try contradiction.
    exists s'. split; [reflexivity|]. intros i Hi.
    destruct (Z_lt_le_dec i (lenz l)).
    - apply (H_hole _ _ _ _ _ _ _ _ _ _ _ H); lia.
    - apply (H_raw _ _ _ _ _ _ _ _ _ _ _ H); lia.
  Qed.

  (** Aliasing *)
  Lemma v_push_back_alias s l i :
    v_holds cap s l -> fuse s = None -> 0 <= i < lenz l -> lenz l < cap ->
    exists s', v_push_back cap (RSlot i) s = Ok tt s' /\ v_holds cap s' (l ++ [nthz dflt l i]).
  Proof.
    intros Hs Hf Hi Hlt. assert (R : VR true s l) by (apply holds_VR; auto).
    pose proof (v_push_back_runs cap dflt Hcap true s l (RSlot i) (nthz dflt l i) R
      (or_intror (ex_intro _ i (conj Hi (conj eq_refl eq_refl))))) as H.
    unfold runs in H. destruct (v_push_back cap (RSlot i) s) as [[] s'|e s'|s'| |]; try contradiction.
    - exists s'. split; [reflexivity|]. eapply VR_holds; apply H.
    - destruct H as [(_ & H & _)|(_ & H & _)]; [lia|discriminate].
  Qed.
  Lemma v_resize_alias s l n i :
    v_holds cap s l -> fuse s = None -> 0 <= i < lenz l -> 0 <= n <= cap ->
    exists s', v_resize cap n (RSlot i) s = Ok tt s' /\
      v_holds cap s' (if n <=? lenz l then takez n l else l ++ repz (nthz dflt l i) (n - lenz l)).
  Proof.
    intros Hs Hf Hi Hn. assert (R : VR true s l) by (apply holds_VR; auto).
    pose proof (v_resize_runs cap dflt Hcap true s l n (RSlot i) (nthz dflt l i) R ltac:(lia)
      (fun _ => or_intror (ex_intro _ i (conj Hi (conj eq_refl eq_refl))))) as H.
    unfold runs in H. destruct (v_resize cap n (RSlot i) s) as [[] s'|e s'|s'| |]; try contradiction.
    - exists s'. split; [reflexivity|]. destruct H as [_ R']. cbn [seq_step] in R'.
      destruct (n <=? lenz l); [eapply VR_holds; exact R'|].
      destruct (Z.ltb_spec cap n); [lia|]. eapply VR_holds; exact R'.
    - destruct H as [[H _]|(_ & H & _)]; [|discriminate]. cbn [seq_step] in H.
      destruct (n <=? lenz l); [discriminate|]. destruct (Z.ltb_spec cap n); [lia|discriminate].
  Qed.
  (** insert(pos, n, v[i]): the value stored is that of v[i] unless the element lies at or behind pos + n, where
      the element n places before it is stored *)
  Lemma v_insert_alias s l p n i :
    v_holds cap s l -> fuse s = None -> 0 <= p <= lenz l -> 0 <= i < lenz l -> 0 <= n <= cap - lenz l ->
    exists s', v_insert_cnt cap torn dflt dbg p n (RSlot i) s = Ok tt s' /\
      v_holds cap s' (insert_seq l p (repz (nthz dflt l (if p + n <=? i then i - n else i)) n)).
  Proof.
    intros Hs Hf Hp Hi Hn. assert (R : VR true s l) by (apply holds_VR; auto).
    pose proof Hs as (H1 & H2 & H3 & H4). pose proof (lenz_nonneg l) as Hl0.
    assert (Hpos : v_pos_ok p s = Ok true s).
    { unfold v_pos_ok, v_begin, bind, v_end, get_me, ret. cbn. rewrite H3. f_equal. bcase; try reflexivity; lia. }
    pose proof (v_insert_n_runs cap torn dflt Hcap true s l p n (RSlot i) _ R ltac:(lia) ltac:(lia)
      (or_intror (ex_intro _ i (conj Hi (conj eq_refl eq_refl))))) as H.
    unfold v_insert_cnt, bind. rewrite Hpos. replace (dassert dbg true s) with (@Ok V unit tt s) by (now destruct dbg).
    unfold runs in H. destruct (v_insert_n cap torn dflt p n (RSlot i) s) as [[] s'|e s'|s'| |]; try contradiction.
    - exists s'. split; [reflexivity|]. eapply VR_holds; apply H.
    - destruct H as [(_ & H & _)|(_ & H & _)]; [lia|discriminate].
  Qed.

  (** Constructors without a throwing copy; copy and assignment *)
  Lemma v_assign_range_exact s l xs :
    v_holds cap s l -> fuse s = None -> lenz xs <= cap ->
    exists s' : st V, v_assign_range cap xs s = Ok tt s' /\ v_holds cap s' xs /\ fuse s' = None.
  Proof.
    intros Hs Hf Hx. assert (R : VR true s l) by (apply holds_VR; auto).
    pose proof (v_assign_range_runs cap dflt Hcap true s l xs R ltac:(lia)) as H.
    unfold runs in H. destruct (v_assign_range cap xs s) as [[] s'|e s'|s'| |]; try contradiction.
    - exists s'. split; [reflexivity|]. destruct H as [_ R']. cbn [seq_step] in R'.
      destruct (Z.ltb_spec cap (lenz xs)); [lia|]. split; [eapply VR_holds; exact R'|eapply VR_true_fuse; exact R'].
    - destruct H as [[H _]|(_ & H & _)]; [|discriminate]. cbn [seq_step] in H.
      destruct (Z.ltb_spec cap (lenz xs)); [lia|discriminate].
  Qed.
  Lemma v_read_all_exact (s : st V) l : v_holds cap s l -> v_read_all cap s = Ok l s.
  Proof.
    intros Hs. assert (R : VR false s l) by (apply holds_VR; [auto|discriminate]).
    pose proof (v_read_all_runs cap dflt Hcap false s l (fun _ _ => False) R) as H. unfold runs in H.
    destruct (v_read_all cap s) as [r s'|e s'|s'| |]; try contradiction. destruct H as [-> ->]. reflexivity.
  Qed.
  Lemma v_holds_unique (s : st V) l l' : v_holds cap s l -> v_holds cap s l' -> l = l'.
  Proof.
    intros H H'. apply v_read_all_exact in H, H'. congruence.
  Qed.
  Lemma v_insert_alias_iff s l p n i :
    v_holds cap s l -> fuse s = None -> 0 <= p <= lenz l -> 0 <= i < lenz l -> 0 <= n <= cap - lenz l ->
    exists s', v_insert_cnt cap torn dflt dbg p n (RSlot i) s = Ok tt s' /\
      (v_holds cap s' (insert_seq l p (repz (nthz dflt l i) n)) <-> i < p + n \/ nthz dflt l (i - n) = nthz dflt l i).
  Proof.
    intros Hs Hf Hp Hi Hn. destruct (v_insert_alias s l p n i Hs Hf Hp Hi Hn) as (s' & H1 & H2).
    exists s'. split; [exact H1|]. destruct (Z.leb_spec (p + n) i) as [Hc|Hc].
    - split; [|intros [H|H]; [lia|rewrite H in H2; exact H2]]. intros H. right.
      destruct (Z.eq_dec n 0) as [->|Hn0]; [f_equal; lia|].
      pose proof (v_holds_unique _ _ _ H H2) as He.
      apply (f_equal (fun x => nthz dflt x p)) in He. rewrite !nthz_insert_seq in He by (rewrite ?lenz_repz; lia).
      rewrite !lenz_repz in He by lia. revert He. bcase; try lia. rewrite !nthz_repz by lia. congruence.
    - split; [left; lia|]. intros _. exact H2.
  Qed.
  Lemma v_copy_exact (x : st V) l : v_holds cap x l ->
    exists s', v_construct_copy cap None x = Ok tt s' /\ v_holds cap s' l.
  Proof.
    intros Hx. unfold v_construct_copy. rewrite (v_read_all_exact x l Hx).
    destruct (v_assign_range_exact (mkst (fun _ => None) 0 0 None) [] l) as (s' & H1 & H2 & _); eauto.
    - apply v_init_holds.
    - apply Hx.
  Qed.
  Lemma v_operator_assign_exact self (x : st V) lx (s : st V) l :
    v_holds cap x lx -> v_holds cap s l -> fuse s = None -> (self = true -> lx = l) ->
    exists s', v_operator_assign cap self x s = Ok tt s' /\ v_holds cap s' lx.
  Proof.
    intros Hx Hs Hf Hself. unfold v_operator_assign. destruct self.
    - exists s. rewrite (Hself eq_refl). split; [reflexivity|exact Hs].
    - rewrite (v_read_all_exact x lx Hx).
      destruct (v_assign_range_exact s l lx Hs Hf) as (s' & H1 & H2 & _); eauto. apply Hx.
  Qed.
End VT.

(** operator== *)
Section VEq.
  Context {V : Type} (dflt : V) (eqb : V -> V -> bool).
  Hypothesis Heqb : forall a b, eqb a b = true <-> a = b.

  Lemma v_eq_exact capx capy (x y : st V) lx ly :
    v_holds capx x lx -> v_holds capy y ly ->
    exists b, v_eq eqb capx capy x y = Ok b x /\ (b = true <-> lx = ly).
  Proof.
    intros (X1 & X2 & X3 & X4) (Y1 & Y2 & Y3 & Y4). unfold v_eq. rewrite X3, Y3.
    destruct (Z.eqb_spec (lenz lx) (lenz ly)) as [He|He]; cbn [negb].
    2: { exists false. split; [reflexivity|]. split; [discriminate|]. intros ->. congruence. }
    set (cond := fun ib : Z * bool => _). set (body := fun ib : Z * bool => _).
    assert (G : forall f k, 0 <= k <= lenz lx -> lenz lx - k <= Z.of_nat f ->
              (forall i, 0 <= i < k -> nthz dflt lx i = nthz dflt ly i) ->
              exists ib, loop f cond body (k, true) x = Ok ib x /\ (snd ib = true <-> lx = ly)).
    { induction f as [|f IH]; intros k Hk Hf Hp.
      - assert (k = lenz lx) by lia; subst k. exists (lenz lx, true). split.
        + cbn [loop]. unfold bind, cond. cbn [fst snd]. unfold ret. rewrite Z.ltb_irrefl. reflexivity.
        + cbn [snd]. split; [|reflexivity]. intros _. apply (list_ext dflt); [congruence|]. intros; apply Hp; lia.
      - cbn [loop]. unfold bind at 1. unfold cond at 1. cbn [fst snd]. unfold ret at 1.
        destruct (Z.ltb_spec k (lenz lx)) as [Hlt|Hge]; cbn [andb].
        + unfold bind. unfold body at 1. cbn [fst snd].
          unfold v_index, v_begin, rd. cbn [Z.add].
          rewrite !inbuf_true by lia. rewrite X4, Y4 by lia.
          rewrite !(nth_error_nthz dflt) by lia. 
          destruct (eqb (nthz dflt lx k) (nthz dflt ly k)) eqn:E.
          * cbn [ret]. apply IH; [lia|lia|]. intros i Hi. destruct (Z.eq_dec i k) as [->|Hne].
            -- now apply Heqb.
            -- apply Hp; lia.
          * cbn [ret]. exists (k, false). split.
            -- destruct f; cbn [loop]; unfold bind, cond; cbn [fst snd ret]; rewrite andb_false_r; reflexivity.
            -- cbn [snd]. split; [discriminate|]. intros ->.
               assert (eqb (nthz dflt ly k) (nthz dflt ly k) = true) by now apply Heqb. congruence.
        + assert (k = lenz lx) by lia; subst k. exists (lenz lx, true). split; [reflexivity|].
          cbn [snd]. split; [|reflexivity]. intros _. apply (list_ext dflt); [congruence|]. intros; apply Hp; lia. }
    destruct (G (Z.to_nat (lenz lx)) 0) as (ib & H1 & H2); try lia.
    { pose proof (lenz_nonneg lx). lia. }
    rewrite H1. exists (snd ib). auto.
  Qed.
End VEq.

(** Debug build: arbitrary arguments *)
Section VDbg.
  Context {V : Type}.
  Variable cap : Z.
  Variable torn dflt : V.
  Hypothesis Hcap : 0 <= cap < 2 ^ 63.

  (** arguments are of the right C++ type (counts and indices are size_t); positions are arbitrary.
      Unchecked operator[] and the calls the vector does not have are excluded. *)
  Definition v_typed (o : op V) : Prop :=
    match o with
    | InsertN _ n _ | AssignN n _ | Resize n _ | At n => szt n
    | InsertRange _ xs | AssignRange xs => szt (lenz xs)
    | Index _ | PushFront _ | PopFront => False
    | _ => True
    end.

  Lemma v_debug_safe f s l o :
    v_holds cap s l -> v_typed o ->
    match v_step cap torn dflt true o (arm f s) with
    | Ok r s' => seq_pre true false l o /\ r = fst (seq_step dflt cap l o) /\ v_holds cap s' (snd (seq_step dflt cap l o))
    | Thr ElemExn s' => seq_pre true false l o /\ exists l', v_holds cap s' l'
    | Thr e s' => seq_pre true false l o /\ fst (seq_step dflt cap l o) = OExn e /\ v_holds cap s' l
    | AssertFail s' => ~ seq_pre true false l o /\ s' = arm f s
    | UB | Diverge => False
    end.
  Proof.
    intros Hs Ht. pose proof Hs as (H1 & H2 & H3 & H4). pose proof (lenz_nonneg l) as Hl0.
    assert (Hdec : seq_pre true false l o \/ ~ seq_pre true false l o).
    { destruct o; cbn [seq_pre v_typed] in *; try contradiction; try (left; tauto).
      - destruct l; [right; tauto|left; discriminate].
      - destruct (Z_le_gt_dec 0 p), (Z_le_gt_dec p (lenz l)); (left; lia) || (right; lia).
      - destruct (Z_le_gt_dec 0 p), (Z_le_gt_dec p (lenz l)); (left; split; [lia|assumption]) || (right; lia).
      - destruct (Z_le_gt_dec 0 p), (Z_le_gt_dec p (lenz l)); (left; lia) || (right; lia).
      - destruct (Z_le_gt_dec 0 p), (Z_le_gt_dec p (lenz l)); (left; split; [lia|assumption]) || (right; lia).
      - destruct (Z_le_gt_dec 0 p), (Z_lt_ge_dec p (lenz l)); (left; lia) || (right; lia).
      - destruct (Z_le_gt_dec 0 p), (Z_lt_ge_dec p q), (Z_le_gt_dec q (lenz l)); (left; lia) || (right; intros (? & ? & X); specialize (X eq_refl); lia).
      - destruct l; [right; tauto|left; discriminate].
      - destruct l; [right; tauto|left; discriminate]. }
    destruct Hdec as [Hp|Hn].
    - pose proof (v_step_fused cap torn dflt true Hcap f s l o Hs Hp) as H.
      destruct (v_step cap torn dflt true o (arm f s)) as [r s'|e s'|s'| |]; try contradiction; [tauto|].
      destruct e; tauto.
    - destruct o; cbn [seq_pre v_typed] in *; try contradiction; try tauto; cbn [v_step].
      + (* PopBack *) destruct l; [|exfalso; apply Hn; discriminate].
        unfold v_pop_back, v_empty, v_size, bind, get_me, ret, dassert. cbn [me arm]. rewrite H3. cbn. split; [tauto|reflexivity].
      + unfold v_insert_one, v_pos_ok, v_end, v_begin, bind, get_me, ret, dassert. cbn [me arm]. rewrite H3.
        replace ((0 <=? 0 + p) && (0 + p <=? 0 + lenz l)) with false by (symmetry; bcase; try reflexivity; lia). auto.
      + unfold v_insert_cnt, v_pos_ok, v_end, v_begin, bind, get_me, ret, dassert. cbn [me arm]. rewrite H3.
        replace ((0 <=? 0 + p) && (0 + p <=? 0 + lenz l)) with false by (symmetry; bcase; try reflexivity; exfalso; apply Hn; split; [lia|assumption]). auto.
      + unfold v_insert_int, v_pos_ok, v_end, v_begin, bind, get_me, ret, dassert. cbn [me arm]. rewrite H3.
        replace ((0 <=? 0 + p) && (0 + p <=? 0 + lenz l)) with false by (symmetry; bcase; try reflexivity; lia). auto.
      + unfold v_insert_rng, v_pos_ok, v_end, v_begin, bind, get_me, ret, dassert. cbn [me arm]. rewrite H3.
        replace ((0 <=? 0 + p) && (0 + p <=? 0 + lenz l)) with false by (symmetry; bcase; try reflexivity; exfalso; apply Hn; split; [lia|assumption]). auto.
      + unfold v_erase_one, v_end, v_begin, bind, get_me, ret, dassert. cbn [me arm]. rewrite H3.
        replace ((0 <=? 0 + p) && (0 + p <? 0 + lenz l)) with false by (symmetry; bcase; try reflexivity; lia). auto.
      + unfold v_erase_range, v_end, v_begin, bind, get_me, ret, dassert. cbn [me arm].
        destruct (Z.ltb_spec (0 + p) (0 + q)) as [Hlt|Hge]; [|auto]. cbn [me arm]. rewrite H3.
        destruct (Z.leb_spec 0 (0 + p)), (Z.ltb_spec (0 + p) (0 + lenz l)); cbn [andb]; auto.
        destruct (Z.leb_spec 0 (0 + q)), (Z.leb_spec (0 + q) (0 + lenz l)); cbn [andb]; auto.
        exfalso. apply Hn. repeat split; intros; lia.
      + destruct l; [|exfalso; apply Hn; discriminate].
        unfold v_front, v_empty, v_size, bind, get_me, ret, dassert. cbn [me arm]. rewrite H3. cbn. split; [tauto|reflexivity].
      + destruct l; [|exfalso; apply Hn; discriminate].
        unfold v_back, v_empty, v_size, bind, get_me, ret, dassert. cbn [me arm]. rewrite H3. cbn. split; [tauto|reflexivity].
  Qed.
End VDbg.

Section VMore.
  Context {V : Type}.
  Variable cap : Z.
  Variable torn dflt : V.
  Variable dbg : bool.
  Hypothesis Hcap : 0 <= cap < 2 ^ 63.

  Lemma v_history_destroyed os f :
    seq_pres dflt cap dbg false [] os ->
    exists rs s s', v_run cap torn dflt dbg v_init os = Some (rs, s) /\ v_destruct cap (arm f s) = Ok tt s' /\
      (forall i, 0 <= i < cap -> mem s' i = None).
  Proof.
    intros H. destruct (v_refines cap torn dflt dbg Hcap os H) as (s & H1 & H2).
    destruct (v_destruct_clean cap dflt Hcap f s _ H2) as (s' & H3 & H4). eauto 6.
  Qed.

  Lemma v_run_bound os rs s :
    seq_pres dflt cap dbg false [] os -> v_run cap torn dflt dbg v_init os = Some (rs, s) -> 0 <= me s <= cap.
  Proof.
    intros H Hr. destruct (v_refines cap torn dflt dbg Hcap os H) as (s1 & H1 & H2).
    rewrite H1 in Hr. injection Hr as <- <-. destruct H2 as (A & B & C & D). rewrite C.
    pose proof (lenz_nonneg (snd (seq_run dflt cap [] os))). lia.
  Qed.

  Lemma v_at_exact (s : st V) l i :
    v_holds cap s l -> szt i ->
    v_at cap i s = (if i <? lenz l then Ok (nthz dflt l i) s else Thr OutOfRange s).
  Proof.
    intros (H1 & H2 & H3 & H4) Hi. unfold v_at, v_size, get_me, bind. rewrite H3. unfold szt in Hi.
    destruct (Z.leb_spec (lenz l) i), (Z.ltb_spec i (lenz l)); try lia; [reflexivity|].
    unfold v_begin, rd. cbn [Z.add]. rewrite inbuf_true by lia. rewrite H4 by lia.
    now rewrite (nth_error_nthz dflt) by lia.
  Qed.

  Lemma v_insert_one_iter s l p v :
    v_holds cap s l -> fuse s = None -> 0 <= p <= lenz l -> lenz l < cap ->
    exists s' : st V, v_insert_one cap torn dflt dbg p (RVal v) s = Ok p s' /\ v_index cap p s' = Ok v s' /\
      v_holds cap s' (insert_seq l p [v]).
  Proof.
    intros Hs Hf Hp Hl.
    destruct (v_step_exact cap torn dflt dbg Hcap s l (InsertOne p v) Hs Hf Hp) as (s' & H1 & H2 & H3).
    cbn [seq_step] in *. destruct (Z.ltb_spec (cap - lenz l) 1); [lia|]. cbn [fst snd] in *.
    exists s'. cbn [v_step] in H3. unfold v_begin in H3. cbn [Z.add] in H3. unfold bind in H3.
    destruct (v_insert_one cap torn dflt dbg p (RVal v) s) as [it s1|e s1|s1| |]; try discriminate.
    injection H3 as H3 ->. assert (it = p) by lia. subst it. split; [reflexivity|]. split; [|assumption].
    destruct H1 as (A & B & C & D). unfold v_index, v_begin, rd. cbn [Z.add].
    rewrite lenz_insert_seq in * by lia. rewrite lenz_1 in *. rewrite inbuf_true by lia. rewrite D by lia.
    rewrite (nth_error_nthz dflt) by (rewrite lenz_insert_seq by lia; rewrite lenz_1; lia).
    rewrite Z2Nat.id || idtac. f_equal.
    rewrite nthz_insert_seq by lia. rewrite lenz_1.
    destruct (Z.ltb_spec p p); [lia|]. destruct (Z.ltb_spec p (p + 1)); [|lia]. now rewrite Z.sub_diag.
  Qed.

  Lemma v_erase_iter s l p q :
    v_holds cap s l -> fuse s = None -> 0 <= p < q -> q <= lenz l ->
    exists s' : st V, v_erase_range cap torn dbg p q s = Ok p s' /\
      v_holds cap s' (erase_seq l p q) /\
      (if q <? lenz l then v_index cap p s' = Ok (nthz dflt l q) s' else me s' = p).
  Proof.
    intros Hs Hf Hp Hl.
    destruct (v_step_exact cap torn dflt dbg Hcap s l (EraseRange p q) Hs Hf) as (s' & H1 & H2 & H3).
    { cbn. repeat split; intros; lia. }
    cbn [seq_step fst snd] in *.
    exists s'. cbn [v_step] in H3. unfold v_begin in H3. cbn [Z.add] in H3. unfold bind in H3.
    destruct (v_erase_range cap torn dbg p q s) as [it s1|e s1|s1| |]; try discriminate.
    injection H3 as H3 ->. assert (it = p) by lia. subst it. split; [reflexivity|]. split; [assumption|].
    destruct H1 as (A & B & C & D). rewrite lenz_erase_seq in A, C by lia.
    destruct (Z.ltb_spec q (lenz l)); [|rewrite C; lia].
    unfold v_index, v_begin, rd. cbn [Z.add]. rewrite inbuf_true by lia. rewrite D by lia.
    rewrite (nth_error_nthz dflt) by (rewrite lenz_erase_seq by lia; lia). f_equal.
    rewrite nthz_erase_seq by lia. destruct (Z.ltb_spec p p); [lia|]. f_equal; lia.
  Qed.

  (** PreallocatedVector *)
  Lemma pv_refines bytes sizeofT b os :
    0 < sizeofT -> 0 <= bytes < 2 ^ 63 ->
    let x := @pv_construct V (Some b) bytes in
    let c := bytes / sizeofT in
    pv_max_size sizeofT x = c /\ 0 <= c * sizeofT <= bytes /\ bytes < (c + 1) * sizeofT /\
    (seq_pres dflt c dbg false [] os ->
     exists s, pv_run torn dflt dbg sizeofT x os = Some (fst (seq_run dflt c [] os), s) /\
               v_holds c s (snd (seq_run dflt c [] os))).
  Proof.
    intros Hs Hb x c. unfold c. split; [reflexivity|].
    assert (0 <= bytes / sizeofT) by (apply Z.div_pos; lia).
    pose proof (Z.mod_pos_bound bytes sizeofT Hs). pose proof (Z.div_mod bytes sizeofT ltac:(lia)).
    assert (0 <= bytes / sizeofT * sizeofT) by nia.
    repeat split; try nia. intros H'. unfold pv_run. apply v_refines; [nia|exact H'].
  Qed.
End VMore.

(** a constructor that throws leaves elements behind *)
Lemma v_construct_n_leak {V} (v : V) :
  exists s' : st V, v_construct_n 3 (Some 1%nat) 2 v = Thr ElemExn s' /\ mem s' 0 = Some v.
Proof. eexists. split; [vm_compute; reflexivity|reflexivity]. Qed.
Lemma v_insert_alias_wrong :
  exists s s', v_holds 5 s [1; 2; 3] /\ fuse s = None /\
    v_insert_one 5 0 0 true 0 (RSlot 2) s = Ok 0 s' /\ v_holds 5 s' [2; 1; 2; 3] /\ ~ v_holds 5 s' [3; 1; 2; 3].
Proof.
  set (s := mkst (fun i => if 0 <=? i then nth_error [1;2;3] (Z.to_nat i) else None) 0 3 None).
  exists s. eexists. split.
  { unfold v_holds, s. cbn [mem mb me]. repeat split; try (vm_compute; congruence).
    intros i Hi. destruct (Z.leb_spec 0 i); [reflexivity|lia]. }
  split; [reflexivity|]. split; [vm_compute; reflexivity|]. split.
  - unfold v_holds. cbn [mem mb me]. repeat split; try (vm_compute; congruence).
    intros i Hi. assert (i = 0 \/ i = 1 \/ i = 2 \/ i = 3 \/ i = 4) as [-> | [-> | [-> | [-> | ->]]]] by lia; reflexivity.
  - intros (_ & _ & _ & H). specialize (H 0 ltac:(lia)). discriminate H.
Qed.

Section VEq2.
  Context {V : Type} (dflt : V) (eqb : V -> V -> bool).
  Hypothesis Heqb : forall a b, eqb a b = true <-> a = b.
  Lemma v_eq_neq cap (x y : st V) lx ly :
    v_holds cap x lx -> v_holds cap y ly ->
    exists b, v_eq eqb cap cap x y = Ok b x /\ (b = true <-> lx = ly) /\ v_neq eqb cap cap x y = Ok (negb b) x.
  Proof.
    intros Hx Hy. destruct (v_eq_exact dflt eqb Heqb cap cap x y lx ly Hx Hy) as (b & H1 & H2).
    exists b. unfold v_neq. rewrite H1. auto.
  Qed.
  Lemma pv_eq_exact capx capy (x y : st V) lx ly :
    v_holds capx x lx -> v_holds capy y ly ->
    exists b, pv_eq eqb capx capy x y = Ok b x /\ (b = true <-> capx = capy /\ lx = ly).
  Proof.
    intros Hx Hy. unfold pv_eq. destruct (Z.eqb_spec capx capy) as [He|He]; cbn [negb].
    - destruct (v_eq_exact dflt eqb Heqb capx capy x y lx ly Hx Hy) as (b & H1 & H2). exists b. split; [exact H1|]. tauto.
    - exists false. split; [reflexivity|]. split; [discriminate|tauto].
  Qed.
End VEq2.
