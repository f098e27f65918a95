(** Copy counts and untouched elements over histories of calls, and bounds on the counts. *)
From Verif Require Import Base.ZList Spec.SeqSpec Spec.CopySpec Container.Mem Container.Triple Container.Rep Container.Loops
  Container.GenInsert Container.ListRep Container.Cost
  Container.VectorModel Container.VectorTheorems Container.DequeModel Container.DequeTheorems Container.CostTheorems.

Section CR.
  Context {V : Type}.
  Variable torn dflt : V.
  Variable dbg : bool.
  Variable cap : Z.

  (** an element that stays is an element afterwards, with the same value *)
  Lemma stays_in deque (l : list V) o i j :
    seq_pre dbg deque l o -> 0 <= i < lenz l -> stays deque cap l o i = Some j ->
    0 <= j < lenz (snd (seq_step dflt cap l o)) /\ nthz dflt (snd (seq_step dflt cap l o)) j = nthz dflt l i.
  Proof.
    intros Hpre Hi Hst. pose proof (lenz_nonneg l) as H0.
    destruct o as [v| |v| |p v|p n v|p n v|p xs|p|p q|n v|xs|n v| |k|k| | | | | | |];
      cbn [seq_pre seq_step stays] in *; unfold stays_insert, stays_erase, szt in *;
      repeat match type of Hst with
             | context [if (?a <? ?b) then _ else _] => destruct (Z.ltb_spec a b)
             | context [if (?a =? ?b) then _ else _] => destruct (Z.eqb_spec a b)
             | context [if (?a <=? ?b) then _ else _] => destruct (Z.leb_spec a b)
             | context [if ?b then _ else _] => destruct b eqn:?
             end; try discriminate; injection Hst as <-; cbn [snd]; try (split; [lia|reflexivity]).
    all: try pose proof (Z.mod_pos_bound n (2 ^ 64) ltac:(lia)) as Hn.
    all: try (destruct (Z.leb_spec n (lenz l)); [|destruct (Z.ltb_spec cap n)]).
    all: try (destruct (Z.eqb_spec (lenz l) cap)).
    all: try (destruct (Z.ltb_spec k (lenz l))).
    all: cbn [snd]; rewrite ?lenz_app, ?lenz_1, ?lenz_cons, ?lenz_takez, ?lenz_dropz, ?lenz_insert_seq, ?lenz_erase_seq,
      ?lenz_repz by lia; try (split; [lia|]).
    all: try reflexivity.
    all: rewrite ?nthz_takez, ?nthz_dropz, ?nthz_insert_seq, ?nthz_erase_seq, ?nthz_app, ?lenz_1, ?lenz_repz by lia.
    all: bcase; try lia; try reflexivity; try (f_equal; lia).
    all: rewrite ?nthz_cons by lia; try (f_equal; lia).
    all: split; [lia|]; f_equal; lia.
  Qed.

  Lemma arm_id (s : st V) f : fuse s = f -> arm f s = s.
  Proof. destruct s. cbn. now intros ->. Qed.

  Section Vec.
    Hypothesis Hcap : 0 <= cap < 2 ^ 63.

    Lemma copies_nonneg_v (s : st V) (l : list V) o : v_holds cap s l -> seq_pre dbg false l o -> 0 <= copies false cap l o.
    Proof.
      intros Hs Hpre. pose proof (lenz_nonneg l) as H0. pose proof (proj1 Hs) as Hl.
      destruct o; cbn [copies seq_pre] in *; unfold ins, moved_by_insert, moved_by_erase, insert_copies, szt, towards_end, closes_from_end in *;
        cbn [negb orb] in *; try pose proof (Z.mod_pos_bound n (2 ^ 64) ltac:(lia)) as Hn;
        try pose proof (lenz_nonneg xs); bcase; lia.
    Qed.

    Lemma v_run_budget os : forall s l k,
      v_holds cap s l -> fuse s = Some k -> seq_pres dflt cap dbg false l os ->
      copies_run false cap dflt l os <= Z.of_nat k ->
      exists s', v_run cap torn dflt dbg s os = Some (fst (seq_run dflt cap l os), s') /\
        v_holds cap s' (snd (seq_run dflt cap l os)) /\
        fuse s' = Some (Z.to_nat (Z.of_nat k - copies_run false cap dflt l os)).
    Proof.
      assert (NN : forall os s l, v_holds cap s l -> fuse s = None -> seq_pres dflt cap dbg false l os -> 0 <= copies_run false cap dflt l os).
      { clear os. intros os. induction os as [|o os IH]; intros s l Hs Hf Hpre; cbn [copies_run]; [lia|]. destruct Hpre as [Hp Hps].
        destruct (v_step_exact cap torn dflt dbg Hcap s l o Hs Hf Hp) as (s1 & H1 & Hf1 & _).
        pose proof (IH s1 _ H1 Hf1 Hps). pose proof (copies_nonneg_v s l o Hs Hp). lia. }
      induction os as [|o os IH]; intros s l k Hs Hf Hpre Hk.
      - exists s. cbn. rewrite Z.sub_0_r, Nat2Z.id. auto.
      - destruct Hpre as [Hp Hps]. cbn [copies_run] in *.
        pose proof (v_copies_exact torn dflt dbg cap Hcap s l o k Hs Hp) as HC. rewrite (arm_id s _ Hf) in HC.
        destruct (v_step_exact cap torn dflt dbg Hcap (arm None s) l o Hs eq_refl Hp) as (s0 & Hs0 & Hf0 & _).
        pose proof (NN os s0 _ Hs0 Hf0 Hps) as Hnn.
        cbn [seq_run v_run]. destruct (v_step cap torn dflt dbg o s) as [r s1|e s1|s1| |] eqn:E; try contradiction.
        + destruct HC as (-> & H1 & Hle & Hf1).
          destruct (IH s1 _ _ H1 Hf1 Hps ltac:(lia)) as (s2 & Hr & H2 & Hf2). exists s2. rewrite Hr.
          destruct (seq_step dflt cap l o) as [r l']. cbn [fst snd] in *.
          destruct (seq_run dflt cap l' os) as [rs l'']. cbn [fst snd] in *.
          split; [reflexivity|]. split; [exact H2|]. rewrite Hf2. f_equal. lia.
        + assert (HC' : fst (seq_step dflt cap l o) = OExn e /\ copies false cap l o = 0 /\ s1 = s)
            by (destruct e; [exact HC|exact HC|lia]).
          destruct HC' as (He & H0 & ->).
          assert (Hl : snd (seq_step dflt cap l o) = l).
          { clear - He. destruct o; cbn [seq_step] in *;
              repeat match goal with |- context [if ?b then _ else _] => destruct b end;
              cbn [fst snd] in *; try reflexivity; discriminate. }
          rewrite Hl in *. destruct (IH s l k Hs Hf Hps ltac:(lia)) as (s2 & Hr & H2 & Hf2). exists s2. rewrite Hr.
          destruct (seq_step dflt cap l o) as [r l']. cbn [fst snd] in *. subst r l'.
          destruct (seq_run dflt cap l os) as [rs l'']. cbn [fst snd] in *.
          split; [reflexivity|]. split; [exact H2|]. rewrite Hf2. f_equal. lia.
    Qed.

    Lemma v_run_untouched os : forall s t l i j,
      v_holds cap s l -> fuse s = None -> seq_pres dflt cap dbg false l os ->
      0 <= i < lenz l -> stays_run false cap dflt l os i = Some j -> same_but i s t ->
      exists s' t', v_run cap torn dflt dbg s os = Some (fst (seq_run dflt cap l os), s') /\
        v_run cap torn dflt dbg t os = Some (fst (seq_run dflt cap l os), t') /\
        same_but i s' t' /\ mem s' i = mem s i /\ mem t' i = mem t i /\ j = i.
    Proof.
      induction os as [|o os IH]; intros s t l i j Hs Hf Hpre Hi Hst Ht.
      - injection Hst as <-. exists s, t. cbn. auto 6.
      - destruct Hpre as [Hp Hps]. cbn [stays_run] in Hst.
        destruct (stays false cap l o i) as [i1|] eqn:Es; [|discriminate].
        destruct (stays_in false l o i i1 Hp Hi Es) as [Hi1 _].
        pose proof (v_untouched torn dflt dbg cap Hcap s l o i i1 None t Hs Hp Hi Es) as HU.
        rewrite (arm_id s _ Hf) in HU. specialize (HU Ht).
        destruct (v_step_exact cap torn dflt dbg Hcap s l o Hs Hf Hp) as (s1 & Hs1 & Hf1 & Hstep).
        assert (exists t1, v_step cap torn dflt dbg o t =
                  match fst (seq_step dflt cap l o) with OExn e => Thr e t1 | r => Ok r t1 end /\
                  same_but i s1 t1 /\ mem s1 i = mem s i /\ mem t1 i = mem t i /\ i1 = i) as (t1 & Et & H1 & H2 & H3 & ->).
        { destruct (out_cases (fst (seq_step dflt cap l o))) as [[e Er]|Er].
          - destruct (v_throws torn dflt dbg cap Hcap s l o e Hs Hp Er) as [_ Hth].
            rewrite Er in *. exists t. split; [apply Hth; symmetry; apply Ht|].
            rewrite (Hth s eq_refl eq_refl) in Hstep. injection Hstep as <-.
            split; [exact Ht|]. split; [reflexivity|]. split; [reflexivity|].
            clear - Es Hp Er. destruct o; cbn in Es, Er, Hp; unfold stays_insert, stays_erase, towards_end, closes_from_end in Es;
              cbn [negb orb] in Es; try discriminate Hp; try (destruct Hp; discriminate);
              repeat match type of Es with context [if ?b then _ else _] => destruct b end; congruence.
          - assert (Hok : v_step cap torn dflt dbg o s = Ok (fst (seq_step dflt cap l o)) s1)
              by (revert Hstep; destruct (fst (seq_step dflt cap l o)); auto; now destruct (Er e)).
            rewrite Hok in HU. destruct (v_step cap torn dflt dbg o t) as [r2 t1|? ?|?| |]; try contradiction.
            destruct HU as (-> & HU). exists t1. split; [|exact HU].
            destruct (fst (seq_step dflt cap l o)); auto. now destruct (Er e). }
        destruct (IH s1 t1 _ i j Hs1 Hf1 Hps Hi1 Hst H1) as (s2 & t2 & R1 & R2 & R3 & R4 & R5 & ->).
        exists s2, t2. cbn [seq_run v_run]. rewrite Et.
        destruct (seq_step dflt cap l o) as [r l']. cbn [fst snd] in *.
        destruct (seq_run dflt cap l' os) as [rs l'']. cbn [fst snd] in *.
        rewrite <- H2, <- H3.
        destruct r; rewrite Hstep, R1, R2; auto 7.
    Qed.
  End Vec.

  Section Deq.
    Hypothesis Hcap : 0 <= cap /\ cap + 1 < 2 ^ 63.
    Notation bufsize := (cap + 1).

    Lemma copies_nonneg_d (s : st V) (l : list V) o : d_holds cap s l -> seq_pre dbg true l o -> 0 <= copies true cap l o.
    Proof.
      intros Hs Hpre. pose proof (lenz_nonneg l) as H0. pose proof (proj1 Hs) as Hl.
      destruct o; cbn [copies seq_pre] in *; unfold ins, moved_by_insert, moved_by_erase, insert_copies, szt, towards_end, closes_from_end in *;
        cbn [negb orb] in *; try pose proof (Z.mod_pos_bound n (2 ^ 64) ltac:(lia)) as Hn;
        try pose proof (lenz_nonneg xs); bcase; lia.
    Qed.

    Lemma d_run_budget os : forall s l k,
      d_holds cap s l -> fuse s = Some k -> seq_pres dflt cap dbg true l os ->
      copies_run true cap dflt l os <= Z.of_nat k ->
      exists s', d_run cap bufsize torn dflt dbg s os = Some (fst (seq_run dflt cap l os), s') /\
        d_holds cap s' (snd (seq_run dflt cap l os)) /\
        fuse s' = Some (Z.to_nat (Z.of_nat k - copies_run true cap dflt l os)).
    Proof.
      assert (NN : forall os s l, d_holds cap s l -> fuse s = None -> seq_pres dflt cap dbg true l os -> 0 <= copies_run true cap dflt l os).
      { clear os. intros os. induction os as [|o os IH]; intros s l Hs Hf Hpre; cbn [copies_run]; [lia|]. destruct Hpre as [Hp Hps].
        destruct (d_step_exact cap torn dflt dbg Hcap s l o Hs Hf Hp) as (s1 & H1 & Hf1 & _).
        pose proof (IH s1 _ H1 Hf1 Hps). pose proof (copies_nonneg_d s l o Hs Hp). lia. }
      induction os as [|o os IH]; intros s l k Hs Hf Hpre Hk.
      - exists s. cbn. rewrite Z.sub_0_r, Nat2Z.id. auto.
      - destruct Hpre as [Hp Hps]. cbn [copies_run] in *.
        pose proof (d_copies_exact torn dflt dbg cap Hcap s l o k Hs Hp) as HC. rewrite (arm_id s _ Hf) in HC.
        destruct (d_step_exact cap torn dflt dbg Hcap (arm None s) l o Hs eq_refl Hp) as (s0 & Hs0 & Hf0 & _).
        pose proof (NN os s0 _ Hs0 Hf0 Hps) as Hnn.
        cbn [seq_run d_run]. destruct (d_step cap bufsize torn dflt dbg o s) as [r s1|e s1|s1| |] eqn:E; try contradiction.
        + destruct HC as (-> & H1 & Hle & Hf1).
          destruct (IH s1 _ _ H1 Hf1 Hps ltac:(lia)) as (s2 & Hr & H2 & Hf2). exists s2. rewrite Hr.
          destruct (seq_step dflt cap l o) as [r l']. cbn [fst snd] in *.
          destruct (seq_run dflt cap l' os) as [rs l'']. cbn [fst snd] in *.
          split; [reflexivity|]. split; [exact H2|]. rewrite Hf2. f_equal. lia.
        + assert (HC' : fst (seq_step dflt cap l o) = OExn e /\ copies true cap l o = 0 /\ s1 = s)
            by (destruct e; [exact HC|exact HC|lia]).
          destruct HC' as (He & H0 & ->).
          assert (Hl : snd (seq_step dflt cap l o) = l).
          { clear - He. destruct o; cbn [seq_step] in *;
              repeat match goal with |- context [if ?b then _ else _] => destruct b end;
              cbn [fst snd] in *; try reflexivity; discriminate. }
          rewrite Hl in *. destruct (IH s l k Hs Hf Hps ltac:(lia)) as (s2 & Hr & H2 & Hf2). exists s2. rewrite Hr.
          destruct (seq_step dflt cap l o) as [r l']. cbn [fst snd] in *. subst r l'.
          destruct (seq_run dflt cap l os) as [rs l'']. cbn [fst snd] in *.
          split; [reflexivity|]. split; [exact H2|]. rewrite Hf2. f_equal. lia.
    Qed.

    Lemma d_run_untouched os : forall s t l i j,
      d_holds cap s l -> fuse s = None -> seq_pres dflt cap dbg true l os ->
      0 <= i < lenz l -> stays_run true cap dflt l os i = Some j -> same_but ((mb s + i) mod bufsize) s t ->
      exists s' t', d_run cap bufsize torn dflt dbg s os = Some (fst (seq_run dflt cap l os), s') /\
        d_run cap bufsize torn dflt dbg t os = Some (fst (seq_run dflt cap l os), t') /\
        same_but ((mb s + i) mod bufsize) s' t' /\
        mem s' ((mb s + i) mod bufsize) = mem s ((mb s + i) mod bufsize) /\
        mem t' ((mb s + i) mod bufsize) = mem t ((mb s + i) mod bufsize) /\
        (mb s' + j) mod bufsize = (mb s + i) mod bufsize.
    Proof.
      induction os as [|o os IH]; intros s t l i j Hs Hf Hpre Hi Hst Ht.
      - injection Hst as <-. exists s, t. cbn. auto 6.
      - destruct Hpre as [Hp Hps]. cbn [stays_run] in Hst.
        destruct (stays true cap l o i) as [i1|] eqn:Es; [|discriminate].
        destruct (stays_in true l o i i1 Hp Hi Es) as [Hi1 _].
        pose proof (d_untouched torn dflt dbg cap Hcap s l o i i1 None t Hs Hp Hi Es) as HU.
        rewrite (arm_id s _ Hf) in HU. cbv zeta in HU. remember ((mb s + i) mod bufsize) as z eqn:Hz. specialize (HU Ht).
        destruct (d_step_exact cap torn dflt dbg Hcap s l o Hs Hf Hp) as (s1 & Hs1 & Hf1 & Hstep).
        assert (exists t1, d_step cap bufsize torn dflt dbg o t =
                  match fst (seq_step dflt cap l o) with OExn e => Thr e t1 | r => Ok r t1 end /\
                  same_but z s1 t1 /\ mem s1 z = mem s z /\ mem t1 z = mem t z /\ (mb s1 + i1) mod bufsize = z)
          as (t1 & Et & H1 & H2 & H3 & H4).
        { destruct (out_cases (fst (seq_step dflt cap l o))) as [[e Er]|Er].
          - destruct (d_throws torn dflt dbg cap Hcap s l o e Hs Hp Er) as [_ Hth].
            rewrite Er in *. exists t. split; [apply Hth; symmetry; apply Ht|].
            rewrite (Hth s eq_refl eq_refl) in Hstep. injection Hstep as <-.
            split; [exact Ht|]. split; [reflexivity|]. split; [reflexivity|].
            assert (i1 = i); [|now subst].
            clear - Es Hp Er. destruct o; cbn [stays seq_step] in Es, Er, Hp; unfold stays_insert, stays_erase in Es;
              repeat match type of Es with context [if ?b then _ else _] => destruct b eqn:? end; cbn [fst] in Er; try congruence.
          - assert (Hok : d_step cap bufsize torn dflt dbg o s = Ok (fst (seq_step dflt cap l o)) s1)
              by (revert Hstep; destruct (fst (seq_step dflt cap l o)); auto; now destruct (Er e)).
            rewrite Hok in HU. destruct (d_step cap bufsize torn dflt dbg o t) as [r2 t1|? ?|?| |]; try contradiction.
            destruct HU as (-> & HU). exists t1. split; [|exact HU].
            destruct (fst (seq_step dflt cap l o)); auto. now destruct (Er e). }
        pose proof (IH s1 t1 _ i1 j Hs1 Hf1 Hps Hi1 Hst) as IH'. rewrite H4 in IH'.
        destruct (IH' H1) as (s2 & t2 & R1 & R2 & R3 & R4 & R5 & R6).
        exists s2, t2. cbn [seq_run d_run]. rewrite Et.
        destruct (seq_step dflt cap l o) as [r l']. cbn [fst snd] in *.
        destruct (seq_run dflt cap l' os) as [rs l'']. cbn [fst snd] in *.
        rewrite <- H2, <- H3.
        destruct r; rewrite Hstep, R1, R2; auto 7.
    Qed.
  End Deq.

  (** ** bounds *)
  Lemma copies_deque_le (l : list V) o :
    seq_pre dbg false l o -> lenz l <= cap -> copies true cap l o <= copies false cap l o.
  Proof.
    intros Hpre Hl. pose proof (lenz_nonneg l) as H0.
    destruct o; cbn [copies seq_pre] in *; unfold ins, moved_by_insert, moved_by_erase, insert_copies, szt, towards_end, closes_from_end in *;
      cbn [negb orb] in *; try pose proof (Z.mod_pos_bound n (2 ^ 64) ltac:(lia)) as Hn;
      try pose proof (lenz_nonneg xs);
      try (pose proof (Z.div_mod (lenz l) 2 ltac:(lia)); pose proof (Z.mod_pos_bound (lenz l) 2 ltac:(lia)));
      bcase; try lia.
  Qed.

  Lemma v_enough s l o k :
    0 <= cap < 2 ^ 63 -> v_holds cap s l -> seq_pre dbg false l o ->
    (exists s', v_step cap torn dflt dbg o (arm (Some k) s) = Thr ElemExn s') <-> Z.of_nat k < copies false cap l o.
  Proof.
    intros Hcap Hs Hp. pose proof (v_copies_exact torn dflt dbg cap Hcap s l o k Hs Hp) as HC.
    destruct (v_step cap torn dflt dbg o (arm (Some k) s)) as [r s1|e s1|s1| |]; try contradiction.
    - split; [intros [s' E]; discriminate|intros; lia].
    - destruct e; [| |split; [auto|eauto]]; (split; [intros [s' E]; discriminate|intros; lia]).
  Qed.
  Lemma d_enough s l o k :
    0 <= cap /\ cap + 1 < 2 ^ 63 -> d_holds cap s l -> seq_pre dbg true l o ->
    (exists s', d_step cap (cap + 1) torn dflt dbg o (arm (Some k) s) = Thr ElemExn s') <-> Z.of_nat k < copies true cap l o.
  Proof.
    intros Hcap Hs Hp. pose proof (d_copies_exact torn dflt dbg cap Hcap s l o k Hs Hp) as HC.
    destruct (d_step cap (cap + 1) torn dflt dbg o (arm (Some k) s)) as [r s1|e s1|s1| |]; try contradiction.
    - split; [intros [s' E]; discriminate|intros; lia].
    - destruct e; [| |split; [auto|eauto]]; (split; [intros [s' E]; discriminate|intros; lia]).
  Qed.

  Lemma deque_beats_vector sv sd (l : list V) o k s' :
    0 <= cap < 2 ^ 63 -> cap + 1 < 2 ^ 63 -> v_holds cap sv l -> d_holds cap sd l -> seq_pre dbg false l o ->
    d_step cap (cap + 1) torn dflt dbg o (arm (Some k) sd) = Thr ElemExn s' ->
    exists s'', v_step cap torn dflt dbg o (arm (Some k) sv) = Thr ElemExn s''.
  Proof.
    intros H1 H2 Hv Hd Hp E.
    assert (Hp' : seq_pre dbg true l o) by (destruct o; cbn in *; try exact Hp; try discriminate; destruct Hp; auto).
    pose proof (proj1 (d_enough sd l o k ltac:(lia) Hd Hp') ltac:(eauto)) as Hk.
    apply (v_enough sv l o k H1 Hv Hp). pose proof (copies_deque_le l o Hp (proj1 Hv)). lia.
  Qed.

  Lemma d_insert_half s (l : list V) p v k :
    0 <= cap /\ cap + 1 < 2 ^ 63 -> d_holds cap s l -> lenz l < cap -> 0 <= p <= lenz l -> lenz l / 2 + 2 <= Z.of_nat k ->
    exists s', d_step cap (cap + 1) torn dflt dbg (InsertOne p v) (arm (Some k) s) = Ok (OPos p) s' /\
               d_holds cap s' (insert_seq l p [v]).
  Proof.
    intros Hcap Hs Hl Hp Hk. pose proof (d_copies_exact torn dflt dbg cap Hcap s l (InsertOne p v) k Hs Hp) as HC.
    pose proof (lenz_nonneg l) as H0.
    assert (Hc : copies true cap l (InsertOne p v) <= Z.of_nat k).
    { cbn [copies]; unfold ins, moved_by_insert, insert_copies, towards_end; cbn [negb orb].
      pose proof (Z.div_mod (lenz l) 2 ltac:(lia)); pose proof (Z.mod_pos_bound (lenz l) 2 ltac:(lia)). bcase; lia. }
    cbn [seq_step] in HC. destruct (Z.ltb_spec (cap - lenz l) 1); [lia|]. cbn [fst snd] in HC.
    destruct (d_step cap (cap + 1) torn dflt dbg (InsertOne p v) (arm (Some k) s)) as [r s1|e s1|s1| |]; try contradiction.
    - destruct HC as (-> & HC & _). eauto.
    - destruct e; [destruct HC; discriminate|destruct HC; discriminate|lia].
  Qed.

  Lemma d_erase_half s (l : list V) p k :
    0 <= cap /\ cap + 1 < 2 ^ 63 -> d_holds cap s l -> 0 <= p < lenz l -> (lenz l - 1) / 2 <= Z.of_nat k ->
    exists s', d_step cap (cap + 1) torn dflt dbg (EraseOne p) (arm (Some k) s) = Ok (OPos p) s' /\
               d_holds cap s' (erase_seq l p (p + 1)).
  Proof.
    intros Hcap Hs Hp Hk. pose proof (d_copies_exact torn dflt dbg cap Hcap s l (EraseOne p) k Hs Hp) as HC.
    assert (Hc : copies true cap l (EraseOne p) <= Z.of_nat k).
    { cbn [copies]; unfold moved_by_erase, closes_from_end; cbn [negb orb].
      pose proof (Z.div_mod (lenz l - 1) 2 ltac:(lia)); pose proof (Z.mod_pos_bound (lenz l - 1) 2 ltac:(lia)). bcase; lia. }
    cbn [seq_step fst snd] in HC.
    destruct (d_step cap (cap + 1) torn dflt dbg (EraseOne p) (arm (Some k) s)) as [r s1|e s1|s1| |]; try contradiction.
    - destruct HC as (-> & HC & _). eauto.
    - destruct e; [destruct HC; discriminate|destruct HC; discriminate|lia].
  Qed.

  (** inserting n elements at an end takes n copies *)
  Lemma v_insert_end s (l : list V) xs k :
    0 <= cap < 2 ^ 63 -> v_holds cap s l -> lenz l + lenz xs <= cap ->
    (exists s', v_step cap torn dflt dbg (InsertRange (lenz l) xs) (arm (Some k) s) = Ok OUnit s' /\
                v_holds cap s' (l ++ xs)) <-> lenz xs <= Z.of_nat k.
  Proof.
    intros Hcap Hs Hl. pose proof (lenz_nonneg l) as H0. pose proof (lenz_nonneg xs) as H1.
    assert (Hp : seq_pre dbg false l (InsertRange (lenz l) xs)) by (split; [lia|unfold szt; lia]).
    pose proof (v_copies_exact torn dflt dbg cap Hcap s l _ k Hs Hp) as HC.
    cbn [seq_step copies] in HC. unfold ins in HC. destruct (Z.ltb_spec (cap - lenz l) (lenz xs)); [lia|].
    unfold moved_by_insert, insert_copies, towards_end in HC. cbn [negb orb fst snd] in HC.
    replace (lenz l - lenz l) with 0 in HC by lia. destruct (Z.ltb_spec (lenz xs) 0); [lia|].
    replace (insert_seq l (lenz l) xs) with (l ++ xs) in HC.
    2:{ unfold insert_seq, takez, dropz, lenz. rewrite Nat2Z.id, firstn_all, skipn_all, app_nil_r. reflexivity. }
    destruct (v_step cap torn dflt dbg (InsertRange (lenz l) xs) (arm (Some k) s)) as [r s1|e s1|s1| |]; try contradiction.
    - destruct HC as (-> & HC & Hk & _). split; [intros; lia|eauto].
    - split; [intros (? & E & _); discriminate|]. destruct e; [destruct HC; discriminate|destruct HC; discriminate|lia].
  Qed.
  Lemma d_insert_end s (l : list V) p xs k :
    0 <= cap /\ cap + 1 < 2 ^ 63 -> d_holds cap s l -> lenz l + lenz xs <= cap -> p = 0 \/ p = lenz l ->
    (exists s', d_step cap (cap + 1) torn dflt dbg (InsertRange p xs) (arm (Some k) s) = Ok OUnit s' /\
                d_holds cap s' (insert_seq l p xs)) <-> lenz xs <= Z.of_nat k.
  Proof.
    intros Hcap Hs Hl Hpe. pose proof (lenz_nonneg l) as H0. pose proof (lenz_nonneg xs) as H1.
    assert (Hp : seq_pre dbg true l (InsertRange p xs)) by (split; [lia|unfold szt; lia]).
    pose proof (d_copies_exact torn dflt dbg cap Hcap s l _ k Hs Hp) as HC.
    assert (Hc : copies true cap l (InsertRange p xs) = lenz xs).
    { cbn [copies]; unfold ins, moved_by_insert, insert_copies, towards_end; cbn [negb orb].
      pose proof (Z.div_mod (lenz l) 2 ltac:(lia)); pose proof (Z.mod_pos_bound (lenz l) 2 ltac:(lia)).
      destruct Hpe as [Hpe|Hpe]; subst p; bcase; lia. }
    rewrite Hc in HC.
    cbn [seq_step] in HC. destruct (Z.ltb_spec (cap - lenz l) (lenz xs)); [lia|]. cbn [fst snd] in HC.
    destruct (d_step cap (cap + 1) torn dflt dbg (InsertRange p xs) (arm (Some k) s)) as [r s1|e s1|s1| |]; try contradiction.
    - destruct HC as (-> & HC & Hk & _). split; [intros; lia|eauto].
    - split; [intros (? & E & _); discriminate|]. destruct e; [destruct HC; discriminate|destruct HC; discriminate|lia].
  Qed.

  (** push_back and push_front of a deque leave every element at its address, whatever its copy operations do *)
  Lemma d_push_keeps s (l : list V) o i f :
    0 <= cap /\ cap + 1 < 2 ^ 63 -> d_holds cap s l -> (exists v, o = PushBack v \/ o = PushFront v) -> 0 <= i < lenz l ->
    exists s' j, (d_step cap (cap + 1) torn dflt dbg o (arm f s) = Ok OUnit s' \/
                  exists e, d_step cap (cap + 1) torn dflt dbg o (arm f s) = Thr e s') /\
      mem s' ((mb s + i) mod (cap + 1)) = mem s ((mb s + i) mod (cap + 1)) /\
      (d_step cap (cap + 1) torn dflt dbg o (arm f s) = Ok OUnit s' ->
       (mb s' + j) mod (cap + 1) = (mb s + i) mod (cap + 1) /\ j = match o with PushFront _ => i + 1 | _ => i end).
  Proof.
    intros Hcap Hs (v & Ho) Hi.
    assert (Hp : seq_pre dbg true l o) by (destruct Ho; subst o; cbn; auto).
    pose proof (d_step_fused cap torn dflt dbg Hcap f s l o Hs Hp) as HF.
    set (j := match o with PushFront _ => if lenz l =? cap then i else i + 1 | _ => i end).
    assert (Hst : stays true cap l o i = Some j) by (destruct Ho; subst o; reflexivity).
    pose proof (d_untouched torn dflt dbg cap Hcap s l o i j f (arm f s) Hs Hp Hi Hst) as HU. cbv zeta in HU.
    specialize (HU ltac:(repeat split)).
    destruct (d_step cap (cap + 1) torn dflt dbg o (arm f s)) as [r s1|e s1|s1| |] eqn:E; try contradiction.
    - destruct HF as [-> HF]. destruct HU as (_ & _ & HU & _ & HU2).
      exists s1, j. split; [left; f_equal|].
      { destruct Ho as [Ho|Ho]; subst o; cbn [seq_step]; destruct (lenz l =? cap) eqn:Hc; cbn [fst]; try reflexivity.
        all: exfalso; clear - E Hc; cbn [seq_step] in E; rewrite Hc in E; cbn [fst d_step] in E; unfold bind in E.
        all: repeat match type of E with context [match ?m with _ => _ end] => destruct m; try discriminate end. }
      split; [exact HU|]. intros E'. split; [exact HU2|].
      destruct Ho as [Ho|Ho]; subst o j; [reflexivity|]. destruct (lenz l =? cap) eqn:Hc; [|reflexivity].
      exfalso. injection E' as E'. cbn [seq_step] in E'. rewrite Hc in E'. discriminate.
    - exists s1, j. split; [right; eauto|]. split; [apply HU|]. discriminate.
  Qed.
End CR.
