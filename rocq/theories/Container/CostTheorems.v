(** Copy counts and untouched elements, in the vocabulary of the property statements. *)
From Verif Require Import Base.ZList Spec.SeqSpec Spec.CopySpec Container.Mem Container.Triple Container.Rep Container.Loops
  Container.GenInsert Container.ListRep Container.Cost Container.GenCost
  Container.VectorModel Container.VectorProofs Container.VectorTheorems Container.VectorCost
  Container.DequeModel Container.DequeProofs Container.DequeTheorems Container.DequeCost.

(** equal but for what slot z holds (any element, or raw storage) *)
Definition same_but {V} (z : Z) (s1 s2 : st V) : Prop :=
  mb s1 = mb s2 /\ me s1 = me s2 /\ fuse s1 = fuse s2 /\ forall y, y <> z -> mem s1 y = mem s2 y.

Section CT.
  Context {V : Type}.

  (** [throws m s e]: from every object with the ends of s, m reports e and changes nothing *)
  Definition throws {A} (m : M V A) (s : st V) (e : exn) : Prop :=
    forall s2, mb s2 = mb s -> me s2 = me s -> m s2 = Thr e s2.
  Lemma throws_throw {A} e s : throws (throw (A := A) e) s e.
  Proof. intros s2 _ _. reflexivity. Qed.
  Lemma throws_bind {A C} (m : M V A) (k : A -> M V C) s e : throws m s e -> throws (bind m k) s e.
  Proof. intros H s2 E1 E2. unfold bind. now rewrite (H s2 E1 E2). Qed.
  Lemma throws_look {A C} (m : M V A) (k : A -> M V C) s a e : looks m s a -> throws (k a) s e -> throws (bind m k) s e.
  Proof. intros H H2 s2 E1 E2. unfold bind. rewrite (H s2 E1 E2). now apply H2. Qed.
  Lemma throws_dassert {C} dbg b (k : unit -> M V C) s e :
    (dbg = true -> b = true) -> throws (k tt) s e -> throws (bind (dassert dbg b) k) s e.
  Proof.
    intros Hb H s2 E1 E2. unfold bind, dassert. destruct dbg; [rewrite Hb by reflexivity|]; now apply H.
  Qed.

  Variable torn dflt : V.
  Variable dbg : bool.

  Lemma out_cases (r : out V) : (exists e, r = OExn e) \/ (forall e, r <> OExn e).
  Proof. destruct r; [right; discriminate..|left; eauto]. Qed.

  (** what [acts] and [throws] say of the two runs *)
  Section Two.
    Variable step : M V (out V).
    Variable s : st V.
    Variable r0 : out V.
    Variable c : Z.
    Variable Q : out V -> st V -> Prop.

    Lemma two_counts R s' : agree R s s -> acts R c Q step (arm None s) -> step (arm None s) = Ok r0 s' -> forall k,
      match step (arm (Some k) s) with
      | Ok r s1 => r = r0 /\ c <= Z.of_nat k /\ fuse s1 = Some (Z.to_nat (Z.of_nat k - c))
      | Thr ElemExn _ => Z.of_nat k < c
      | _ => False
      end.
    Proof.
      intros Hag A E k. destruct (A _ _ E) as (Hc & _ & L). specialize (L (arm (Some k) s) Hag). unfold like in L.
      replace (fuse (arm (Some k) s)) with (Some k) in L by reflexivity. destruct (Z.leb_spec c (Z.of_nat k)) as [H|H].
      - destruct L as (s2 & k' & E2 & F2 & B2 & _). rewrite E2.
        split; [reflexivity|]. split; [exact H|]. rewrite F2. f_equal. lia.
      - destruct L as (s2 & E2 & _). rewrite E2. exact H.
    Qed.

    Lemma two_runs z f t s' : acts (fun j => j = z) c Q step (arm None s) -> step (arm None s) = Ok r0 s' ->
      same_but z (arm f s) t ->
      match step (arm f s), step t with
      | Ok r s1, Ok r2 s2 => r = r0 /\ r2 = r0 /\ same_but z s1 s2 /\ mem s1 z = mem s z /\ mem s2 z = mem t z /\ mb s1 = mb s'
      | Thr e s1, Thr e2 s2 => e = ElemExn /\ e2 = ElemExn /\ mem s1 z = mem s z /\ mem s2 z = mem t z
      | _, _ => False
      end.
    Proof.
      intros A E (T1 & T2 & T3 & T4). destruct (A _ _ E) as (Hc & _ & L). clear A.
      pose proof (L (arm f s)) as L1. pose proof (L t) as L2.
      unfold like in L1, L2. rewrite <- T3 in L2. replace (fuse (arm f s)) with f in L1, L2 by reflexivity.
      assert (A1 : agree (fun j => j = z) (arm None s) (arm f s)).
      { split; [reflexivity|]. split; [reflexivity|]. intros j _. reflexivity. }
      assert (A2 : agree (fun j => j = z) (arm None s) t).
      { split; [now rewrite <- T1|]. split; [now rewrite <- T2|]. intros j Hj. now rewrite <- (T4 j Hj). }
      specialize (L1 A1). specialize (L2 A2).
      assert (Hsame : forall s1 s2, fuse s1 = fuse s2 -> agree (fun j => j = z) s' s1 -> agree (fun j => j = z) s' s2 -> same_but z s1 s2).
      { intros s1 s2 Hf (B1 & B2 & B3) (C1 & C2 & C3). split; [congruence|]. split; [congruence|]. split; [exact Hf|].
        intros y Hy. rewrite B3, C3 by exact Hy. reflexivity. }
      destruct f as [k|].
      - destruct (Z.leb_spec c (Z.of_nat k)) as [H|H].
        + destruct L1 as (s1 & k1 & E1 & F1 & B1 & G1 & K1). destruct L2 as (s2 & k2 & E2 & F2 & B2 & G2 & K2).
          rewrite E1, E2.
          split; [reflexivity|]. split; [reflexivity|]. split; [apply Hsame; [rewrite F1, F2; f_equal; lia|exact G1|exact G2]|].
          split; [exact (K1 z eq_refl)|]. split; [exact (K2 z eq_refl)|apply G1].
        + destruct L1 as (s1 & E1 & K1). destruct L2 as (s2 & E2 & K2).
          rewrite E1, E2.
          split; [reflexivity|]. split; [reflexivity|]. split; [exact (K1 z eq_refl)|exact (K2 z eq_refl)].
      - destruct L1 as (s1 & E1 & F1 & G1 & K1). destruct L2 as (s2 & E2 & F2 & G2 & K2).
        rewrite E1, E2.
        split; [reflexivity|]. split; [reflexivity|]. split; [apply Hsame; [congruence|exact G1|exact G2]|].
        split; [exact (K1 z eq_refl)|]. split; [exact (K2 z eq_refl)|apply G1].
    Qed.
  End Two.

  (** ** vector *)
  Section Vec.
    Variable cap : Z.
    Hypothesis Hcap : 0 <= cap < 2 ^ 63.

    Lemma v_throws s l o e :
      v_holds cap s l -> seq_pre dbg false l o -> fst (seq_step dflt cap l o) = OExn e ->
      copies false cap l o = 0 /\ throws (v_step cap torn dflt dbg o) s e.
    Proof.
      intros (H1 & H2 & H3 & _) Hpre He. pose proof (lenz_nonneg l) as H0.
      assert (Lsz : looks v_size s (lenz l)) by (intros s2 E1 E2; unfold v_size, get_me; congruence).
      assert (Lav : looks (v_available_size cap) s (cap - lenz l)).
      { intros s2 E1 E2. unfold v_available_size, bind. rewrite (Lsz s2 E1 E2). unfold ret.
        now rewrite w64_small by (rewrite W64_val; lia). }
      assert (Lpos : forall p, 0 <= p <= lenz l -> looks (v_pos_ok p) s true).
      { intros p Hp s2 E1 E2. unfold v_pos_ok, v_end, v_begin, bind, get_me, ret. rewrite E2, H3. cbn [Z.add].
        f_equal. bcase; try reflexivity; lia. }
      destruct o as [v| |v| |p v|p n v|p n v|p xs|p|p q|n v|xs|n v| |i|i| | | | | | |];
        cbn [seq_pre seq_step copies v_step] in *; unfold ins in *; try discriminate He; try discriminate Hpre.
      - destruct (Z.eqb_spec (lenz l) cap) as [Hf|Hf]; [|discriminate]. cbn [fst] in He; injection He as <-. split; [reflexivity|].
        apply throws_bind. unfold v_push_back, v_full. eapply throws_look; [eapply looks_bind; [exact Lsz|apply looks_ret]|].
        rewrite Hf, Z.eqb_refl. apply throws_throw.
      - destruct (Z.ltb_spec (cap - lenz l) 1) as [Hf|Hf]; [|discriminate]. cbn [fst] in He; injection He as <-. split; [reflexivity|].
        apply throws_bind. unfold v_insert_one. eapply throws_look; [apply Lpos; unfold v_begin; lia|].
        apply throws_dassert; [auto|]. apply throws_bind. unfold v_insert_n. eapply throws_look; [exact Lav|].
        destruct (Z.ltb_spec (cap - lenz l) 1); [apply throws_throw|lia].
      - destruct (Z.ltb_spec (cap - lenz l) n) as [Hf|Hf]; [|discriminate]. cbn [fst] in He; injection He as <-. split; [reflexivity|].
        apply throws_bind. unfold v_insert_cnt. eapply throws_look; [apply Lpos; unfold v_begin; lia|].
        apply throws_dassert; [auto|]. unfold v_insert_n. eapply throws_look; [exact Lav|].
        destruct (Z.ltb_spec (cap - lenz l) n); [apply throws_throw|lia].
      - destruct (Z.ltb_spec (cap - lenz l) (n mod 2 ^ 64)) as [Hf|Hf]; [|discriminate]. cbn [fst] in He; injection He as <-. split; [reflexivity|].
        apply throws_bind. unfold v_insert_int. eapply throws_look; [apply Lpos; unfold v_begin; lia|].
        apply throws_dassert; [auto|]. unfold v_insert_n. eapply throws_look; [exact Lav|].
        change (w64 n) with (n mod 2 ^ 64). destruct (Z.ltb_spec (cap - lenz l) (n mod 2 ^ 64)); [apply throws_throw|lia].
      - destruct (Z.ltb_spec (cap - lenz l) (lenz xs)) as [Hf|Hf]; [|discriminate]. cbn [fst] in He; injection He as <-. split; [reflexivity|].
        destruct Hpre as [Hp Hn]. unfold szt in Hn.
        apply throws_bind. unfold v_insert_rng. eapply throws_look; [apply Lpos; unfold v_begin; lia|].
        apply throws_dassert; [auto|]. unfold v_insert_range. eapply throws_look; [exact Lav|].
        rewrite !(w64_small (lenz xs)) by (rewrite W64_val; lia).
        destruct (Z.ltb_spec (cap - lenz l) (lenz xs)); [apply throws_throw|lia].
      - destruct (Z.ltb_spec cap n) as [Hf|Hf]; [|discriminate]. cbn [fst] in He; injection He as <-. split; [reflexivity|].
        apply throws_bind. unfold v_assign_n. destruct (Z.ltb_spec cap n); [apply throws_throw|lia].
      - destruct (Z.ltb_spec cap (lenz xs)) as [Hf|Hf]; [|discriminate]. cbn [fst] in He; injection He as <-. split; [reflexivity|].
        unfold szt in Hpre. apply throws_bind. unfold v_assign_range. rewrite !(w64_small (lenz xs)) by (rewrite W64_val; lia).
        destruct (Z.ltb_spec cap (lenz xs)); [apply throws_throw|lia].
      - destruct (Z.leb_spec n (lenz l)) as [Hle|Hle]; [discriminate|].
        destruct (Z.ltb_spec cap n) as [Hf|Hf]; [|discriminate]. cbn [fst] in He; injection He as <-. split; [reflexivity|].
        apply throws_bind. unfold v_resize. eapply throws_look; [exact Lsz|].
        destruct (Z.leb_spec n (lenz l)); [lia|]. destruct (Z.ltb_spec cap n); [apply throws_throw|lia].
      - destruct (Z.ltb_spec i (lenz l)) as [Hf|Hf]; [discriminate|]. cbn [fst] in He; injection He as <-. split; [reflexivity|].
        apply throws_bind. unfold v_at. eapply throws_look; [exact Lsz|].
        destruct (Z.leb_spec (lenz l) i); [apply throws_throw|lia].
    Qed.

    Lemma v_copies_exact s l o k :
      v_holds cap s l -> seq_pre dbg false l o ->
      match v_step cap torn dflt dbg o (arm (Some k) s) with
      | Ok r s' => r = fst (seq_step dflt cap l o) /\ v_holds cap s' (snd (seq_step dflt cap l o)) /\
                   copies false cap l o <= Z.of_nat k /\
                   fuse s' = Some (Z.to_nat (Z.of_nat k - copies false cap l o))
      | Thr ElemExn _ => Z.of_nat k < copies false cap l o
      | Thr e s' => fst (seq_step dflt cap l o) = OExn e /\ copies false cap l o = 0 /\ s' = arm (Some k) s
      | _ => False
      end.
    Proof.
      intros Hs Hpre.
      destruct (v_step_exact cap torn dflt dbg Hcap (arm None s) l o Hs eq_refl Hpre) as (s' & Hs' & Hf' & Hstep).
      pose proof (v_step_fused cap torn dflt dbg Hcap (Some k) s l o Hs Hpre) as HF.
      destruct (out_cases (fst (seq_step dflt cap l o))) as [[e Er]|Er].
      { destruct (v_throws s l o e Hs Hpre Er) as [Hc Ht]. rewrite (Ht (arm (Some k) s) eq_refl eq_refl) in HF |- *.
          destruct e; try (split; [apply HF|]; split; [exact Hc|reflexivity]).
          exfalso. clear - Er. destruct o; cbn in Er;
            repeat match type of Er with context [if ?b then _ else _] => destruct b end; discriminate. }
      assert (Hok : v_step cap torn dflt dbg o (arm None s) = Ok (fst (seq_step dflt cap l o)) s')
        by (revert Hstep; destruct (fst (seq_step dflt cap l o)); auto; now destruct (Er e)).
      clear Hstep; rename Hok into Hstep.
      pose proof (vc_step cap torn dflt dbg Hcap (fun _ => False) l o (arm None s) ltac:(destruct Hs as (? & ? & ? & _); split; assumption)
             (proj1 Hs) Hpre Er ltac:(intros i []) ) as A;
           pose proof (two_counts _ _ _ _ _ (fun _ => False) s' ltac:(split; [reflexivity|split; [reflexivity|reflexivity]]) A Hstep k) as T;
           destruct (v_step cap torn dflt dbg o (arm (Some k) s)) as [r s1|e s1|s1| |]; try contradiction;
           [destruct T as (-> & T1 & T2); split; [reflexivity|]; split; [apply HF|]; split; assumption
           |destruct e; try contradiction; exact T].
    Qed.

    Lemma v_untouched s l o i j f t :
      v_holds cap s l -> seq_pre dbg false l o -> 0 <= i < lenz l -> stays false cap l o i = Some j -> same_but i (arm f s) t ->
      match v_step cap torn dflt dbg o (arm f s), v_step cap torn dflt dbg o t with
      | Ok r s1, Ok r2 s2 => r2 = r /\ same_but i s1 s2 /\ mem s1 i = mem s i /\ mem s2 i = mem t i /\ j = i
      | Thr e s1, Thr e2 s2 => e2 = e /\ mem s1 i = mem s i /\ mem s2 i = mem t i
      | _, _ => False
      end.
    Proof.
      intros Hs Hpre Hi Hst Ht'.
      destruct (v_step_exact cap torn dflt dbg Hcap (arm None s) l o Hs eq_refl Hpre) as (s' & Hs' & Hf' & Hstep).
      assert (Hj : j = i).
      { clear - Hst Hpre. destruct o; cbn in Hst; unfold stays_insert, stays_erase, towards_end, closes_from_end in Hst;
          cbn [negb orb] in Hst; cbn in Hpre; try discriminate Hpre; try (destruct Hpre; discriminate);
          repeat match type of Hst with context [if ?b then _ else _] => destruct b end; congruence. }
      destruct (out_cases (fst (seq_step dflt cap l o))) as [[e Er]|Er].
      { destruct (v_throws s l o e Hs Hpre Er) as [Hc Ht]. rewrite (Ht (arm f s) eq_refl eq_refl).
          rewrite (Ht t (eq_sym (proj1 Ht')) (eq_sym (proj1 (proj2 Ht')))). split; [reflexivity|]. split; [reflexivity|].
          split; reflexivity. }
      assert (Hok : v_step cap torn dflt dbg o (arm None s) = Ok (fst (seq_step dflt cap l o)) s')
        by (revert Hstep; destruct (fst (seq_step dflt cap l o)); auto; now destruct (Er e)).
      clear Hstep; rename Hok into Hstep.
      pose proof (vc_step cap torn dflt dbg Hcap (fun z => z = i) l o (arm None s) ltac:(destruct Hs as (? & ? & ? & _); split; assumption)
             (proj1 Hs) Hpre Er ltac:(intros y ->; split; [exact Hi|congruence]) ) as A;
           pose proof (two_runs _ _ _ _ _ i f t s' A Hstep Ht') as T;
           destruct (v_step cap torn dflt dbg o (arm f s)) as [r s1|e s1|s1| |],
             (v_step cap torn dflt dbg o t) as [r2 s2|e2 s2|s2| |]; try contradiction;
           [destruct T as (-> & -> & T1 & T2 & T3 & _); repeat split; try assumption; apply T1
           |destruct T as (-> & -> & T1); split; [reflexivity|exact T1]].
    Qed.
  End Vec.

  (** ** deque *)
  Section Deq.
    Variable cap : Z.
    Hypothesis Hcap : 0 <= cap /\ cap + 1 < 2 ^ 63.
    Notation bufsize := (cap + 1).
    Notation ph := (dph bufsize).

    Lemma d_holds_ends (s : st V) (l : list V) : d_holds cap s l -> at_ends (ph (mb s)) (ph (mb s + lenz l)) s.
    Proof.
      intros (H1 & H2 & H3 & _). split; [unfold dph; now rewrite Z.mod_small by lia|exact H3].
    Qed.

    Lemma d_throws s l o e :
      d_holds cap s l -> seq_pre dbg true l o -> fst (seq_step dflt cap l o) = OExn e ->
      copies true cap l o = 0 /\ throws (d_step cap bufsize torn dflt dbg o) s e.
    Proof.
      intros Hs Hpre He. pose proof (lenz_nonneg l) as H0. pose proof (d_holds_ends s l Hs) as He'.
      pose proof (proj1 Hs) as Hl. set (lo := mb s) in *.
      assert (Hlen : lo + lenz l - lo = lenz l) by lia.
      pose proof (dlooks_size cap bufsize eq_refl Hcap lo (lo + lenz l) s He' ltac:(lia)) as Lsz.
      pose proof (dlooks_avail cap bufsize eq_refl Hcap lo (lo + lenz l) s He' ltac:(lia)) as Lav.
      pose proof (dlooks_full cap bufsize eq_refl Hcap lo (lo + lenz l) s He' ltac:(lia)) as Lfu.
      rewrite Hlen in Lsz, Lav, Lfu.
      pose proof (fun p (Hp : 0 <= p <= lenz l) => dlooks_at_off cap bufsize eq_refl Hcap lo (lo + lenz l) p s He' ltac:(lia)) as Lat.
      assert (Lpos : forall p, 0 <= p <= lenz l -> looks (d_pos_ok bufsize (ph (lo + p))) s true).
      { intros p Hp s2 E1 E2. unfold d_pos_ok, d_begin, d_end, bind, get_me, get_mb, ret. rewrite E1, E2, (proj1 He'), (proj2 He').
        rewrite !(it_le_ok _ (HBd cap Hcap)) by lia. f_equal. bcase; try reflexivity; lia. }
      destruct o as [v| |v| |p v|p n v|p n v|p xs|p|p q|n v|xs|n v| |i|i| | | | | | |];
        cbn [seq_pre seq_step copies d_step] in *; unfold ins in *; try discriminate He.
      - destruct (Z.eqb_spec (lenz l) cap) as [Hf|Hf]; [|discriminate]. cbn [fst] in He; injection He as <-. split; [reflexivity|].
        apply throws_bind. unfold d_push_back. eapply throws_look; [exact Lfu|].
        apply throws_throw.
      - destruct (Z.eqb_spec (lenz l) cap) as [Hf|Hf]; [|discriminate]. cbn [fst] in He; injection He as <-. split; [reflexivity|].
        apply throws_bind. unfold d_push_front. eapply throws_look; [exact Lfu|].
        apply throws_throw.
      - destruct (Z.ltb_spec (cap - lenz l) 1) as [Hf|Hf]; [|discriminate]. cbn [fst] in He; injection He as <-. split; [reflexivity|].
        eapply throws_look; [apply Lat; lia|].
        apply throws_bind. unfold d_insert_one. eapply throws_look; [apply Lpos; lia|].
        apply throws_dassert; [auto|]. unfold d_insert_n. eapply throws_look; [exact Lav|].
        destruct (Z.ltb_spec (cap - lenz l) 1); [apply throws_throw|lia].
      - destruct (Z.ltb_spec (cap - lenz l) n) as [Hf|Hf]; [|discriminate]. cbn [fst] in He; injection He as <-. split; [reflexivity|].
        eapply throws_look; [apply Lat; lia|].
        apply throws_bind. unfold d_insert_cnt. eapply throws_look; [apply Lpos; lia|].
        apply throws_dassert; [auto|]. apply throws_bind. unfold d_insert_n. eapply throws_look; [exact Lav|].
        destruct (Z.ltb_spec (cap - lenz l) n); [apply throws_throw|lia].
      - destruct (Z.ltb_spec (cap - lenz l) (n mod 2 ^ 64)) as [Hf|Hf]; [|discriminate]. cbn [fst] in He; injection He as <-. split; [reflexivity|].
        eapply throws_look; [apply Lat; lia|].
        apply throws_bind. unfold d_insert_int. eapply throws_look; [apply Lpos; lia|].
        apply throws_dassert; [auto|]. apply throws_bind. unfold d_insert_n. eapply throws_look; [exact Lav|].
        change (w64 n) with (n mod 2 ^ 64). destruct (Z.ltb_spec (cap - lenz l) (n mod 2 ^ 64)); [apply throws_throw|lia].
      - destruct (Z.ltb_spec (cap - lenz l) (lenz xs)) as [Hf|Hf]; [|discriminate]. cbn [fst] in He; injection He as <-. split; [reflexivity|].
        destruct Hpre as [Hp Hn]. unfold szt in Hn.
        eapply throws_look; [apply Lat; lia|].
        apply throws_bind. unfold d_insert_rng. eapply throws_look; [apply Lpos; lia|].
        apply throws_dassert; [auto|]. unfold d_insert_range. eapply throws_look; [exact Lav|].
        rewrite !(w64_small (lenz xs)) by (rewrite W64_val; lia).
        destruct (Z.ltb_spec (cap - lenz l) (lenz xs)); [apply throws_throw|lia].
      - destruct (Z.ltb_spec cap n) as [Hf|Hf]; [|discriminate]. cbn [fst] in He; injection He as <-. split; [reflexivity|].
        apply throws_bind. unfold d_assign_n. destruct (Z.ltb_spec cap n); [apply throws_throw|lia].
      - destruct (Z.ltb_spec cap (lenz xs)) as [Hf|Hf]; [|discriminate]. cbn [fst] in He; injection He as <-. split; [reflexivity|].
        unfold szt in Hpre. apply throws_bind. unfold d_assign_range. rewrite !(w64_small (lenz xs)) by (rewrite W64_val; lia).
        destruct (Z.ltb_spec cap (lenz xs)); [apply throws_throw|lia].
      - destruct (Z.leb_spec n (lenz l)) as [Hle|Hle]; [discriminate|].
        destruct (Z.ltb_spec cap n) as [Hf|Hf]; [|discriminate]. cbn [fst] in He; injection He as <-. split; [reflexivity|].
        apply throws_bind. unfold d_resize. eapply throws_look; [exact Lsz|].
        destruct (Z.leb_spec n (lenz l)); [lia|]. destruct (Z.ltb_spec cap n); [apply throws_throw|lia].
      - destruct (Z.ltb_spec i (lenz l)) as [Hf|Hf]; [discriminate|]. cbn [fst] in He; injection He as <-. split; [reflexivity|].
        apply throws_bind. unfold d_at. eapply throws_look; [exact Lsz|].
        destruct (Z.leb_spec (lenz l) i); [apply throws_throw|lia].
    Qed.

    Lemma d_copies_exact s l o k :
      d_holds cap s l -> seq_pre dbg true l o ->
      match d_step cap bufsize torn dflt dbg o (arm (Some k) s) with
      | Ok r s' => r = fst (seq_step dflt cap l o) /\ d_holds cap s' (snd (seq_step dflt cap l o)) /\
                   copies true cap l o <= Z.of_nat k /\
                   fuse s' = Some (Z.to_nat (Z.of_nat k - copies true cap l o))
      | Thr ElemExn _ => Z.of_nat k < copies true cap l o
      | Thr e s' => fst (seq_step dflt cap l o) = OExn e /\ copies true cap l o = 0 /\ s' = arm (Some k) s
      | _ => False
      end.
    Proof.
      intros Hs Hpre.
      destruct (d_step_exact cap torn dflt dbg Hcap (arm None s) l o Hs eq_refl Hpre) as (s' & Hs' & Hf' & Hstep).
      pose proof (d_step_fused cap torn dflt dbg Hcap (Some k) s l o Hs Hpre) as HF.
      destruct (out_cases (fst (seq_step dflt cap l o))) as [[e Er]|Er].
      { destruct (d_throws s l o e Hs Hpre Er) as [Hc Ht]. rewrite (Ht (arm (Some k) s) eq_refl eq_refl) in HF |- *.
          destruct e; try (split; [apply HF|]; split; [exact Hc|reflexivity]).
          exfalso. clear - Er. destruct o; cbn in Er;
            repeat match type of Er with context [if ?b then _ else _] => destruct b end; discriminate. }
      assert (Hok : d_step cap bufsize torn dflt dbg o (arm None s) = Ok (fst (seq_step dflt cap l o)) s')
        by (revert Hstep; destruct (fst (seq_step dflt cap l o)); auto; now destruct (Er e)).
      clear Hstep; rename Hok into Hstep.
      pose proof (dc_step cap bufsize torn dflt dbg eq_refl Hcap (fun _ => False) (mb s) l o (arm None s) (d_holds_ends (arm None s) l Hs)
             (proj1 Hs) Hpre Er ltac:(intros i []) ) as A;
           pose proof (two_counts _ _ _ _ _ (fun _ => False) s' ltac:(split; [reflexivity|split; [reflexivity|reflexivity]]) A Hstep k) as T;
           destruct (d_step cap bufsize torn dflt dbg o (arm (Some k) s)) as [r s1|e s1|s1| |]; try contradiction;
           [destruct T as (-> & T1 & T2); split; [reflexivity|]; split; [apply HF|]; split; assumption
           |destruct e; try contradiction; exact T].
    Qed.

    Lemma d_untouched s l o i j f t :
      d_holds cap s l -> seq_pre dbg true l o -> 0 <= i < lenz l -> stays true cap l o i = Some j ->
      let z := (mb s + i) mod (cap + 1) in same_but z (arm f s) t ->
      match d_step cap bufsize torn dflt dbg o (arm f s), d_step cap bufsize torn dflt dbg o t with
      | Ok r s1, Ok r2 s2 => r2 = r /\ same_but z s1 s2 /\ mem s1 z = mem s z /\ mem s2 z = mem t z /\
                             (mb s1 + j) mod (cap + 1) = z
      | Thr e s1, Thr e2 s2 => e2 = e /\ mem s1 z = mem s z /\ mem s2 z = mem t z
      | _, _ => False
      end.
    Proof.
      intros Hs Hpre Hi Hst z Ht'.
      destruct (d_step_exact cap torn dflt dbg Hcap (arm None s) l o Hs eq_refl Hpre) as (s' & Hs' & Hf' & Hstep).
      destruct (out_cases (fst (seq_step dflt cap l o))) as [[e Er]|Er].
      { destruct (d_throws s l o e Hs Hpre Er) as [Hc Ht]. rewrite (Ht (arm f s) eq_refl eq_refl).
          rewrite (Ht t (eq_sym (proj1 Ht')) (eq_sym (proj1 (proj2 Ht')))). split; [reflexivity|]. split; [reflexivity|].
          split; reflexivity. }
      assert (Hok : d_step cap bufsize torn dflt dbg o (arm None s) = Ok (fst (seq_step dflt cap l o)) s')
        by (revert Hstep; destruct (fst (seq_step dflt cap l o)); auto; now destruct (Er e)).
      clear Hstep; rename Hok into Hstep.
      assert (Hj : new_lo (mb s) l o + j = mb s + i) by
             (clear - Hst Hpre Er; destruct o; cbn in Hst; unfold stays_insert, stays_erase, towards_end, closes_from_end in Hst;
              cbn [negb orb] in Hst; cbn in Hpre, Er; unfold new_lo, ilo, erlo;
              replace (mb s + lenz l - mb s) with (lenz l) by lia;
              repeat match type of Hst with context [if ?b then _ else _] => destruct b end;
              cbn [fst] in Er; try discriminate; try (exfalso; eapply Er; reflexivity); injection Hst as <-;
              change 18446744073709551616 with (2 ^ 64); try lia).
      pose proof (dc_step cap bufsize torn dflt dbg eq_refl Hcap (fun y => y = z) (mb s) l o (arm None s) (d_holds_ends (arm None s) l Hs)
             (proj1 Hs) Hpre Er
             ltac:(intros y ->; exists i; split; [exact Hi|]; split; [reflexivity|congruence]) ) as A;
           pose proof (two_runs _ _ _ _ _ z f t s' A Hstep Ht') as T;
           destruct (A _ _ Hstep) as (_ & Hmb & _);
           destruct (d_step cap bufsize torn dflt dbg o (arm f s)) as [r s1|e s1|s1| |],
             (d_step cap bufsize torn dflt dbg o t) as [r2 s2|e2 s2|s2| |]; try contradiction;
           [destruct T as (-> & -> & T1 & T2 & T3 & T4); split; [reflexivity|]; split; [exact T1|]; split; [exact T2|];
            split; [exact T3|]; rewrite T4, Hmb; unfold dph; rewrite Zplus_mod_idemp_l, Hj; reflexivity
           |destruct T as (-> & -> & T1); split; [reflexivity|exact T1]].
    Qed.
  End Deq.
End CT.
