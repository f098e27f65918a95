(** Consequences of DequeProofs, in the vocabulary of the property statements. *)
From Verif Require Import Base.ZList Spec.SeqSpec Container.Mem Container.Triple Container.Rep Container.Loops
  Container.GenInsert Container.ListRep Container.DequeModel Container.DequeProofs Container.VectorTheorems.

(** The deque object [s] of capacity [cap] (a ring of cap + 1 slots) holds exactly the sequence [l]: going round the
    ring from m_begin, the first size() slots are live with the elements of l, all others are raw. *)
Definition d_holds {V} (cap : Z) (s : st V) (l : list V) : Prop :=
  lenz l <= cap /\ 0 <= mb s <= cap /\ me s = (mb s + lenz l) mod (cap + 1) /\
  forall k, 0 <= k <= cap -> mem s ((mb s + k) mod (cap + 1)) = nth_error l (Z.to_nat k).

Section DT.
  Context {V : Type}.
  Variable cap : Z.
  Variable torn dflt : V.
  Variable dbg : bool.
  Hypothesis Hcap : 0 <= cap /\ cap + 1 < 2 ^ 63.
  Notation bufsize := (cap + 1).
  Notation ph := (dph bufsize).
  Notation DR := (fun nf s lo l => LRep bufsize cap ph dok dflt nf s lo l).

  Lemma HBd : 1 <= bufsize < 2 ^ 63.
  Proof. lia. Qed.

  Lemma holds_DR nf (s : st V) l : d_holds cap s l -> (nf = true -> fuse s = None) -> DR nf s (mb s) l.
  Proof.
    intros (H1 & H2 & H3 & H4) Hf. pose proof (lenz_nonneg l) as Hl0. split; unfold dok; auto.
    - unfold dph. now rewrite Z.mod_small by lia.
    - lia.
    - intros a Ha. unfold dph. replace a with (mb s + (a - mb s)) by lia. rewrite H4 by lia.
      rewrite (nth_error_nthz dflt) by lia. do 2 f_equal; lia.
    - intros a Ha. unfold dph. replace a with (mb s + (a - mb s)) by lia. rewrite H4 by lia.
      apply nth_error_None. unfold lenz in *. lia.
  Qed.
  Lemma DR_holds nf s lo l : DR nf s lo l -> d_holds cap s l.
  Proof.
    intros R. pose proof (LRep_len _ _ _ _ _ _ _ _ _ R) as Hl. destruct R as [H1 H2 H3 H4 H5 H6 H7].
    pose proof (dph_range bufsize HBd lo) as Hr.
    unfold d_holds. split; [lia|]. split; [lia|]. split.
    - rewrite H1, H2. unfold dph. rewrite Zplus_mod_idemp_l. reflexivity.
    - intros k Hk. rewrite H1. unfold dph at 1. rewrite Zplus_mod_idemp_l.
      destruct (Z_lt_le_dec k (lenz l)) as [H|H].
      + unfold dph in H5. rewrite H5 by lia. rewrite (nth_error_nthz dflt) by lia. do 2 f_equal; lia.
      + unfold dph in H6. rewrite H6 by lia. symmetry. apply nth_error_None. unfold lenz in H. lia.
  Qed.
  Lemma DR_true_fuse s lo l : DR true s lo l -> fuse s = None.
  Proof. intros R. exact (R_fuse _ _ _ _ _ _ _ _ _ R eq_refl). Qed.

  Notation D_step_runs := (d_step_runs cap bufsize torn dflt dbg eq_refl Hcap).

  (** One call without throwing elements. *)
  Lemma d_step_exact s l o :
    d_holds cap s l -> fuse s = None -> seq_pre dbg true l o ->
    exists s', d_holds cap s' (snd (seq_step dflt cap l o)) /\ fuse s' = None /\
      match fst (seq_step dflt cap l o) with
      | OExn e => d_step cap bufsize torn dflt dbg o s = Thr e s'
      | r => d_step cap bufsize torn dflt dbg o s = Ok r s'
      end.
  Proof.
    intros Hs Hf Hpre.
    pose proof (D_step_runs true s _ l o (holds_DR true s l Hs (fun _ => Hf)) Hpre) as H.
    unfold runs in H. destruct (d_step cap bufsize torn dflt dbg o s) as [r s'|e s'|s'| |] eqn:Ho; try contradiction.
    - destruct H as [-> [lo' R]]. exists s'. split; [eapply DR_holds; exact R|]. split; [eapply DR_true_fuse; exact R|].
      destruct (fst (seq_step dflt cap l o)) eqn:E; try reflexivity.
      exfalso. clear -Ho E. destruct o; cbn [d_step] in Ho; unfold bind in Ho;
        repeat match type of Ho with
        | match ?x with _ => _ end = _ => destruct x; try discriminate
        end; unfold ret in Ho; try discriminate; injection Ho; congruence.
    - destruct H as [[He [lo' R]]|(-> & Hn & _)]; [|discriminate]. exists s'. rewrite He.
      assert (Hl : snd (seq_step dflt cap l o) = l).
      { clear - He. destruct o; cbn [seq_step] in *;
          repeat match goal with |- context [if ?b then _ else _] => destruct b end;
          cbn [fst snd] in *; try reflexivity; discriminate. }
      rewrite Hl. split; [eapply DR_holds; exact R|]. split; [eapply DR_true_fuse; exact R|reflexivity].
  Qed.

  Lemma d_run_from s l os :
    d_holds cap s l -> fuse s = None -> seq_pres dflt cap dbg true l os ->
    exists s', d_run cap bufsize torn dflt dbg s os = Some (fst (seq_run dflt cap l os), s') /\
               d_holds cap s' (snd (seq_run dflt cap l os)) /\ fuse s' = None.
  Proof.
    revert s l. induction os as [|o os IH]; intros s l Hs Hf Hpre.
    - exists s. cbn. auto.
    - cbn [seq_pres] in Hpre. destruct Hpre as [Hp Hps].
      destruct (d_step_exact s l o Hs Hf Hp) as (s1 & H1 & Hf1 & Hstep).
      destruct (IH s1 (snd (seq_step dflt cap l o)) H1 Hf1 Hps) as (s2 & Hrun & H2 & Hf2).
      exists s2. cbn [seq_run d_run].
      destruct (seq_step dflt cap l o) as [r l'] eqn:E. cbn [fst snd] in *.
      destruct (seq_run dflt cap l' os) as [rs l''] eqn:E'. cbn [fst snd] in *.
      split; [|auto].
      destruct r; rewrite Hstep, Hrun; reflexivity.
  Qed.

  Lemma d_init_holds : d_holds cap (@d_init V) [].
  Proof.
    unfold d_holds, d_init. cbn [mem mb me]. change (lenz (@nil V)) with 0.
    split; [lia|]. split; [lia|]. split.
    - symmetry. apply Z.mod_small. lia.
    - intros i Hi. now destruct (Z.to_nat i).
  Qed.

  Lemma d_refines os :
    seq_pres dflt cap dbg true [] os ->
    exists s, d_run cap bufsize torn dflt dbg d_init os = Some (fst (seq_run dflt cap [] os), s) /\
              d_holds cap s (snd (seq_run dflt cap [] os)).
  Proof.
    intros H. destruct (d_run_from d_init [] os d_init_holds eq_refl H) as (s & H1 & H2 & _). eauto.
  Qed.

  (** With elements that may throw. *)
  Lemma d_step_fused f s l o :
    d_holds cap s l -> seq_pre dbg true l o ->
    match d_step cap bufsize torn dflt dbg o (arm f s) with
    | Ok r s' => r = fst (seq_step dflt cap l o) /\ d_holds cap s' (snd (seq_step dflt cap l o))
    | Thr ElemExn s' => exists l', d_holds cap s' l'
    | Thr e s' => fst (seq_step dflt cap l o) = OExn e /\ d_holds cap s' l
    | _ => False
    end.
  Proof.
    intros Hs Hpre.
    assert (Ha : d_holds cap (arm f s) l) by exact Hs.
    assert (R : DR false (arm f s) (mb (arm f s)) l) by (apply holds_DR; [exact Ha|discriminate]).
    pose proof (D_step_runs false _ _ l o R Hpre) as H.
    unfold runs in H. destruct (d_step cap bufsize torn dflt dbg o (arm f s)) as [r s'|e s'|s'| |]; try contradiction.
    - destruct H as [-> [lo' R']]. split; [reflexivity|]. eapply DR_holds; exact R'.
    - destruct H as [[He [lo' R']]|HE].
      + destruct e; [split; [exact He|eapply DR_holds; exact R'] ..|]. exists l. eapply DR_holds; exact R'.
      + destruct (dexc_LRep cap bufsize dflt _ _ _ HE) as (-> & _ & lo' & l' & R'). exists l'. eapply DR_holds; exact R'.
  Qed.

  Fixpoint d_safe (s : st V) (os : list (option nat * op V)) : Prop :=
    (exists l, d_holds cap s l) /\
    match os with
    | [] => True
    | (f, o) :: os' =>
        (forall l, d_holds cap s l -> seq_pre dbg true l o) ->
        match d_step cap bufsize torn dflt dbg o (arm f s) with
        | Ok _ s' | Thr _ s' => d_safe s' os'
        | _ => False
        end
    end.
  Lemma d_always_safe os : forall s l, d_holds cap s l -> d_safe s os.
  Proof.
    induction os as [|[f o] os IH]; intros s l Hs; cbn [d_safe]; (split; [eauto|]); [exact I|].
    intros Hpre. pose proof (d_step_fused f s l o Hs (Hpre l Hs)) as H.
    destruct (d_step cap bufsize torn dflt dbg o (arm f s)) as [r s'|e s'|s'| |]; try contradiction.
    - destruct H as [_ H]. eapply IH; exact H.
    - destruct e; [destruct H as [_ H]|destruct H as [_ H]|destruct H as [l' H]]; eapply IH; exact H.
  Qed.

  Lemma d_push_strong (back : bool) f s l v :
    d_holds cap s l ->
    match d_step cap bufsize torn dflt dbg (if back then PushBack v else PushFront v) (arm f s) with
    | Ok r s' => r = OUnit /\ lenz l < cap /\ d_holds cap s' (if back then l ++ [v] else v :: l)
    | Thr BadAlloc s' => lenz l = cap /\ s' = arm f s
    | Thr ElemExn s' => f <> None /\ d_holds cap s' l
    | _ => False
    end.
  Proof.
    intros Hs. set (nf := match f with None => true | Some _ => false end).
    assert (R : DR nf (arm f s) (mb s) l).
    { change (mb s) with (mb (arm f s)). apply holds_DR; [exact Hs|unfold nf; now destruct f]. }
    destruct back.
    - pose proof (d_push_back_runs cap bufsize dflt eq_refl Hcap nf _ _ l (RVal v) v R (or_introl eq_refl)) as H.
      cbn [d_step]. unfold runs, bind in *. destruct (d_push_back cap bufsize (RVal v) (arm f s)) as [r s'|e s'|s'| |]; try contradiction.
      + cbn. destruct H as [H1 H2]. repeat split; auto; eapply DR_holds; exact H2.
      + destruct H as [(-> & H1 & H2)|(-> & Hn & R')]; [auto|].
        split; [unfold nf in Hn; destruct f; congruence|eapply DR_holds; exact R'].
    - pose proof (d_push_front_runs cap bufsize dflt eq_refl Hcap nf _ _ l (RVal v) v R (or_introl eq_refl)) as H.
      cbn [d_step]. unfold runs, bind in *. destruct (d_push_front cap bufsize (RVal v) (arm f s)) as [r s'|e s'|s'| |]; try contradiction.
      + cbn. destruct H as [H1 H2]. repeat split; auto; eapply DR_holds; exact H2.
      + destruct H as [(-> & H1 & H2)|(-> & Hn & R')]; [auto|].
        split; [unfold nf in Hn; destruct f; congruence|eapply DR_holds; exact R'].
  Qed.

  (** Over-capacity calls: nothing at all happens. *)
  Lemma d_overflow s l o :
    d_holds cap s l -> seq_pre dbg true l o -> fst (seq_step dflt cap l o) = OExn BadAlloc ->
    d_step cap bufsize torn dflt dbg o s = Thr BadAlloc s.
  Proof.
    intros Hs Hpre He.
    assert (R : DR false s (mb s) l) by (apply holds_DR; [exact Hs|discriminate]).
    pose proof (lenz_nonneg l) as Hl0.
    pose proof (fun p => d_at_off_ok cap bufsize dflt eq_refl Hcap false s _ l p R) as Hoff.
    pose proof (fun p => d_pos_ok_ok cap bufsize dflt eq_refl Hcap false s _ l p R) as Hpos.
    pose proof (davail cap bufsize dflt eq_refl Hcap _ _ _ _ R) as Hav.
    pose proof (dsize cap bufsize dflt eq_refl Hcap _ _ _ _ R) as Hsz.
    pose proof (dfull cap bufsize dflt eq_refl Hcap _ _ _ _ R) as Hfu.
    assert (Hd : dassert dbg true s = Ok tt s) by (unfold dassert; now destruct dbg).
    destruct o; cbn [seq_step fst] in He; try discriminate;
      repeat match type of He with
      | context [if ?b then _ else _] => destruct b eqn:?
      end; cbn [fst] in He; try discriminate; cbn [seq_pre] in Hpre; cbn [d_step].
    - unfold bind at 1. unfold d_push_back. unfold bind at 1. rewrite Hfu. reflexivity.
    - unfold bind at 1. unfold d_push_front. unfold bind at 1. rewrite Hfu. reflexivity.
    - unfold bind at 1. rewrite Hoff by lia. unfold d_insert_one, d_insert_n. unfold bind at 1 2. rewrite Hpos by lia.
      unfold bind at 1. rewrite Hd. unfold bind at 1. rewrite Hav, Heqb. reflexivity.
    - unfold bind at 1. rewrite Hoff by lia. unfold d_insert_cnt, d_insert_n. unfold bind at 1 2. rewrite Hpos by lia.
      unfold bind at 1. rewrite Hd. unfold bind at 1 2. rewrite Hav, Heqb. reflexivity.
    - unfold bind at 1. rewrite Hoff by lia. unfold d_insert_int, d_insert_n. unfold bind at 1 2. rewrite Hpos by lia.
      unfold bind at 1. rewrite Hd. unfold bind at 1 2. rewrite Hav. change (w64 n) with (n mod 2 ^ 64).
      rewrite Heqb. reflexivity.
    - unfold bind at 1. rewrite Hoff by lia. unfold d_insert_rng, d_insert_range. unfold bind at 1 2. rewrite Hpos by lia.
      unfold bind at 1. rewrite Hd. unfold bind at 1. rewrite Hav.
      destruct Hpre as [Hp Hx]. unfold szt in Hx. rewrite w64_small by (rewrite W64_val; lia). rewrite Heqb. reflexivity.
    - unfold d_assign_n, bind. rewrite Heqb. reflexivity.
    - unfold d_assign_range, bind. unfold szt in Hpre. rewrite w64_small by (rewrite W64_val; lia). rewrite Heqb. reflexivity.
    - unfold d_resize. unfold bind at 1 2. rewrite Hsz, Heqb, Heqb0. reflexivity.
  Qed.

  (** Destructor *)
  Lemma d_destruct_clean f s l :
    d_holds cap s l ->
    exists s' : st V, d_destruct bufsize (arm f s) = Ok tt s' /\ forall i, 0 <= i <= cap -> mem s' i = None.
  Proof.
    intros Hs. set (lo := mb s). assert (R : DR false (arm f s) lo l).
    { change lo with (mb (arm f s)). apply holds_DR; [exact Hs|discriminate]. }
    pose proof (LRep_len _ _ _ _ _ _ _ _ _ R) as Hl.
    pose proof (d_destroy_range_runs cap bufsize dflt eq_refl Hcap false _ lo l lo (lo + lenz l) (fun _ _ => False) R ltac:(lia) ltac:(lia)) as H.
    pose proof (DR_mb cap bufsize dflt _ _ _ _ R) as Hmb. pose proof (DR_me cap bufsize dflt _ _ _ _ R) as Hme.
    assert (Hd : d_destruct bufsize (arm f s) = d_destroy_range bufsize (ph lo) (ph (lo + lenz l)) (arm f s)).
    { unfold d_destruct, bind, d_end, d_begin, get_me, get_mb. cbn [mb me arm] in *. now rewrite Hmb, Hme. }
    unfold runs in H. rewrite <- Hd in H. destruct (d_destruct bufsize (arm f s)) as [[] s'|e s'|s'| |]; try contradiction.
    exists s'. split; [reflexivity|]. intros i Hi.
    set (k := (i - lo) mod bufsize). assert (Hk : 0 <= k < bufsize) by (apply Z.mod_pos_bound; lia).
    assert (Hi' : i = ph (lo + k)).
    { unfold dph, k. rewrite Zplus_mod_idemp_r. replace (lo + (i - lo)) with i by lia. now rewrite Z.mod_small by lia. }
    rewrite Hi'. destruct (Z_lt_le_dec k (lenz l)).
    - apply (H_hole _ _ _ _ _ _ _ _ _ _ _ H); lia.
    - apply (H_raw _ _ _ _ _ _ _ _ _ _ _ H); lia.
  Qed.

  (** Aliasing: a reference to own element i is the slot (m_begin + i) mod ring *)
  Lemma d_push_alias (back : bool) s l i :
    d_holds cap s l -> fuse s = None -> 0 <= i < lenz l -> lenz l < cap ->
    exists s', (if back then d_push_back else d_push_front) cap bufsize (RSlot ((mb s + i) mod bufsize)) s = Ok tt s' /\
      d_holds cap s' (if back then l ++ [nthz dflt l i] else nthz dflt l i :: l).
  Proof.
    intros Hs Hf Hi Hlt. assert (R : DR true s (mb s) l) by (apply holds_DR; auto).
    assert (Ho : drefok bufsize dflt (mb s) l (RSlot ((mb s + i) mod bufsize)) (nthz dflt l i)).
    { right. exists i. auto. }
    destruct back.
    - pose proof (d_push_back_runs cap bufsize dflt eq_refl Hcap true s _ l _ _ R Ho) as H.
      unfold runs in H. destruct (d_push_back cap bufsize _ s) as [[] s'|e s'|s'| |]; try contradiction.
      + exists s'. split; [reflexivity|]. eapply DR_holds; apply H.
      + destruct H as [(_ & H & _)|(_ & H & _)]; [lia|discriminate].
    - pose proof (d_push_front_runs cap bufsize dflt eq_refl Hcap true s _ l _ _ R Ho) as H.
      unfold runs in H. destruct (d_push_front cap bufsize _ s) as [[] s'|e s'|s'| |]; try contradiction.
      + exists s'. split; [reflexivity|]. eapply DR_holds; apply H.
      + destruct H as [(_ & H & _)|(_ & H & _)]; [lia|discriminate].
  Qed.
  Lemma d_resize_alias s l n i :
    d_holds cap s l -> fuse s = None -> 0 <= i < lenz l -> 0 <= n <= cap ->
    exists s', d_resize cap bufsize n (RSlot ((mb s + i) mod bufsize)) s = Ok tt s' /\
      d_holds cap s' (if n <=? lenz l then takez n l else l ++ repz (nthz dflt l i) (n - lenz l)).
  Proof.
    intros Hs Hf Hi Hn. assert (R : DR true s (mb s) l) by (apply holds_DR; auto).
    pose proof (d_resize_runs cap bufsize dflt eq_refl Hcap true s _ l n (RSlot ((mb s + i) mod bufsize)) (nthz dflt l i) R ltac:(lia)
      (fun _ => or_intror (ex_intro _ i (conj Hi (conj eq_refl eq_refl))))) as H.
    unfold runs in H. destruct (d_resize cap bufsize n _ s) as [[] s'|e s'|s'| |]; try contradiction.
    - exists s'. split; [reflexivity|]. destruct H as [_ R']. cbn [seq_step] in R'.
      destruct (n <=? lenz l); [eapply DR_holds; exact R'|].
      destruct (Z.ltb_spec cap n); [lia|]. eapply DR_holds; exact R'.
    - destruct H as [[H _]|(_ & H & _)]; [|discriminate]. cbn [seq_step] in H.
      destruct (n <=? lenz l); [discriminate|]. destruct (Z.ltb_spec cap n); [lia|discriminate].
  Qed.
  (** insert(pos, n, d[i]): the value stored is that of d[i] unless element i is moved away before it is read: at or
      behind pos + n when the end side moves (pos in the second half), before pos - n when the begin side moves *)
  Definition d_alias_src (l : list V) (p n i : Z) : Z :=
    if lenz l / 2 <? p then (if p + n <=? i then i - n else i) else (if i <? p - n then i + n else i).
  Lemma d_insert_alias s l p n i :
    d_holds cap s l -> fuse s = None -> 0 <= p <= lenz l -> 0 <= i < lenz l -> 0 <= n <= cap - lenz l ->
    exists s', d_insert_cnt cap bufsize torn dflt dbg ((mb s + p) mod bufsize) n (RSlot ((mb s + i) mod bufsize)) s = Ok tt s' /\
      d_holds cap s' (insert_seq l p (repz (nthz dflt l (d_alias_src l p n i)) n)).
  Proof.
    intros Hs Hf Hp Hi Hn. assert (R : DR true s (mb s) l) by (apply holds_DR; auto).
    pose proof (d_pos_ok_ok cap bufsize dflt eq_refl Hcap true s _ l p R Hp) as Hpos. change (ph (mb s + p)) with ((mb s + p) mod bufsize) in Hpos.
    pose proof (d_insert_n_runs cap bufsize torn dflt eq_refl Hcap true s _ l p n (RSlot ((mb s + i) mod bufsize)) (nthz dflt l (d_alias_src l p n i)) R ltac:(lia) ltac:(lia)
      (or_intror (ex_intro _ i (conj Hi (conj eq_refl eq_refl))))) as H.
    change (ph (mb s + p)) with ((mb s + p) mod bufsize) in H.
    unfold d_insert_cnt, bind. rewrite Hpos. replace (dassert dbg true s) with (@Ok V unit tt s) by (now destruct dbg).
    unfold runs in H. destruct (d_insert_n cap bufsize torn dflt _ n _ s) as [it s'|e s'|s'| |]; try contradiction.
    - exists s'. split; [reflexivity|]. eapply DR_holds; apply H.
    - destruct H as [(_ & H & _)|(_ & H & _)]; [lia|discriminate].
  Qed.

  Lemma d_assign_range_exact s l xs :
    d_holds cap s l -> fuse s = None -> lenz xs <= cap ->
    exists s' : st V, d_assign_range cap bufsize xs s = Ok tt s' /\ d_holds cap s' xs /\ fuse s' = None.
  Proof.
    intros Hs Hf Hx. assert (R : DR true s (mb s) l) by (apply holds_DR; auto).
    pose proof (d_assign_range_runs cap bufsize dflt eq_refl Hcap true s _ l xs R ltac:(lia)) as H.
    unfold runs in H. destruct (d_assign_range cap bufsize xs s) as [[] s'|e s'|s'| |]; try contradiction.
    - exists s'. split; [reflexivity|]. destruct H as [_ R']. cbn [seq_step] in R'.
      destruct (Z.ltb_spec cap (lenz xs)); [lia|]. split; [eapply DR_holds; exact R'|eapply DR_true_fuse; exact R'].
    - destruct H as [[H _]|(_ & H & _)]; [|discriminate]. cbn [seq_step] in H.
      destruct (Z.ltb_spec cap (lenz xs)); [lia|discriminate].
  Qed.
  Lemma d_read_all_exact (s : st V) l : d_holds cap s l -> d_read_all bufsize s = Ok l s.
  Proof.
    intros Hs. assert (R : DR false s (mb s) l) by (apply holds_DR; [auto|discriminate]).
    pose proof (d_read_all_runs cap bufsize dflt eq_refl Hcap false s _ l (fun _ _ => False) R) as H. unfold runs in H.
    destruct (d_read_all bufsize s) as [r s'|e s'|s'| |]; try contradiction. destruct H as [-> ->]. reflexivity.
  Qed.
  Lemma d_holds_unique (s : st V) l l' : d_holds cap s l -> d_holds cap s l' -> l = l'.
  Proof.
    intros H H'. apply d_read_all_exact in H, H'. congruence.
  Qed.
  Lemma d_insert_alias_iff s l p n i :
    d_holds cap s l -> fuse s = None -> 0 <= p <= lenz l -> 0 <= i < lenz l -> 0 <= n <= cap - lenz l ->
    exists s', d_insert_cnt cap bufsize torn dflt dbg ((mb s + p) mod bufsize) n (RSlot ((mb s + i) mod bufsize)) s = Ok tt s' /\
      (d_holds cap s' (insert_seq l p (repz (nthz dflt l i) n)) <->
       if lenz l / 2 <? p then i < p + n \/ nthz dflt l (i - n) = nthz dflt l i
       else p - n <= i \/ nthz dflt l (i + n) = nthz dflt l i).
  Proof.
    intros Hs Hf Hp Hi Hn. destruct (d_insert_alias s l p n i Hs Hf Hp Hi Hn) as (s' & H1 & H2).
    exists s'. split; [exact H1|]. unfold d_alias_src in H2.
    assert (U : forall j, d_holds cap s' (insert_seq l p (repz (nthz dflt l j) n)) ->
      d_holds cap s' (insert_seq l p (repz (nthz dflt l i) n)) -> n = 0 \/ nthz dflt l j = nthz dflt l i).
    { intros j Hj H. destruct (Z.eq_dec n 0) as [Hn0|Hn0]; [now left|]. right.
      pose proof (d_holds_unique _ _ _ H Hj) as He.
      apply (f_equal (fun x => nthz dflt x p)) in He. rewrite !nthz_insert_seq in He by (rewrite ?lenz_repz; lia).
      rewrite !lenz_repz in He by lia. revert He. bcase; try lia. rewrite !nthz_repz by lia. congruence. }
    destruct (lenz l / 2 <? p).
    - destruct (Z.leb_spec (p + n) i) as [Hc|Hc].
      + split; [|intros [H|H]; [lia|rewrite H in H2; exact H2]]. intros H. right.
        destruct (U _ H2 H) as [-> | E]; [f_equal; lia|exact E].
      + split; [left; lia|]. intros _. exact H2.
    - destruct (Z.ltb_spec i (p - n)) as [Hc|Hc].
      + split; [|intros [H|H]; [lia|rewrite H in H2; exact H2]]. intros H. right.
        destruct (U _ H2 H) as [-> | E]; [f_equal; lia|exact E].
      + split; [left; lia|]. intros _. exact H2.
  Qed.
  Lemma d_copy_exact (x : st V) l : d_holds cap x l ->
    exists s', d_construct_copy cap bufsize None x = Ok tt s' /\ d_holds cap s' l.
  Proof.
    intros Hx. unfold d_construct_copy. rewrite (d_read_all_exact x l Hx).
    destruct (d_assign_range_exact (mkst (fun _ => None) 0 0 None) [] l) as (s' & H1 & H2 & _); eauto.
    - apply d_init_holds.
    - apply Hx.
  Qed.
  Lemma d_operator_assign_exact self (x : st V) lx (s : st V) l :
    d_holds cap x lx -> d_holds cap s l -> fuse s = None -> (self = true -> lx = l) ->
    exists s', d_operator_assign cap bufsize self x s = Ok tt s' /\ d_holds cap s' lx.
  Proof.
    intros Hx Hs Hf Hself. unfold d_operator_assign. destruct self.
    - exists s. rewrite (Hself eq_refl). split; [reflexivity|exact Hs].
    - rewrite (d_read_all_exact x lx Hx).
      destruct (d_assign_range_exact s l lx Hs Hf) as (s' & H1 & H2 & _); eauto. apply Hx.
  Qed.

  Lemma d_history_destroyed os f :
    seq_pres dflt cap dbg true [] os ->
    exists rs s s', d_run cap bufsize torn dflt dbg d_init os = Some (rs, s) /\ d_destruct bufsize (arm f s) = Ok tt s' /\
      (forall i, 0 <= i <= cap -> mem s' i = None).
  Proof.
    intros H. destruct (d_refines os H) as (s & H1 & H2).
    destruct (d_destruct_clean f s _ H2) as (s' & H3 & H4). eauto 6.
  Qed.

  Lemma d_size_exact (s : st V) l : d_holds cap s l -> d_size bufsize s = Ok (lenz l) s.
  Proof.
    intros Hs. apply (dsize cap bufsize dflt eq_refl Hcap false s (mb s) l). apply holds_DR; [exact Hs|discriminate].
  Qed.
  Lemma d_run_bound os rs s :
    seq_pres dflt cap dbg true [] os -> d_run cap bufsize torn dflt dbg d_init os = Some (rs, s) ->
    exists n, d_size bufsize s = Ok n s /\ 0 <= n <= cap.
  Proof.
    intros H Hr. destruct (d_refines os H) as (s1 & H1 & H2).
    rewrite H1 in Hr. injection Hr as <- <-. eexists. split; [apply d_size_exact; exact H2|].
    pose proof (lenz_nonneg (snd (seq_run dflt cap [] os))). destruct H2. lia.
  Qed.

  Lemma d_index_exact (s : st V) l i : d_holds cap s l -> 0 <= i < lenz l -> d_index bufsize i s = Ok (nthz dflt l i) s.
  Proof.
    intros Hs. apply (d_index_ok cap bufsize dflt eq_refl Hcap false s (mb s) l). apply holds_DR; [exact Hs|discriminate].
  Qed.
  Lemma d_at_exact (s : st V) l i :
    d_holds cap s l -> szt i ->
    d_at bufsize i s = (if i <? lenz l then Ok (nthz dflt l i) s else Thr OutOfRange s).
  Proof.
    intros Hs Hi. unfold d_at, bind. rewrite (d_size_exact s l Hs). unfold szt in Hi.
    destruct (Z.leb_spec (lenz l) i), (Z.ltb_spec i (lenz l)); try lia; [reflexivity|].
    rewrite <- (d_index_exact s l i Hs) by lia. reflexivity.
  Qed.

  (** insert and erase return the right iterator *)
  Lemma d_insert_one_iter s l p v :
    d_holds cap s l -> fuse s = None -> 0 <= p <= lenz l -> lenz l < cap ->
    exists (it : Z) (s' : st V),
      d_insert_one cap bufsize torn dflt dbg (it_add bufsize (mb s) p) (RVal v) s = Ok it s' /\
      rd bufsize it s' = Ok v s' /\ it_diff bufsize (mb s') it (mb s') = p /\ d_holds cap s' (insert_seq l p [v]).
  Proof.
    intros Hs Hf Hp Hl.
    assert (R : DR true s (mb s) l) by (apply holds_DR; auto).
    pose proof (d_pos_ok_ok cap bufsize dflt eq_refl Hcap true s _ l p R Hp) as Hpos.
    pose proof (d_at_off_ok cap bufsize dflt eq_refl Hcap true s _ l p R Hp) as Hoff.
    assert (Ea : it_add bufsize (mb s) p = ph (mb s + p)) by (unfold d_at_off, bind, d_begin, get_mb, ret in Hoff; congruence).
    pose proof (d_insert_n_runs cap bufsize torn dflt eq_refl Hcap true s _ l p 1 (RVal v) v R ltac:(lia) ltac:(lia) (or_introl eq_refl)) as H.
    unfold d_insert_one. rewrite Ea. unfold bind. rewrite Hpos.
    replace (dassert dbg true s) with (@Ok V unit tt s) by (now destruct dbg).
    unfold runs in H. destruct (d_insert_n cap bufsize torn dflt (ph (mb s + p)) 1 (RVal v) s) as [it s1|e s1|s1| |]; try contradiction.
    2: { destruct H as [(_ & H & _)|(_ & H & _)]; [lia|discriminate]. }
    destruct H as (_ & Hit & R'). change (repz v 1) with [v] in R'. exists it, s1.
    pose proof (LRep_len _ _ _ _ _ _ _ _ _ R') as Hl'. rewrite lenz_insert_seq, lenz_1 in Hl' by lia.
    split; [reflexivity|]. split; [|split].
    - rewrite Hit. rewrite (d_rd_ok cap bufsize dflt eq_refl Hcap _ _ _ _ p R') by (rewrite lenz_insert_seq, lenz_1; lia).
      f_equal. rewrite nthz_insert_seq by lia. rewrite lenz_1.
      destruct (Z.ltb_spec p p); [lia|]. destruct (Z.ltb_spec p (p + 1)); [|lia]. now rewrite Z.sub_diag.
    - pose proof (d_off_ok cap bufsize dflt eq_refl Hcap _ _ _ _ p R' ltac:(rewrite lenz_insert_seq, lenz_1; lia)) as Ho.
      rewrite Hit. unfold d_off, bind, d_begin, get_mb, ret in Ho. congruence.
    - eapply DR_holds; exact R'.
  Qed.

  Lemma d_erase_iter s l p q :
    d_holds cap s l -> fuse s = None -> 0 <= p < q -> q <= lenz l ->
    exists (it : Z) (s' : st V),
      d_erase_range bufsize torn dbg (it_add bufsize (mb s) p) (it_add bufsize (mb s) q) s = Ok it s' /\
      d_holds cap s' (erase_seq l p q) /\ it_diff bufsize (mb s') it (mb s') = p /\
      (if q <? lenz l then rd bufsize it s' = Ok (nthz dflt l q) s' else it = me s').
  Proof.
    intros Hs Hf Hp Hl. assert (R : DR true s (mb s) l) by (apply holds_DR; auto).
    assert (Ea : forall k, 0 <= k <= lenz l -> it_add bufsize (mb s) k = ph (mb s + k)).
    { intros k Hk. pose proof (d_at_off_ok cap bufsize dflt eq_refl Hcap true s _ l k R Hk) as Hoff.
      unfold d_at_off, bind, d_begin, get_mb, ret in Hoff; congruence. }
    rewrite !Ea by lia.
    pose proof (d_erase_range_runs cap bufsize torn dflt dbg eq_refl Hcap true s _ l p q R ltac:(lia) ltac:(lia) ltac:(lia)) as H.
    unfold runs in H. destruct (d_erase_range bufsize torn dbg (ph (mb s + p)) (ph (mb s + q)) s) as [it s1|e s1|s1| |]; try contradiction.
    2: { destruct H as (_ & H & _). discriminate. }
    destruct H as (Hit & R'). exists it, s1.
    pose proof (LRep_len _ _ _ _ _ _ _ _ _ R') as Hl'. rewrite lenz_erase_seq in Hl' by lia.
    split; [reflexivity|]. split; [eapply DR_holds; exact R'|]. split.
    - pose proof (d_off_ok cap bufsize dflt eq_refl Hcap _ _ _ _ p R' ltac:(rewrite lenz_erase_seq by lia; lia)) as Ho.
      rewrite Hit. unfold d_off, bind, d_begin, get_mb, ret in Ho. congruence.
    - destruct (Z.ltb_spec q (lenz l)).
      + rewrite Hit. rewrite (d_rd_ok cap bufsize dflt eq_refl Hcap _ _ _ _ p R') by (rewrite lenz_erase_seq by lia; lia).
        f_equal. rewrite nthz_erase_seq by lia. destruct (Z.ltb_spec p p); [lia|]. f_equal; lia.
      + rewrite Hit, (DR_me cap bufsize dflt _ _ _ _ R'), lenz_erase_seq by lia. do 2 f_equal. lia.
  Qed.
End DT.

(** operator== *)
Section DEq.
  Context {V : Type} (dflt : V) (eqb : V -> V -> bool).
  Hypothesis Heqb : forall a b, eqb a b = true <-> a = b.

  Lemma d_sizeof_exact cap (x : st V) l : 0 <= cap /\ cap + 1 < 2 ^ 63 -> d_holds cap x l -> d_sizeof (cap + 1) x = lenz l.
  Proof.
    intros Hc Hx. pose proof (d_size_exact cap dflt Hc x l Hx) as H.
    unfold d_size, bind, get_mb, get_me, ret in H. unfold d_sizeof. congruence.
  Qed.

  Lemma d_eq_exact capx capy (x y : st V) lx ly :
    0 <= capx /\ capx + 1 < 2 ^ 63 -> 0 <= capy /\ capy + 1 < 2 ^ 63 ->
    d_holds capx x lx -> d_holds capy y ly ->
    exists b, d_eq eqb (capx + 1) (capy + 1) x y = Ok b x /\ (b = true <-> lx = ly) /\
              d_neq eqb (capx + 1) (capy + 1) x y = Ok (negb b) x.
  Proof.
    intros Cx Cy Hx Hy.
    enough (G0 : exists b, d_eq eqb (capx + 1) (capy + 1) x y = Ok b x /\ (b = true <-> lx = ly)).
    { destruct G0 as (b & H1 & H2). exists b. unfold d_neq. rewrite H1. auto. }
    unfold d_eq. rewrite (d_sizeof_exact capx x lx Cx Hx), (d_sizeof_exact capy y ly Cy Hy).
    destruct (Z.eqb_spec (lenz lx) (lenz ly)) as [He|He]; cbn [negb].
    2: { exists false. split; [reflexivity|]. split; [discriminate|]. intros ->. congruence. }
    set (cond := fun ib : Z * bool => _). set (body := fun ib : Z * bool => _).
    assert (G : forall f k, 0 <= k <= lenz lx -> lenz lx - k <= Z.of_nat f ->
              (forall i, 0 <= i < k -> nthz dflt lx i = nthz dflt ly i) ->
              exists ib, loop f cond body (k, true) x = Ok ib x /\ (snd ib = true <-> lx = ly)).
    { induction f as [|f IH]; intros k Hk Hf Hp.
      - assert (k = lenz lx) by lia; subst k. exists (lenz lx, true). split.
        + cbn [loop]. unfold bind, cond. cbn [fst snd]. unfold ret. rewrite Z.ltb_irrefl. reflexivity.
        + cbn [snd]. split; [|reflexivity]. intros _. apply (list_ext dflt); [congruence|]. intros; apply Hp; lia.
      - cbn [loop]. unfold bind at 1. unfold cond at 1. cbn [fst snd]. unfold ret at 1.
        destruct (Z.ltb_spec k (lenz lx)) as [Hlt|Hge]; cbn [andb].
        + unfold bind. unfold body at 1. cbn [fst snd].
          rewrite (d_index_exact capx dflt Cx x lx k Hx), (d_index_exact capy dflt Cy y ly k Hy) by lia.
          destruct (eqb (nthz dflt lx k) (nthz dflt ly k)) eqn:E.
          * cbn [ret]. apply IH; [lia|lia|]. intros i Hi. destruct (Z.eq_dec i k) as [->|Hne].
            -- now apply Heqb.
            -- apply Hp; lia.
          * cbn [ret]. exists (k, false). split.
            -- destruct f; cbn [loop]; unfold bind, cond; cbn [fst snd ret]; rewrite andb_false_r; reflexivity.
            -- cbn [snd]. split; [discriminate|]. intros ->.
               assert (eqb (nthz dflt ly k) (nthz dflt ly k) = true) by now apply Heqb. congruence.
        + assert (k = lenz lx) by lia; subst k. exists (lenz lx, true). split; [reflexivity|].
          cbn [snd]. split; [|reflexivity]. intros _. apply (list_ext dflt); [congruence|]. intros; apply Hp; lia. }
    destruct (G (Z.to_nat (lenz lx)) 0) as (ib & H1 & H2); try lia.
    { pose proof (lenz_nonneg lx). lia. }
    rewrite H1. exists (snd ib). auto.
  Qed.
  Lemma pd_eq_exact capx capy (x y : st V) lx ly :
    0 <= capx /\ capx + 1 < 2 ^ 63 -> 0 <= capy /\ capy + 1 < 2 ^ 63 ->
    d_holds capx x lx -> d_holds capy y ly ->
    exists b, pd_eq eqb (capx + 1) (capy + 1) x y = Ok b x /\ (b = true <-> capx = capy /\ lx = ly).
  Proof.
    intros Cx Cy Hx Hy. unfold pd_eq. rewrite !w64_small by (rewrite W64_val; lia).
    destruct (Z.eqb_spec (capx + 1 - 1) (capy + 1 - 1)) as [He|He]; cbn [negb].
    - destruct (d_eq_exact capx capy x y lx ly Cx Cy Hx Hy) as (b & H1 & H2 & _). exists b. split; [exact H1|].
      rewrite H2. split; [|tauto]. intros ->. split; [lia|reflexivity].
    - exists false. split; [reflexivity|]. split; [discriminate|]. lia.
  Qed.
End DEq.

(** Iterators: the iterator at logical position k of a deque whose m_begin is [b], in a ring of [B] slots *)
Definition iter_at (B b k : Z) : Z := (b + k) mod B.
Section DIter.
  Variable cap : Z.
  Hypothesis Hcap : 0 <= cap /\ cap + 1 < 2 ^ 63.
  Notation B := (cap + 1).
  Lemma HBi : 1 <= B < 2 ^ 63.
  Proof. lia. Qed.
  Lemma iter_add b k n :
    0 <= k <= cap -> 0 <= k + n <= cap ->
    it_add B (iter_at B b k) n = iter_at B b (k + n) /\ it_sub B (iter_at B b k) (- n) = iter_at B b (k + n).
  Proof.
    intros Hk Hn. unfold iter_at. fold (dph B (b + k)).
    rewrite (it_add_gen B HBi), (it_sub_gen B HBi) by lia. unfold dph. split; f_equal; lia.
  Qed.
  Lemma iter_order b j k :
    0 <= b <= cap -> 0 <= j <= cap -> 0 <= k <= cap ->
    it_diff B b (iter_at B b j) (iter_at B b k) = j - k /\
    it_lt B b (iter_at B b j) (iter_at B b k) = (j <? k) /\
    it_le B b (iter_at B b j) (iter_at B b k) = (j <=? k) /\
    it_ge B b (iter_at B b j) (iter_at B b k) = (k <=? j) /\
    (iter_at B b j =? iter_at B b k) = (j =? k).
  Proof.
    intros Hb Hj Hk. unfold iter_at. fold (dph B (b + j)) (dph B (b + k)).
    assert (Eb : b = dph B b) by (unfold dph; now rewrite Z.mod_small by lia).
    rewrite Eb at 1 4 7 10.
    rewrite (it_diff_ok B HBi), (it_lt_ok B HBi), (it_le_ok B HBi), (it_ge_ok B HBi), (dph_eqb B HBi) by lia.
    repeat split; try lia; bcase; try reflexivity; lia.
  Qed.
  Lemma iter_begin_end {V} (s : st V) l : d_holds cap s l ->
    mb s = iter_at B (mb s) 0 /\ me s = iter_at B (mb s) (lenz l) /\
    it_diff B (mb s) (me s) (mb s) = lenz l.
  Proof.
    intros (H1 & H2 & H3 & H4). pose proof (lenz_nonneg l).
    assert (E0 : mb s = iter_at B (mb s) 0) by (unfold iter_at; rewrite Z.mod_small; lia).
    split; [exact E0|]. split; [exact H3|].
    destruct (iter_order (mb s) (lenz l) 0 H2) as (H5 & _); try lia.
    rewrite <- E0 in H5. fold (iter_at B (mb s) (lenz l)) in H3. rewrite H3, H5. lia.
  Qed.
  Lemma iter_deref {V} (dflt : V) (s : st V) l k n :
    d_holds cap s l -> 0 <= k <= lenz l -> 0 <= k + n < lenz l ->
    rd B (it_add B (iter_at B (mb s) k) n) s = Ok (nthz dflt l (k + n)) s.
  Proof.
    intros Hs Hk Hn. pose proof Hs as (H1 & H2 & H3 & H4).
    rewrite (proj1 (iter_add (mb s) k n ltac:(lia) ltac:(lia))).
    assert (R := holds_DR cap dflt false s l Hs ltac:(discriminate)).
    exact (d_rd_ok cap B dflt eq_refl Hcap false s _ l (k + n) R ltac:(lia)).
  Qed.
End DIter.

(** Debug build: iterators inside the ring are always checked correctly *)
Section DDbg.
  Context {V : Type}.
  Variable cap : Z.
  Variable torn dflt : V.
  Hypothesis Hcap : 0 <= cap /\ cap + 1 < 2 ^ 63.
  Notation B := (cap + 1).

  (** arguments of the right C++ type; positions name any slot of the ring (begin()+p with p <= max_size()) *)
  Definition d_typed (o : op V) : Prop :=
    match o with
    | InsertOne p _ | InsertInt p _ _ | EraseOne p => 0 <= p <= cap
    | EraseRange p q => 0 <= p <= cap /\ 0 <= q <= cap
    | InsertN p n _ => 0 <= p <= cap /\ szt n
    | AssignN n _ | Resize n _ | At n => szt n
    | InsertRange p xs => 0 <= p <= cap /\ szt (lenz xs)
    | AssignRange xs => szt (lenz xs)
    | Index _ => False
    | _ => True
    end.

  Lemma d_debug_safe f s l o :
    d_holds cap s l -> d_typed o ->
    match d_step cap B torn dflt true o (arm f s) with
    | Ok r s' => seq_pre true true l o /\ r = fst (seq_step dflt cap l o) /\ d_holds cap s' (snd (seq_step dflt cap l o))
    | Thr ElemExn s' => seq_pre true true l o /\ exists l', d_holds cap s' l'
    | Thr e s' => seq_pre true true l o /\ fst (seq_step dflt cap l o) = OExn e /\ d_holds cap s' l
    | AssertFail s' => ~ seq_pre true true l o /\ s' = arm f s
    | UB | Diverge => False
    end.
  Proof.
    intros Hs Ht. pose proof Hs as (H1 & H2 & H3 & H4). pose proof (lenz_nonneg l) as Hl0.
    assert (Hdec : seq_pre true true l o \/ ~ seq_pre true true l o).
    { destruct o; cbn [seq_pre d_typed] in *; try contradiction; try (left; tauto).
      - destruct l; [right; tauto|left; discriminate].
      - destruct l; [right; tauto|left; split; [reflexivity|discriminate]].
      - destruct (Z_le_gt_dec 0 p), (Z_le_gt_dec p (lenz l)); (left; lia) || (right; lia).
      - destruct (Z_le_gt_dec 0 p), (Z_le_gt_dec p (lenz l)); (left; split; [lia|tauto]) || (right; lia).
      - destruct (Z_le_gt_dec 0 p), (Z_le_gt_dec p (lenz l)); (left; lia) || (right; lia).
      - destruct (Z_le_gt_dec 0 p), (Z_le_gt_dec p (lenz l)); (left; split; [lia|tauto]) || (right; lia).
      - destruct (Z_le_gt_dec 0 p), (Z_lt_ge_dec p (lenz l)); (left; lia) || (right; lia).
      - destruct (Z_le_gt_dec 0 p), (Z_lt_ge_dec p q), (Z_le_gt_dec q (lenz l)); (left; lia) || (right; intros (? & ? & X); specialize (X eq_refl); lia).
      - destruct l; [right; tauto|left; discriminate].
      - destruct l; [right; tauto|left; discriminate]. }
    destruct Hdec as [Hp|Hn].
    { pose proof (d_step_fused cap torn dflt true Hcap f s l o Hs Hp) as H.
      destruct (d_step cap B torn dflt true o (arm f s)) as [r s'|e s'|s'| |]; try contradiction; [tauto|].
      destruct e; tauto. }
    set (s0 := arm f s) in *. assert (Hs0 : d_holds cap s0 l) by exact Hs.
    assert (Hmb : 0 <= mb s0 <= cap) by (cbn; lia).
    destruct (iter_begin_end cap Hcap s0 l Hs0) as (E0 & E1 & _).
    assert (Hbe : forall A C (k : Z -> M V C) (g : A -> M V C) (a : A), bind d_begin k s0 = k (mb s0) s0) by reflexivity.
    assert (Hat : forall C (k : Z -> M V C) p, 0 <= p <= cap -> bind (d_at_off B p) k s0 = k (iter_at B (mb s0) p) s0).
    { intros C k p Hp. unfold d_at_off, bind, d_begin, get_mb, ret.
      rewrite E0 at 1. rewrite (proj1 (iter_add cap Hcap (mb s0) 0 p ltac:(lia) ltac:(lia))). reflexivity. }
    assert (Hle : forall p, 0 <= p <= cap -> d_pos_ok B (iter_at B (mb s0) p) s0 = Ok (p <=? lenz l) s0).
    { intros p Hp. unfold d_pos_ok, bind, d_begin, d_end, get_mb, get_me, ret.
      rewrite E1. rewrite E0 at 2.
      destruct (iter_order cap Hcap (mb s0) 0 p) as (_ & _ & -> & _); try lia.
      destruct (iter_order cap Hcap (mb s0) p (lenz l)) as (_ & _ & -> & _); try lia.
      destruct (Z.leb_spec 0 p); [reflexivity|lia]. }
    assert (Hem : d_empty s0 = Ok (match l with [] => true | _ => false end) s0).
    { unfold d_empty, bind, get_mb, get_me, ret. rewrite E1. rewrite E0 at 1.
      destruct (iter_order cap Hcap (mb s0) 0 (lenz l)) as (_ & _ & _ & _ & ->); try lia.
      destruct l; [reflexivity|]. rewrite lenz_cons. pose proof (lenz_nonneg l).
      destruct (Z.eqb_spec 0 (1 + lenz l)); [lia|]. destruct (Z.eqb_spec 0 (lenz l + 1)); [lia|]. reflexivity. }
    assert (Hlt : forall p q, 0 <= p <= cap -> 0 <= q <= cap ->
              it_lt B (mb s0) (iter_at B (mb s0) p) (iter_at B (mb s0) q) = (p <? q)).
    { intros p q Hp Hq. apply (iter_order cap Hcap (mb s0) p q); lia. }
    assert (Hle2 : forall p q, 0 <= p <= cap -> 0 <= q <= cap ->
              it_le B (mb s0) (iter_at B (mb s0) p) (iter_at B (mb s0) q) = (p <=? q)).
    { intros p q Hp Hq. apply (iter_order cap Hcap (mb s0) p q); lia. }
    assert (Hle0 : forall p, 0 <= p <= cap -> it_le B (mb s0) (mb s0) (iter_at B (mb s0) p) = true).
    { intros p Hp. pose proof (Hle2 0 p ltac:(lia) Hp) as Hx. rewrite <- E0 in Hx. rewrite Hx.
      destruct (Z.leb_spec 0 p); [reflexivity|lia]. }
    assert (Her : forall C (k : Z -> M V C) p q, 0 <= p <= cap -> 0 <= q <= cap -> ~ (p < q /\ q <= lenz l) ->
              bind (d_erase_range B torn true (iter_at B (mb s0) p) (iter_at B (mb s0) q)) k s0 = AssertFail s0).
    { intros C k p q Hp Hq Hno. unfold d_erase_range, bind, d_begin, d_end, get_mb, get_me.
      rewrite E1. rewrite Hlt by lia. unfold dassert at 1.
      destruct (Z.ltb_spec p q); [|reflexivity].
      rewrite Hle0, Hlt by lia. unfold dassert at 1.
      destruct (Z.ltb_spec p (lenz l)); cbn [andb]; try reflexivity; try lia.
      rewrite Hle0, Hle2 by lia. unfold dassert at 1.
      destruct (Z.leb_spec q (lenz l)); cbn [andb]; try reflexivity; lia. }
    destruct o; cbn [seq_pre d_typed] in *; try contradiction; try tauto; cbn [d_step].
    - destruct l; [|exfalso; apply Hn; discriminate].
      unfold bind at 1. unfold d_pop_back. unfold bind at 1. rewrite Hem. cbn. split; [tauto|reflexivity].
    - destruct l; [|exfalso; apply Hn; split; [reflexivity|discriminate]].
      unfold bind at 1. unfold d_pop_front. unfold bind at 1. rewrite Hem. cbn. split; [tauto|reflexivity].
    - rewrite Hat by lia. unfold bind at 1. unfold d_insert_one. unfold bind at 1. rewrite Hle by lia.
      destruct (Z.leb_spec p (lenz l)); [exfalso; lia|]. cbn. auto.
    - rewrite Hat by lia. unfold bind at 1. unfold d_insert_cnt. unfold bind at 1. rewrite Hle by lia.
      destruct (Z.leb_spec p (lenz l)); [exfalso; apply Hn; split; [lia|tauto]|]. cbn. auto.
    - rewrite Hat by lia. unfold bind at 1. unfold d_insert_int. unfold bind at 1. rewrite Hle by lia.
      destruct (Z.leb_spec p (lenz l)); [exfalso; lia|]. cbn. auto.
    - rewrite Hat by lia. unfold bind at 1. unfold d_insert_rng. unfold bind at 1. rewrite Hle by lia.
      destruct (Z.leb_spec p (lenz l)); [exfalso; apply Hn; split; [lia|tauto]|]. cbn. auto.
    - rewrite Hat by lia. unfold bind at 1. unfold d_erase_one, bind, d_begin, d_end, get_mb, get_me.
      rewrite E1, Hle0, Hlt by lia.
      destruct (Z.ltb_spec p (lenz l)); cbn [andb]; try lia. cbn. auto.
    - rewrite Hat by lia. rewrite Hat by lia.
      rewrite Her; [auto|lia|lia|]. intros Hx. apply Hn. repeat split; intros; lia.
    - destruct l; [|exfalso; apply Hn; discriminate].
      unfold bind at 1. unfold d_front. unfold bind at 1. rewrite Hem. cbn. split; [tauto|reflexivity].
    - destruct l; [|exfalso; apply Hn; discriminate].
      unfold bind at 1. unfold d_back. unfold bind at 1. rewrite Hem. cbn. split; [tauto|reflexivity].
  Qed.
End DDbg.

(** PreallocatedDeque *)
Section PD.
  Context {V : Type}.
  Variable torn dflt : V.
  Variable dbg : bool.
  Lemma pd_refines bytes sizeofT b os :
    0 < sizeofT -> sizeofT <= bytes < 2 ^ 63 ->
    let x := @pd_construct V (Some b) bytes in
    let c := bytes / sizeofT - 1 in
    pd_max_size sizeofT x = c /\ 0 <= c /\ (c + 1) * sizeofT <= bytes /\ bytes < (c + 2) * sizeofT /\
    (seq_pres dflt c dbg true [] os ->
     exists s, pd_run torn dflt dbg sizeofT x os = Some (fst (seq_run dflt c [] os), s) /\
               d_holds c s (snd (seq_run dflt c [] os))).
  Proof.
    intros Hs Hb x c. unfold c.
    assert (1 <= bytes / sizeofT) by (apply Z.div_le_lower_bound; lia).
    pose proof (Z.mod_pos_bound bytes sizeofT Hs). pose proof (Z.div_mod bytes sizeofT ltac:(lia)).
    assert (Hlt : bytes / sizeofT <= bytes) by nia.
    assert (E : pd_max_size sizeofT x = bytes / sizeofT - 1).
    { unfold pd_max_size, x, pd_construct. cbn [pd_bytes]. apply w64_small. rewrite W64_val. lia. }
    split; [exact E|]. split; [lia|]. split; [nia|]. split; [nia|].
    intros Hpre. unfold pd_run. rewrite E. unfold pd_num_elems, x, pd_construct. cbn [pd_bytes pd_st].
    pose proof (d_refines (bytes / sizeofT - 1) torn dflt dbg ltac:(lia) os Hpre) as G.
    replace (bytes / sizeofT - 1 + 1) with (bytes / sizeofT) in G by lia. exact G.
  Qed.
  (** too small a buffer: max_size() is 2^64 - 1 and the first push_back writes outside the buffer *)
  Lemma pd_small bytes sizeofT (buf : option Z) (v : V) :
    0 <= bytes < sizeofT ->
    pd_max_size sizeofT (@pd_construct V buf bytes) = 2 ^ 64 - 1 /\
    d_step (pd_max_size sizeofT (@pd_construct V buf bytes)) (pd_num_elems sizeofT (@pd_construct V buf bytes))
      torn dflt dbg (PushBack v) (pd_st (pd_construct buf bytes)) = UB.
  Proof.
    intros H. unfold pd_max_size, pd_num_elems, pd_construct. cbn [pd_bytes pd_st].
    rewrite Z.div_small by lia. split; [reflexivity|]. reflexivity.
  Qed.
End PD.

(** constructors leave elements behind when an element copy throws *)
Lemma d_construct_n_leak {V} (v : V) :
  exists s' : st V, d_construct_n 3 4 (Some 1%nat) 2 v = Thr ElemExn s' /\ mem s' 0 = Some v.
Proof. eexists. split; [vm_compute; reflexivity|reflexivity]. Qed.
Lemma d_insert_alias_wrong :
  match d_run 6 7 0 0 true d_init [PushBack 1; PushBack 2; PushBack 3; PushBack 4; PushBack 5] with
  | Some (_, s) =>
      match (d_insert_one 6 7 0 0 true ((mb s + 3) mod 7) (RSlot ((mb s + 4) mod 7)) ;;; d_read_all 7) s with
      | Ok l _ => l = [1; 2; 3; 4; 4; 5] /\ l <> insert_seq [1; 2; 3; 4; 5] 3 [5]
      | _ => False
      end
  | None => False
  end.
Proof. vm_compute. split; [reflexivity|congruence]. Qed.
