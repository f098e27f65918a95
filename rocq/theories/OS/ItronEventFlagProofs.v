(** Proofs about the ItronEventFlag model. *)
From Coq Require Import List ZArith Bool Lia Arith.
Import ListNotations.
From Verif Require Import Spec.OSError Spec.Linear Spec.BitSpec Spec.EventFlagSpec Container.BitPatternModel OS.Sched
  OS.EventFlagModel OS.EventFlagProofs OS.ItronEventFlagModel.
Open Scope Z_scope.

Lemma if_entry_eq w dbg c : if_entry w dbg c = ef_entry w dbg c.
Proof. reflexivity. Qed.

Section Proofs.
  Variables w wf : Z.
  Hypothesis Hw : 0 < w.
  Hypothesis Hwf : w <= wf.
  Variables dbg ar : bool.
  Notation stp := (f_step w wf dbg ar).
  Notation spec := (espec w ar).
  Notation inw := (inw w).
  Notation op_ok := (op_ok w ar).
  Notation pred := (wait_pred w).

  Lemma pow_le : 2 ^ w <= 2 ^ wf.
  Proof. apply Z.pow_le_mono_r; lia. Qed.
  Lemma flgptn_small x : inw x -> flgptn wf x = x.
  Proof. unfold EventFlagProofs.inw. intros H. pose proof pow_le. unfold flgptn. apply Z.mod_small. lia. Qed.
  Lemma cast_small x : inw x -> castT w x = x.
  Proof. unfold EventFlagProofs.inw. intros H. unfold castT. apply Z.mod_small. lia. Qed.
  Lemma lor_in a b : inw a -> inw b -> Z.lor a b = castT w (Z.lor a b).
  Proof.
    intros Ha Hb. apply Z.bits_inj'. intros i Hi. rewrite cast_lor by assumption. now rewrite Z.lor_spec.
  Qed.
  Lemma clear_in a b : inw a -> inw b -> Z.land a (flgptn wf (castT w (bnot w b))) = castT w (Z.land a (bnot w b)).
  Proof.
    intros Ha Hb. rewrite flgptn_small by (apply castT_in; exact Hw).
    apply Z.bits_inj'. intros i Hi. rewrite cast_clear by assumption. rewrite Z.land_spec.
    destruct (Z.lt_ge_cases i w) as [L|G].
    - rewrite cast_low, bnot_low by lia. reflexivity.
    - rewrite (high_bit w Hw a i Ha G). reflexivity.
  Qed.
  Lemma cond_eq P m p : inw P -> inw p -> k_cond (flgptn wf P) m p = pred P m p.
  Proof.
    intros HP Hp. rewrite flgptn_small by exact HP. unfold k_cond, wait_pred. rewrite (Z.land_comm p P).
    destruct m; try reflexivity. rewrite cast_small; [reflexivity|]. apply land_in; [exact Hw|exact HP|destruct Hp; lia].
  Qed.

  Definition fst_of (q : ifpc) : status ecall eres :=
    match q with FIdle => Out | FEntry c | FKern c _ | FQueued c _ => Pending c | FRet r => Done r end.
  (** a queued task waits for a condition that is false *)
  Definition waits (p : Z) (q : ifpc) : Prop :=
    exists c P m rel tm, q = FQueued c (OWait P m rel tm) /\ op_ok c (OWait P m rel tm) /\ P <> 0 /\ tm <> 0 /\ pred P m p = false.
  Definition arg_ok (o : eop) : Prop := match o with OWait P _ _ _ => P <> 0 | OSet P | OReset P => inw P | OGet => True end.
  Lemma entry_arg c o : ecall_ok w c -> ef_entry w dbg c = Go o -> arg_ok o.
  Proof.
    intros OKc.
    assert (T : forall P m rel tm, timedWait_entry w dbg P m rel tm = Go o -> arg_ok o).
    { intros P m rel tm. unfold timedWait_entry. cbn [b_step].
      destruct m; try discriminate; destruct (Z.eqb_spec P 0); try discriminate; intros H; injection H as <-; assumption. }
    destruct c as [k|pos k|P m rel k| |pos|P| |pos|P|]; cbn [ef_entry];
      try (change (b_step w dbg b_init BSetAll) with (@BOk (Z * bout) (all_ones w, OUnitB)); cbn [with_pat]);
      try (change (pat_size w dbg) with w; cbn in OKc; destruct (Z.leb_spec w pos); [discriminate|];
           destruct (set_one_ok w Hw dbg pos ltac:(lia)) as (v & EV & Hv & _); rewrite EV; cbn [with_pat]);
      try apply T; intros H'; injection H' as <-; cbn [arg_ok]; try exact I; try assumption; apply all_ones_in; exact Hw.
  Qed.
  Definition fpc_ok (p : Z) (q : ifpc) : Prop :=
    match q with
    | FEntry c => ecall_ok w c /\ tmout_ok c
    | FKern c o => op_ok c o /\ arg_ok o
    | FQueued _ _ => waits p q
    | _ => True
    end.
  Definition is_queued (q : ifpc) : bool := match q with FQueued _ _ => true | _ => false end.
  Record finv (s : ifst) (es : list (event ecall eres)) : Prop := {
    fi_ptn : inw (f_ptn s);
    fi_nodup : NoDup (f_queue s);
    fi_queue : forall t, In t (f_queue s) <-> is_queued (f_thr s t) = true;
    fi_pc : forall t, fpc_ok (f_ptn s) (f_thr s t);
    fi_lin : exists f, lin_run spec (fun _ => Out) 0 es f (f_ptn s) /\ forall t, f t = fst_of (f_thr s t)
  }.
  Lemma finv_init : finv f_init [].
  Proof.
    constructor; cbn.
    - apply inw0; exact Hw.
    - constructor.
    - intros t. split; [tauto|discriminate].
    - trivial.
    - exists (fun _ => Out). split; [constructor|reflexivity].
  Qed.

  Lemma waits_mono p p' q : inw p -> inw p' -> subset p' p -> waits p q -> waits p' q.
  Proof.
    intros Hp Hp' S (c & P & m & rel & tm & -> & O & NZ & N0 & F). exists c, P, m, rel, tm.
    split; [reflexivity|]. split; [exact O|]. split; [exact NZ|]. split; [exact N0|].
    destruct (pred P m p') eqn:E; [|reflexivity]. assert (HP : inw P) by apply O.
    pose proof (pred_mono w Hw P m p p' HP Hp Hp' S E). congruence.
  Qed.
  Lemma fpc_mono p p' q : inw p -> inw p' -> subset p' p -> fpc_ok p q -> fpc_ok p' q.
  Proof. intros Hp Hp' S. destruct q; cbn; auto. now apply waits_mono. Qed.
  Lemma clear_subset p : subset (k_clear ar p) p.
  Proof. unfold k_clear. destruct ar; [apply zero_subset|intros i _ H; exact H]. Qed.
  Lemma clear_inw p : inw p -> inw (k_clear ar p).
  Proof. unfold k_clear. destruct ar; [intros _; apply inw0; exact Hw|auto]. Qed.
  Lemma subset_trans a b c : subset a b -> subset b c -> subset a c.
  Proof. intros A B i Hi H. auto. Qed.

  Lemma release_ok : forall q p thr f es p' thr' q' es',
    inw p -> NoDup q ->
    (forall t, In t q -> exists c P m rel tm, thr t = FQueued c (OWait P m rel tm) /\ op_ok c (OWait P m rel tm) /\
                           P <> 0 /\ tm <> 0 /\ f t = Pending c) ->
    lin_run spec (fun _ => Out) 0 es f p ->
    k_release w wf ar p thr q = (p', thr', q', es') ->
    inw p' /\ subset p' p /\ NoDup q' /\ (forall t, In t q' <-> In t q /\ is_queued (thr' t) = true) /\
    exists f', lin_run spec (fun _ => Out) 0 (es ++ es') f' p' /\
      forall t, (thr' t = thr t /\ f' t = f t /\ (In t q -> waits p' (thr' t))) \/
                (In t q /\ exists r, thr' t = FRet r /\ f' t = Done r).
  Proof.
    induction q as [|t q IH]; intros p thr f es p' thr' q' es' Hp ND HQ L E; cbn [k_release] in E.
    - injection E as <- <- <- <-. rewrite app_nil_r. split; [exact Hp|]. split; [intros i _ H; exact H|].
      split; [constructor|]. split; [intros t; split; [intros []|intros [[] _]]|]. exists f. split; [exact L|].
      intros t. left. split; [reflexivity|]. split; [reflexivity|]. intros [].
    - inversion ND as [|? ? NI ND']; subst.
      destruct (HQ t (or_introl eq_refl)) as (c & P & m & rel & tm & Ht & O & NZ & N0 & Ft). rewrite Ht in E.
      assert (HP : inw P) by apply O. rewrite cond_eq in E by assumption.
      destruct (pred P m p) eqn:C.
      + destruct (k_release w wf ar (k_clear ar p) (fupd thr t (FRet (f_ok w rel p))) q) as [[[p1 thr1] q1] es1] eqn:E1.
        injection E as <- <- <- <-.
        assert (R : f_ok w rel p = ERes OK (if rel then Some p else None)) by (unfold f_ok; rewrite cast_small by exact Hp; reflexivity).
        destruct (IH (k_clear ar p) (fupd thr t (FRet (f_ok w rel p))) (set_st f t (Done (f_ok w rel p))) (es ++ [Eff t c (f_ok w rel p)])
          p1 thr1 q1 es1) as (A1 & A2 & A3 & A4 & f' & A5 & A6).
        * now apply clear_inw.
        * exact ND'.
        * intros u Hu. assert (u <> t) by (intros ->; contradiction).
          destruct (HQ u (or_intror Hu)) as (c' & P' & m' & rel' & tm' & B). exists c', P', m', rel', tm'.
          rewrite fupd_other by assumption. unfold set_st. destruct (Nat.eqb_spec u t); [contradiction|]. exact B.
        * eapply lin_run_app; [exact L|]. eapply lr_eff; [exact Ft| |constructor]. rewrite R. unfold k_clear.
          exact (spec_wait_ok w Hw ar c P m rel tm p t O Hp C).
        * exact E1.
        * assert (Tt : thr1 t = FRet (f_ok w rel p) /\ f' t = Done (f_ok w rel p)).
          { destruct (A6 t) as [(X & Y & _)|(X & _)]; [|contradiction]. rewrite X, Y, fupd_same. unfold set_st.
            rewrite Nat.eqb_refl. split; reflexivity. }
          split; [exact A1|]. split; [eapply subset_trans; [exact A2|apply clear_subset]|]. split; [exact A3|].
          split.
          { intros u. rewrite A4. cbn [In]. split; [tauto|]. intros [[-> | H] Q]; [|tauto]. rewrite (proj1 Tt) in Q. discriminate. }
          exists f'. rewrite <- app_assoc in A5. split; [exact A5|]. intros u. destruct (Nat.eq_dec u t) as [->|N].
          { right. split; [left; reflexivity|]. eexists. exact Tt. }
          destruct (A6 u) as [(X & Y & Z1)|(X & Y)].
          { left. rewrite fupd_other in X by exact N. unfold set_st in Y. destruct (Nat.eqb_spec u t); [contradiction|].
            split; [exact X|]. split; [exact Y|]. cbn [In]. intros [->|H]; [contradiction|auto]. }
          { right. split; [right; exact X|exact Y]. }
      + destruct (k_release w wf ar p thr q) as [[[p1 thr1] q1] es1] eqn:E1. injection E as <- <- <- <-.
        destruct (IH p thr f es p1 thr1 q1 es1) as (A1 & A2 & A3 & A4 & f' & A5 & A6); auto.
        { intros u Hu. apply HQ. right. exact Hu. }
        assert (Tt : thr1 t = thr t /\ f' t = f t) by (destruct (A6 t) as [(X & Y & _)|(X & _)]; [tauto|contradiction]).
        assert (Wt : waits p1 (thr1 t)).
        { rewrite (proj1 Tt), Ht. apply (waits_mono p p1); try assumption. exists c, P, m, rel, tm. tauto. }
        split; [exact A1|]. split; [exact A2|]. split.
        { constructor; [|exact A3]. rewrite A4. tauto. }
        split.
        { intros u. cbn [In]. rewrite A4. split.
          - intros [->|H]; [|tauto]. split; [tauto|]. rewrite (proj1 Tt), Ht. reflexivity.
          - tauto. }
        exists f'. split; [exact A5|]. intros u. destruct (Nat.eq_dec u t) as [->|N].
        { left. split; [apply Tt|]. split; [apply Tt|]. intros _. exact Wt. }
        destruct (A6 u) as [(X & Y & Z1)|(X & Y)].
        { left. split; [exact X|]. split; [exact Y|]. cbn [In]. intros [->|H]; [contradiction|auto]. }
        { right. split; [right; exact X|exact Y]. }
  Qed.

  Lemma fst_upd s t q (f : nat -> status ecall eres) : (forall u, f u = fst_of (f_thr s u)) ->
    forall u, fst_of (fupd (f_thr s) t q u) = if Nat.eqb u t then fst_of q else f u.
  Proof. intros H u. rewrite fupd_eq, H. destruct (Nat.eqb u t); reflexivity. Qed.
  Lemma queue_keep s t q : (forall u, In u (f_queue s) <-> is_queued (f_thr s u) = true) ->
    is_queued (f_thr s t) = false -> is_queued q = false ->
    forall u, In u (f_queue s) <-> is_queued (fupd (f_thr s) t q u) = true.
  Proof. intros H A B u. rewrite fupd_eq. destruct (Nat.eqb_spec u t) as [->|]; [rewrite H, A, B; tauto|apply H]. Qed.
  Lemma fpc_upd p (thr : nat -> ifpc) t q : (forall u, fpc_ok p (thr u)) -> fpc_ok p q -> forall u, fpc_ok p (fupd thr t q u).
  Proof. intros H A u. rewrite fupd_eq. destruct (Nat.eqb u t); auto. Qed.

  (** a step of [t], not queued, with at most one event, which only clears bits *)
  Lemma simple_eff s es t c r p' :
    finv s es -> fst_of (f_thr s t) = Pending c -> is_queued (f_thr s t) = false -> inw p' -> subset p' (f_ptn s) ->
    spec (f_ptn s) t c r p' ->
    finv (mkF p' (f_queue s) (fupd (f_thr s) t (FRet r))) (es ++ [Eff t c r]).
  Proof.
    intros [I1 I2 I3 I4 (f & L & F)] P NQ Hp' S SP. constructor; cbn [f_ptn f_queue f_thr].
    - exact Hp'.
    - exact I2.
    - now apply queue_keep.
    - apply fpc_upd; [|exact I]. intros u. apply (fpc_mono (f_ptn s)); auto.
    - eapply lin_snoc_eff; [exact L|rewrite F; exact P|exact SP|]. apply fst_upd. exact F.
  Qed.
  Lemma subset_refl p : subset p p.
  Proof. intros i _ H. exact H. Qed.

  Lemma enqueue_in t k q u : In u (k_enqueue t k q) <-> u = t \/ In u q.
  Proof.
    unfold k_enqueue. rewrite in_app_iff. cbn [In]. rewrite <- (firstn_skipn k q) at 3. rewrite in_app_iff. intuition.
  Qed.
  Lemma enqueue_nodup t k q : NoDup q -> ~ In t q -> NoDup (k_enqueue t k q).
  Proof.
    intros H N. unfold k_enqueue. apply NoDup_Add with (a := t) (l := firstn k q ++ skipn k q).
    - apply Add_app.
    - rewrite firstn_skipn. split; assumption.
  Qed.


  Lemma finv_step s es l s' es' : finv s es -> f_label_ok w l -> stp s l = Some (s', es') -> finv s' (es ++ es').
  Proof.
    intros I LO E. pose proof I as [I1 I2 I3 I4 (f & L & F)]. destruct l as [t c|t k|t]; cbn [f_step] in E.
    - destruct (f_thr s t) eqn:Ht; try discriminate. injection E as <- <-. constructor; cbn [f_go f_ptn f_queue f_thr].
      + exact I1.
      + exact I2.
      + apply queue_keep; [exact I3|now rewrite Ht|reflexivity].
      + apply fpc_upd; [exact I4|exact LO].
      + eapply lin_snoc_call; [exact L|rewrite F, Ht; reflexivity|]. apply fst_upd. exact F.
    - destruct (f_thr s t) as [|c|c o|c o|r] eqn:Ht; try discriminate.
      + (* entry *)
        rewrite if_entry_eq in E. pose proof (I4 t) as K. rewrite Ht in K. destruct K as (K & _).
        pose proof (entry_ok w Hw dbg ar c K) as EO. destruct (ef_entry w dbg c) as [o|e|] eqn:EE; [| |contradiction].
        * injection E as <- <-. constructor; cbn [f_go f_ptn f_queue f_thr]; auto.
          -- apply queue_keep; [exact I3|now rewrite Ht|reflexivity].
          -- apply fpc_upd; [exact I4|]. split; [exact EO|now apply (entry_arg c)].
          -- eapply lin_snoc_none; [exact L|]. intros u. rewrite fupd_eq, F. destruct (Nat.eqb_spec u t) as [->|]; [now rewrite Ht|reflexivity].
        * injection E as <- <-. apply simple_eff; auto; rewrite ?Ht; auto using subset_refl.
      + pose proof (I4 t) as K. rewrite Ht in K. cbn [fpc_ok] in K. destruct K as (K & KZ). destruct o as [P m rel tm|P|P|].
        * (* twai_flg *)
          assert (HP : inw P) by apply K. rewrite flgptn_small in E by exact HP.
          destruct (Z.eqb_spec P 0) as [->|NZ]; [now elim KZ|].
          rewrite <- (flgptn_small P HP) in E at 1. rewrite cond_eq in E by assumption.
          destruct (pred P m (f_ptn s)) eqn:C.
          { injection E as <- <-. apply simple_eff; auto; rewrite ?Ht; auto using clear_inw, clear_subset.
            unfold f_ok. rewrite cast_small by exact I1. exact (spec_wait_ok w Hw ar c P m rel tm _ t K I1 C). }
          destruct (Z.eqb_spec tm 0) as [->|N0].
          { injection E as <- <-. apply simple_eff; auto; rewrite ?Ht; auto using subset_refl.
            apply (spec_wait_timeout w ar c P m rel 0); auto. lia. }
          injection E as <- <-. assert (NI : ~ In t (f_queue s)) by (rewrite I3, Ht; discriminate).
          constructor; cbn [f_ptn f_queue f_thr].
          -- exact I1.
          -- now apply enqueue_nodup.
          -- intros u. rewrite enqueue_in, fupd_eq. destruct (Nat.eqb_spec u t) as [->|N]; [cbn; tauto|]. rewrite I3. tauto.
          -- apply fpc_upd; [exact I4|]. exists c, P, m, rel, tm. tauto.
          -- eapply lin_snoc_none; [exact L|]. intros u. rewrite fupd_eq, F. destruct (Nat.eqb_spec u t) as [->|]; [now rewrite Ht|reflexivity].
        * (* set_flg *)
          cbn [arg_ok] in KZ. destruct K as (_ & K). pose proof (K (f_ptn s) t I1) as SP.
          rewrite flgptn_small in E by exact KZ. rewrite <- lor_in in SP by assumption.
          assert (Hp1 : inw (Z.lor (f_ptn s) P)) by (rewrite lor_in by assumption; apply castT_in; exact Hw).
          destruct (k_release w wf ar (Z.lor (f_ptn s) P) (f_thr s) (f_queue s)) as [[[p' thr'] q'] es1] eqn:ER.
          injection E as <- <-.
          destruct (release_ok (f_queue s) (Z.lor (f_ptn s) P) (f_thr s) (set_st f t (Done (ERes OK None)))
            (es ++ [Eff t c (ERes OK None)]) p' thr' q' es1) as (A1 & A2 & A3 & A4 & f' & A5 & A6); auto.
          { intros u Hu. apply I3 in Hu. pose proof (I4 u) as KU. destruct (f_thr s u) as [| | |cu ou|] eqn:HU; try discriminate.
            destruct KU as (c' & P' & m' & rel' & tm' & EQ & O & NZ & N0 & _). injection EQ as -> ->.
            exists c', P', m', rel', tm'. split; [reflexivity|]. split; [exact O|]. split; [exact NZ|]. split; [exact N0|].
            unfold set_st. destruct (Nat.eqb_spec u t) as [->|]; [congruence|]. now rewrite F, HU. }
          { eapply lin_run_app; [exact L|]. eapply lr_eff; [rewrite F, Ht; reflexivity|exact SP|constructor]. }
          assert (Tt : thr' t = f_thr s t /\ f' t = Done (ERes OK None)).
          { destruct (A6 t) as [(X & Y & _)|(X & _)]; [|apply I3 in X; rewrite Ht in X; discriminate].
            split; [exact X|]. rewrite Y. unfold set_st. now rewrite Nat.eqb_refl. }
          constructor; cbn [f_ptn f_queue f_thr].
          -- exact A1.
          -- exact A3.
          -- intros u. rewrite A4, fupd_eq. destruct (Nat.eqb_spec u t) as [->|N].
             { rewrite (proj1 Tt), Ht. cbn. split; [intros [_ X]; discriminate|discriminate]. }
             split; [tauto|]. intros Q. split; [|exact Q]. apply I3. destruct (A6 u) as [(X & _)|(_ & r & X & _)]; [congruence|].
             rewrite X in Q. discriminate.
          -- apply fpc_upd; [|exact Logic.I]. intros u. destruct (A6 u) as [(X & _ & W)|(_ & r & X & _)].
             { rewrite X. pose proof (I4 u) as KU. specialize (I3 u). rewrite X in W.
               destruct (f_thr s u) as [| | |cu ou|]; try exact KU. apply W, I3. reflexivity. }
             { rewrite X. exact Logic.I. }
          -- exists f'. split; [rewrite <- app_assoc in A5; exact A5|].
             intros u. rewrite fupd_eq. destruct (Nat.eqb_spec u t) as [->|N]; [apply Tt|].
             destruct (A6 u) as [(X & Y & _)|(_ & r & X & Y)]; rewrite X, Y; [|reflexivity].
             unfold set_st. destruct (Nat.eqb_spec u t); [contradiction|apply F].
        * (* clr_flg *)
          destruct K as (_ & _ & K). cbn [b_step arg_ok] in E, KZ. injection E as <- <-. pose proof (K (f_ptn s) t I1) as SP.
          rewrite clear_in by assumption.
          apply simple_eff; auto; rewrite ?Ht; auto.
          -- apply castT_in. exact Hw.
          -- intros i Hi. rewrite cast_clear by assumption. intros X. now apply andb_true_iff in X.
        * destruct K as (_ & _ & K). injection E as <- <-. rewrite cast_small by exact I1.
          apply simple_eff; auto; rewrite ?Ht; auto using subset_refl.
      + injection E as <- <-. constructor; cbn [f_go f_ptn f_queue f_thr]; auto.
        * apply queue_keep; [exact I3|now rewrite Ht|reflexivity].
        * apply fpc_upd; [exact I4|exact Logic.I].
        * eapply lin_snoc_ret; [exact L|rewrite F, Ht; reflexivity|]. apply fst_upd. exact F.
    - destruct (f_thr s t) as [|c|c o|c o|r] eqn:Ht; try discriminate. destruct o as [P m rel tm| | |]; try discriminate.
      destruct (Z.eqb_spec tm (-1)) as [|NF]; [discriminate|]. injection E as <- <-.
      pose proof (I4 t) as K. rewrite Ht in K. destruct K as (c' & P' & m' & rel' & tm' & EQ & O & NZ & N0 & C).
      injection EQ as <- <- <- <- <-. constructor; cbn [f_ptn f_queue f_thr].
      + exact I1.
      + apply NoDup_filter. exact I2.
      + intros u. unfold k_dequeue. rewrite filter_In, fupd_eq, I3. destruct (Nat.eqb_spec u t) as [->|N]; cbn; [|tauto].
        split; [intros [_ X]; discriminate|discriminate].
      + apply fpc_upd; [exact I4|exact Logic.I].
      + eapply lin_snoc_eff; [exact L|rewrite F, Ht; reflexivity| |apply fst_upd; exact F].
        exact (spec_wait_timeout w ar c P m rel tm _ t O I1 C NF).
  Qed.
  Lemma finv_exec ls : (forall l, In l ls -> f_label_ok w l) -> forall s es s' es',
    finv s es -> exec stp s ls = Some (s', es') -> finv s' (es ++ es').
  Proof.
    induction ls as [|l ls IH]; intros HL s es s' es' H E; cbn in E.
    - injection E as <- <-. now rewrite app_nil_r.
    - destruct (f_step w wf dbg ar s l) as [[s1 e1]|] eqn:E1; [|discriminate].
      destruct (exec stp s1 ls) as [[s2 e2]|] eqn:E2; [|discriminate]. injection E as <- <-.
      rewrite app_assoc. eapply IH; [intros; apply HL; now right| |exact E2].
      eapply finv_step; [exact H|apply HL; now left|exact E1].
  Qed.
  Lemma finv_reach ls s es : (forall l, In l ls -> f_label_ok w l) -> exec stp f_init ls = Some (s, es) -> finv s es.
  Proof. intros HL E. exact (finv_exec ls HL f_init [] s es finv_init E). Qed.

  Theorem itron_ef_linearizable ls s es : (forall l, In l ls -> f_label_ok w l) -> exec stp f_init ls = Some (s, es) ->
    linearizable spec 0 (history es).
  Proof.
    intros HL E. destruct (finv_reach ls s es HL E) as [_ _ _ _ (f & L & _)]. exists es, f, (f_ptn s). split; [reflexivity|exact L].
  Qed.

  (** at every moment, a task inside a call can go on or waits for a condition that is false *)
  Theorem itron_ef_blocked ls s es : (forall l, In l ls -> f_label_ok w l) -> exec stp f_init ls = Some (s, es) ->
    forall t, f_idle s t \/ (forall k, stp s (FStep t k) <> None) \/
      exists c Q, f_running s t = Some c /\ econd w c = Some Q /\ ~ Q (f_ptn s) /\ (forever c \/ stp s (FTimeout t) <> None).
  Proof.
    intros HL E t. destruct (finv_reach ls s es HL E) as [I1 I2 I3 I4 _]. pose proof (I4 t) as K.
    unfold f_idle, f_running. cbn [f_step]. destruct (f_thr s t) as [|c|c o|c o|r] eqn:Ht.
    - now left.
    - right; left. intros _. rewrite if_entry_eq. pose proof (entry_ok w Hw dbg ar c (proj1 K)).
      destruct (ef_entry w dbg c); [discriminate|discriminate|contradiction].
    - right; left. intros k. destruct o as [P m rel tm|P|P|]; try discriminate.
      + destruct (flgptn wf P =? 0); [discriminate|]. destruct (k_cond (flgptn wf P) m (f_ptn s)); [discriminate|]. destruct (tm =? 0); discriminate.
      + destruct (k_release w wf ar (Z.lor (f_ptn s) (flgptn wf P)) (f_thr s) (f_queue s)) as [[[? ?] ?] ?]. discriminate.
    - right; right. destruct K as (c' & P & m & rel & tm & EQ & O & NZ & N0 & C). injection EQ as -> ->.
      destruct (pred_false_cond w ar c' P m rel tm (f_ptn s) O I1 C) as (Q & EQ & NQ). exists c', Q.
      split; [reflexivity|]. split; [exact EQ|]. split; [exact NQ|]. destruct (Z.eqb_spec tm (-1)) as [->|N]; [left|right; discriminate].
      destruct O as (_ & _ & _ & FV & _). now apply FV.
    - right; left. intros _. discriminate.
  Qed.

  Definition fweight (q : ifpc) : nat := match q with FIdle => 0 | FEntry _ => 4 | FKern _ _ => 3 | FQueued _ _ => 2 | FRet _ => 1 end.
  Lemma release_weight : forall q p thr p' thr' q' es', k_release w wf ar p thr q = (p', thr', q', es') ->
    forall u, thr' u = thr u \/ (is_queued (thr u) = true /\ exists r, thr' u = FRet r).
  Proof.
    induction q as [|t q IH]; intros p thr p' thr' q' es' E u; cbn [k_release] in E.
    - injection E as <- <- <- <-. now left.
    - assert (X : forall p1 thr1, (forall v, thr1 v = thr v \/ (is_queued (thr v) = true /\ exists r, thr1 v = FRet r)) ->
        forall p2 thr2 q2 es2, k_release w wf ar p1 thr1 q = (p2, thr2, q2, es2) ->
        thr2 u = thr u \/ (is_queued (thr u) = true /\ exists r, thr2 u = FRet r)).
      { intros p1 thr1 H1 p2 thr2 q2 es2 E2. destruct (IH _ _ _ _ _ _ E2 u) as [-> | (A & r & B)]; [apply H1|].
        destruct (H1 u) as [H2 | (H2 & r2 & H3)]; [rewrite H2 in A; right; eauto|right; eauto]. }
      destruct (thr t) as [| | |c o|] eqn:Ht;
        [| | |destruct o as [P m rel tm| | |]; [destruct (k_cond (flgptn wf P) m p)| | |]|];
        (match type of E with context [k_release ?a ?b ?d ?x ?y q] =>
             destruct (k_release a b d x y q) as [[[p2 thr2] q2] es2] eqn:E2; injection E as <- <- <- <-;
             apply (X x y) with (p2 := p2) (q2 := q2) (es2 := es2); [|exact E2] end; intros v; try (now left)).
      rewrite fupd_eq. destruct (Nat.eqb_spec v t) as [->|]; [right; rewrite Ht; split; [reflexivity|eauto]|now left].
  Qed.
  Definition fmeasure (n : nat) (s : ifst) : nat := sumn (fun t => fweight (f_thr s t)) n.
  Lemma fmeasure_step n s l s' es' :
    (forall t, (n <= t)%nat -> f_idle s t) -> f_own_step l -> stp s l = Some (s', es') ->
    (forall t, (n <= t)%nat -> f_idle s' t) /\ (fmeasure n s' < fmeasure n s)%nat.
  Proof.
    intros ID OS E.
    assert (U : forall t thr', f_thr s t <> FIdle -> (forall u, u <> t -> thr' u = f_thr s u \/ (is_queued (f_thr s u) = true /\ exists r, thr' u = FRet r)) ->
      (fweight (thr' t) < fweight (f_thr s t))%nat -> f_thr s' = thr' ->
      (forall u, (n <= u)%nat -> f_idle s' u) /\ (fmeasure n s' < fmeasure n s)%nat).
    { intros t thr' NI OT LT E'. assert (Ht : (t < n)%nat) by (destruct (Nat.lt_ge_cases t n) as [|G]; [assumption|elim NI; apply (ID t G)]).
      split.
      - intros u Hu. unfold f_idle. rewrite E'. destruct (OT u ltac:(lia)) as [-> | (Q & _)]; [now apply ID|].
        rewrite (ID u Hu) in Q. discriminate.
      - unfold fmeasure. rewrite E'.
        rewrite (sumn_split n (fun u => fweight (f_thr s u)) t Ht), (sumn_split n (fun u => fweight (thr' u)) t Ht).
        assert (sumn (fun u => if Nat.eqb u t then 0 else fweight (thr' u)) n <= sumn (fun u => if Nat.eqb u t then 0 else fweight (f_thr s u)) n)%nat; [|lia].
        apply sumn_le. intros u _. destruct (Nat.eqb_spec u t); [lia|]. destruct (OT u n0) as [-> | (Q & r & ->)]; [lia|].
        destruct (f_thr s u); try discriminate. cbn. lia. }
    assert (V : forall t q, f_thr s t <> FIdle -> f_thr s' = fupd (f_thr s) t q -> (fweight q < fweight (f_thr s t))%nat ->
      (forall u, (n <= u)%nat -> f_idle s' u) /\ (fmeasure n s' < fmeasure n s)%nat).
    { intros t q NI E' LT. apply (U t (fupd (f_thr s) t q) NI); [|rewrite fupd_same; exact LT|exact E'].
      intros u N. left. now apply fupd_other. }
    destruct l as [t c|t k|t]; [destruct OS| |]; cbn [f_step] in E.
    - destruct (f_thr s t) as [|c|c o|c o|r] eqn:Ht; try discriminate.
      + destruct (if_entry w dbg c); try discriminate; injection E as <- <-;
          (eapply (V t); [congruence|cbn; reflexivity|rewrite Ht; cbn; lia]).
      + destruct o as [P m rel tm|P|P|].
        * destruct (flgptn wf P =? 0); [injection E as <- <-; eapply (V t); [congruence|cbn; reflexivity|rewrite Ht; cbn; lia]|].
          destruct (k_cond (flgptn wf P) m (f_ptn s)); [injection E as <- <-; eapply (V t); [congruence|cbn; reflexivity|rewrite Ht; cbn; lia]|].
          destruct (tm =? 0); injection E as <- <-; (eapply (V t); [congruence|cbn; reflexivity|rewrite Ht; cbn; lia]).
        * destruct (k_release w wf ar (Z.lor (f_ptn s) (flgptn wf P)) (f_thr s) (f_queue s)) as [[[p' thr'] q'] es1] eqn:ER.
          injection E as <- <-. pose proof (release_weight _ _ _ _ _ _ _ ER) as RW.
          apply (U t (fupd thr' t (FRet (ERes OK None)))); [congruence| | |reflexivity].
          -- intros u N. rewrite fupd_other by exact N. apply RW.
          -- rewrite fupd_same, Ht. cbn. lia.
        * cbn [b_step] in E. injection E as <- <-; eapply (V t); [congruence|cbn; reflexivity|rewrite Ht; cbn; lia].
        * injection E as <- <-; eapply (V t); [congruence|cbn; reflexivity|rewrite Ht; cbn; lia].
      + injection E as <- <-; eapply (V t); [congruence|cbn; reflexivity|rewrite Ht; cbn; lia].
    - destruct (f_thr s t) as [|c|c o|c o|r] eqn:Ht; try discriminate. destruct o as [P m rel tm| | |]; try discriminate.
      destruct (tm =? -1); [discriminate|]. injection E as <- <-; eapply (V t); [congruence|cbn; reflexivity|rewrite Ht; cbn; lia].
  Qed.
  Theorem itron_ef_calls_end n s ls s' es' : (forall t, (n <= t)%nat -> f_idle s t) -> (forall l, In l ls -> f_own_step l) ->
    exec stp s ls = Some (s', es') -> (length ls <= 4 * n)%nat.
  Proof.
    intros ID OL E.
    pose proof (exec_measure _ _ _ stp (fun s => forall t, (n <= t)%nat -> f_idle s t) f_own_step (fmeasure n)
      (fun s0 l s1 es1 h o e => fmeasure_step n s0 l s1 es1 h o e) ls s s' es' ID OL E).
    assert (fmeasure n s <= n * 4)%nat by (apply sumn_bound; intros k _; destruct (f_thr s k); cbn; lia). lia.
  Qed.
End Proofs.

(** a history that begins with one complete call by one thread *)
Lemma lin_first_call {C R Sp} (sp : Sp -> nat -> C -> R -> Sp -> Prop) t c r : forall h es g s f s',
  (forall u, g u = Out) -> lin_run sp g s es f s' -> history es = Call t c :: Ret t r :: h ->
  exists s1 g1 es2, sp s t c r s1 /\ lin_run sp g1 s1 es2 f s' /\ history es2 = h /\ forall u, g1 u = Out.
Proof.
  intros h es g s f s' G L H.
  assert (OT : forall es g s f s', lin_run sp g s es f s' -> (forall u, g u = Out) -> history es = Call t c :: Ret t r :: h ->
    exists g1 es1, lin_run sp g1 s es1 f s' /\ history es1 = Ret t r :: h /\ g1 t = Pending c /\ forall u, u <> t -> g1 u = Out).
  { intros es0 g0 s0 f0 s0' L0 G0 H0. inversion L0; subst.
    - discriminate.
    - cbn in H0. injection H0 as -> -> H0. eexists _, _. split; [eassumption|]. split; [exact H0|].
      unfold set_st. rewrite Nat.eqb_refl. split; [reflexivity|]. intros u N. destruct (Nat.eqb_spec u t); [contradiction|apply G0].
    - rewrite G0 in *. discriminate.
    - rewrite G0 in *. discriminate. }
  destruct (OT es g s f s' L G H) as (g1 & es1 & L1 & H1 & P1 & O1). clear OT L H es g G.
  inversion L1; subst.
  - discriminate.
  - cbn in H1. discriminate.
  - cbn in H1. assert (t0 = t). { destruct (Nat.eq_dec t0 t) as [|NE]; [assumption|]. pose proof (O1 _ NE). congruence. } subst t0.
    assert (c0 = c) by congruence. subst c0.
    match goal with h' : lin_run sp (set_st g1 t (Done ?rr)) ?s1 ?es2 f s' |- _ => rename h' into L2; inversion L2; subst end.
    + discriminate.
    + discriminate.
    + match goal with h' : set_st g1 t _ ?u = Pending _ |- _ => unfold set_st in h'; destruct (Nat.eqb_spec u t) as [|NE]; [discriminate|]; pose proof (O1 _ NE); congruence end.
    + cbn in H1. injection H1 as -> -> H1.
      match goal with h' : set_st g1 t _ t = Done _ |- _ => unfold set_st in h'; rewrite Nat.eqb_refl in h'; injection h' as -> end.
      eexists _, _, _. split; [eassumption|]. split; [eassumption|]. split; [exact H1|].
      intros u. unfold set_st. destruct (Nat.eqb_spec u t); [reflexivity|now apply O1].
  - cbn in H1. injection H1 as -> -> H1. rewrite P1 in *. discriminate.
Qed.

(** FLGPTN narrower than unsigned int: a bit beyond it is set with OK and lost *)
Lemma itron_ef_narrow w wf dbg ar pos : 0 < wf <= pos -> pos < w ->
  exists s es, exec (f_step w wf dbg ar) f_init
      [FCall 0 (ESetOne pos); FStep 0 0; FStep 0 0; FStep 0 0; FCall 0 EGet; FStep 0 0; FStep 0 0; FStep 0 0] = Some (s, es) /\
    ~ linearizable (espec w ar) 0 (history es).
Proof.
  intros Hf Hp. assert (Hw : 0 < w) by lia.
  destruct (set_one_ok w Hw dbg pos ltac:(lia)) as (v & EV & Hv & Hb).
  assert (V0 : flgptn wf v = 0).
  { apply Z.bits_inj'. intros i Hi. rewrite Z.bits_0. unfold flgptn. destruct (Z.lt_ge_cases i wf).
    - rewrite Z.mod_pow2_bits_low by lia. rewrite Hb by lia. apply Z.eqb_neq. lia.
    - apply Z.mod_pow2_bits_high. lia. }
  assert (EI : if_entry w dbg (ESetOne pos) = Go (OSet v)).
  { unfold if_entry. change (pat_size w dbg) with w. destruct (Z.leb_spec w pos); [lia|]. rewrite EV. reflexivity. }
  assert (EG : if_entry w dbg EGet = Go OGet) by reflexivity.
  exists (mkF 0 [] (fupd (fupd (fupd (fupd (fupd (fupd (fupd (fupd (fun _ => FIdle) 0%nat (FEntry (ESetOne pos))) 0%nat (FKern (ESetOne pos) (OSet v)))
    0%nat (FRet (ERes OK None))) 0%nat FIdle) 0%nat (FEntry EGet)) 0%nat (FKern EGet OGet)) 0%nat (FRet (EPat (castT w 0)))) 0%nat FIdle)).
  exists [Call 0%nat (ESetOne pos); Eff 0%nat (ESetOne pos) (ERes OK None); Ret 0%nat (ERes OK None); Call 0%nat EGet;
          Eff 0%nat EGet (EPat (castT w 0)); Ret 0%nat (EPat (castT w 0))].
  split.
  - repeat (cbn [exec f_step f_init f_thr f_ptn f_queue f_go f_done k_release app]; rewrite ?fupd_same, ?EI, ?EG, ?V0). reflexivity.
  - cbn [app history filter visible]. intros (es & f & s & H & L).
    destruct (lin_first_call _ _ _ _ _ _ _ _ _ _ (fun _ => eq_refl) L H) as (p1 & g1 & es2 & S1 & L1 & H1 & G1).
    destruct (lin_first_call _ _ _ _ _ _ _ _ _ _ G1 L1 H1) as (p2 & g2 & es3 & S2 & L2 & H2 & G2).
    destruct S2 as (_ & S2 & _). injection S2 as S2.
    destruct S1 as (_ & S1). destruct (Z.ltb_spec pos w); [|lia]. destruct S1 as (_ & S1). specialize (S1 pos ltac:(lia)).
    rewrite Z.eqb_refl in S1. rewrite <- S2 in S1. unfold castT in S1. rewrite Z.mod_0_l, Z.bits_0 in S1 by (apply Z.pow_nonzero; lia). discriminate.
Qed.
