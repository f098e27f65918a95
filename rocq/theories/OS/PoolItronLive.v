(** ThreadPool over the whole Itron stack: nobody waits without a reason. *)
From Coq Require Import List ZArith Bool Lia Arith.
Import ListNotations.
From Verif Require Import Spec.OSError Spec.Linear Spec.EventFlagSpec Spec.MessageQueueSpec Spec.ThreadSpec Spec.ItronThreadSpec OS.Sched OS.MessageQueueModel OS.MessageQueueProofs
  OS.EventFlagModel OS.ItronEventFlagModel OS.ItronMutexModel OS.ItronMutexProofs OS.QueueStackModel OS.QueueStackProofs OS.QueueStackInst Spec.ThreadPoolSpec OS.ThreadPoolModel OS.ThreadPoolProofs
  OS.ThreadPoolLiveness OS.PoolStackModel OS.PoolStackProofs OS.PoolStill OS.PoolWholeModel OS.PoolWholeProofs OS.PoolWholeLive OS.ItronThreadModel OS.ItronThreadProofs OS.PoolItronModel OS.PoolObjects
  OS.PoolItronProofs.
Local Open Scope nat_scope.

(** ** the thread objects *)
Section Thread.
  Variables prio0 minp maxp : Z.
  Variable ext_prio : nat -> Z.
  Notation stp := (n_step prio0 minp maxp ext_prio).
  (** an event the pool always hears *)
  Definition plain (e : event icall ires) : Prop := match e with Call _ _ => False | Eff _ _ _ => True | Ret _ r => exists v, r = IR v end.
  Lemma caller_plain T t T' es : zgood T -> stp T (NStep t) = Some (T', es) -> forall e, In e es -> plain e.
  Proof.
    intros G. pose proof (zg_tk T G t) as K. intros S e He. cbn [n_step] in S. unfold n_is_finished in S.
    destruct (n_thr T t) as [|c|c|c| | | | | |[r|]| |c|c|c| |r] eqn:X; cbn [tk] in K; try contradiction; try discriminate;
      try (destruct K as (v & ->)); subst;
      repeat (match type of S with match ?b with _ => _ end = _ => destruct b end; try discriminate); injection S as _ <-; cbn [In] in He; intuition (subst; cbn; eauto).
  Qed.
  (** no caller of the object can move: it sleeps in twai_flg, or polls a task that is not dormant *)
  Lemma caller_stuck T u : zgood T -> (forall t, stp T (NStep t) = None) ->
    n_thr T u = IIdle \/ (exists ms, n_thr T u = IQue (IT (TWait ms)) /\ n_fin T = false) \/ (exists ms, n_thr T u = IPoll (IT (TWait ms)) /\ n_dormant T = false).
  Proof.
    intros G ST. destruct G as [SI Z0 TK].
    assert (NH : forall t, holds (n_thr T t) = false) by (intros t; destruct (holds (n_thr T t)) eqn:H; [|reflexivity]; now elim (holder_moves prio0 minp maxp ext_prio T t SI H)).
    assert (NS : forall t, starting (n_thr T t) = false) by (intros t; destruct (starting (n_thr T t)) eqn:H; [|reflexivity]; now elim (starter_moves prio0 minp maxp ext_prio T t SI H)).
    assert (MX : n_mtx T = None) by (destruct (n_mtx T) as [t|] eqn:M; [|reflexivity]; apply (si_mtx T SI) in M; rewrite NH in M; discriminate).
    pose proof (TK u) as K. pose proof (si_pc T SI u) as PC. pose proof (NH u) as Hu. pose proof (NS u) as Su. specialize (ST u). cbn [n_step] in ST. rewrite MX in ST.
    destruct (n_thr T u) as [|c|c|c| | | | | |r| |c|c|c| |r] eqn:X; cbn [tk] in K; try contradiction; try discriminate.
    - now left.
    - subst c. discriminate.
    - subst c. discriminate.
    - subst c. discriminate.
    - destruct K as (ms & ->). exfalso. destruct (n_task T); try discriminate; destruct (ms <? -1)%Z; try discriminate; destruct (n_fin T); try discriminate; destruct (ms =? 0)%Z; discriminate.
    - destruct K as (ms & ->). right. left. exists ms. split; [reflexivity|]. exact (proj2 PC).
    - destruct K as (ms & ->). right. right. exists ms. split; [reflexivity|]. destruct (n_dormant T); [discriminate|reflexivity].
  Qed.
End Thread.

Section L.
  Variable N : nat.
  Hypothesis HN : (Z.of_nat N < 2 ^ 64 - 1)%Z.
  Variable dflt : Z.
  Variable ext_prio : nat -> Z.
  Variables minp maxp : Z.
  Variables w wf : Z.
  Hypothesis Hw : (2 <= w)%Z.
  Hypothesis Hwf : (w <= wf)%Z.
  Variable dbg : bool.
  Notation size := (Z.of_nat N).
  Let HM : (0 <= size < 2 ^ 64 - 1)%Z.
  Proof. lia. Qed.
  Let w0 : (0 < w)%Z.
  Proof. lia. Qed.
  Notation pstep := (p_step N dflt ext_prio).
  Notation zstep := (z_step N dflt ext_prio minp maxp w wf dbg).
  Notation nstep := (n_step dflt minp maxp ext_prio).
  Notation qstep := (q_step nat size).
  Notation zsim := (zsim N dflt ext_prio w).

  Definition tasks_ok (s : zst) : Prop := forall r, N <= r -> z_thread s r = n_init dflt.
  Lemma tasks_step s l s' o : tasks_ok s -> zstep s l = Some (s', o) -> tasks_ok s'.
  Proof.
    intros H E. destruct l as [l|l|r l|r l]; cbn [z_step] in E.
    - destruct (local (z_pool s) l); [|discriminate]. destruct (pstep (z_pool s) l) as [[P es]|]; [|discriminate]. injection E as <- <-. exact H.
    - destruct (itr_step nat size w wf dbg (z_queue s) l) as [[c es]|]; [|discriminate]. destruct (hears _ _ es) as [[P o1]|]; [|discriminate]. injection E as <- <-. exact H.
    - destruct (Nat.ltb_spec r N) as [LT|]; [|discriminate]. destruct (nstep (z_thread s r) l) as [[T es]|] eqn:ST; [|discriminate]. destruct (hears _ _ es) as [[P o1]|]; [|discriminate]. injection E as <- <-.
      intros u Hu. cbn. rewrite fupd_eq. destruct (Nat.eqb_spec u r) as [->|]; [lia|now apply H].
    - destruct (f_step w wf dbg false (z_flag s r) l) as [[e es]|]; [|discriminate]. destruct (hears _ _ es) as [[P o1]|]; [|discriminate]. injection E as <- <-. exact H.
  Qed.
  Lemma tasks_exec ls : forall s s' o, tasks_ok s -> exec zstep s ls = Some (s', o) -> tasks_ok s'.
  Proof.
    induction ls as [|l ls IH]; intros s s' o H E; cbn in E; [injection E as <- <-; exact H|].
    destruct (zstep s l) as [[s1 o1]|] eqn:S; [|discriminate]. destruct (exec zstep s1 ls) as [[s2 o2]|] eqn:X; [|discriminate]. injection E as <- <-.
    eapply IH; [|exact X]. eapply tasks_step; eassumption.
  Qed.

  Section Still.
    Variables (s : zst) (A : pst) (Q : qst nat).
    Hypothesis WS : zsim s A Q.
    Hypothesis TO : tasks_ok s.
    Hypothesis ST : forall l, z_moves l -> zstep s l = None.
    Hypothesis HOLD : forall t k r x ms g p, p_thr (z_pool s) t = PHold k r x ms g p -> r < N.
    Notation P := (z_pool s).
    Notation T := (z_thread s).
    Notation E := (z_flag s).
    Let I : inv N w P (z_th s) (z_fl s).
    Proof. exact (zs_inv _ _ _ _ _ _ _ WS). Qed.
    Let RL : rel P (z_th s) (z_fl s) A.
    Proof. exact (zs_rel _ _ _ _ _ _ _ WS). Qed.
    Let G r : zgood (T r).
    Proof. exact (zs_good _ _ _ _ _ _ _ WS r). Qed.

    Lemma zflag_still r : forall t, ie_ph (E r) t = Out \/ exists c X, ie_ph (E r) t = Pending c /\ econd w c = Some X /\ ~ X (f_ptn (E r)).
    Proof.
      apply (ie_stuck w wf w0 dbg (E r) (zs_flag _ _ _ _ _ _ _ WS r)). intros l e' es PR EE.
      destruct (has_call es) as [(t & c & C)|NC]; [exists t, c; exact (ie_call_one w wf dbg _ _ _ _ _ _ EE C)|]. exfalso.
      destruct (PoolWholeLive.flag_heard N r P es NC) as (P' & o & H). specialize (ST (ZFlag r l)). cbn [z_step] in ST. rewrite EE, H in ST.
      enough (Some (mkZ P' (z_queue s) T (fupd E r e'), o) = None) by discriminate. apply ST. destruct l; cbn in PR |- *; tauto.
    Qed.
    Lemma zflag_not_done r t : fl_done (z_fl s) r t = None.
    Proof. unfold fl_done, z_fl, absF. cbn. destruct (zflag_still r t) as [-> |(c & X & -> & _)]; reflexivity. Qed.
    Lemma zflag_called r t c : wants_flag N P t = Some (r, c) -> exists X, ie_ph (E r) t = Pending c /\ econd w c = Some X /\ ~ X (f_ptn (E r)).
    Proof.
      intros W. destruct (zflag_still r t) as [O|(c' & X & PE & H)].
      - exfalso. destruct (ie_can_call w wf dbg (E r) t c O) as (l & e' & PR & EE). specialize (ST (ZFlag r l)). cbn [z_step] in ST. rewrite EE in ST. cbn [hears hear_flag] in ST. rewrite W, Nat.eqb_refl in ST.
        destruct (PoolWholeModel.ecall_dec c c); [|congruence]. cbn in ST. enough (Some (mkZ P (z_queue s) T (fupd E r e'), @nil (event pcall pres)) = None) by discriminate. apply ST. destruct l; cbn in PR |- *; tauto.
      - pose proof (iv_fl _ _ _ _ _ I r t) as F. unfold z_fl, absF in F. cbn in F. rewrite PE in F. cbn in F. assert (c' = c) as -> by congruence. exists X. auto.
    Qed.
    Lemma ztask_move r l Tr es : r < N -> z_moves (ZThread r l) -> nstep (T r) l = Some (Tr, es) -> (exists P' o, hears (hear_task r) P es = Some (P', o)) -> False.
    Proof. intros LT MV SR (P' & o & H). specialize (ST (ZThread r l) MV). cbn [z_step] in ST. apply Nat.ltb_lt in LT. rewrite LT, SR, H in ST. discriminate. Qed.
    Lemma zcallers r t : r < N -> nstep (T r) (NStep t) = None.
    Proof.
      intros LT. destruct (nstep (T r) (NStep t)) as [[Tr es]|] eqn:SR; [|reflexivity]. exfalso. apply (ztask_move r (NStep t) Tr es LT Logic.I SR).
      apply hears_some. intros e P1 Hin. pose proof (caller_plain _ _ _ _ _ _ _ _ (G r) SR e Hin) as Pe. destruct e as [u c|u c v|u v]; cbn in Pe; [contradiction|cbn; eauto|].
      destruct Pe as (v' & ->). cbn. destruct u; eauto.
    Qed.
    Lemma zthread_not_done r t : th_done (z_th s) r t = None.
    Proof.
      unfold th_done, z_th, absI. cbn [h_ph]. destruct (Nat.lt_ge_cases r N) as [LT|GE]; [|rewrite (TO r GE); reflexivity].
      destruct (caller_stuck dflt minp maxp ext_prio (T r) (S t) (G r) (fun u => zcallers r u LT)) as [-> |[(ms & -> & _)|(ms & -> & _)]]; reflexivity.
    Qed.
    (** a thread that wants to use a Thread object waits for the end of its task *)
    Lemma zthread_called r t c : r < N -> wants_thread P t = Some (r, c) -> abs_st (T r) <> HOff /\ exists ms, c = TWait ms.
    Proof.
      intros LT W. pose proof (iv_th _ _ _ _ _ I r (S t)) as F. unfold z_th, absI in F. cbn [h_ph] in F. pose proof (si_task _ (zg_inv _ (G r))) as TK.
      assert (CC : c = TStart \/ exists ms, c = TWait ms) by (unfold wants_thread in W; destruct (p_thr P t) as [| |[| | | |]| |]; try discriminate; injection W as <- <-; eauto).
      destruct (caller_stuck dflt minp maxp ext_prio (T r) (S t) (G r) (fun u => zcallers r u LT)) as [X|[(ms & X & FI)|(ms & X & DO)]]; rewrite X in F; cbn in F.
      - exfalso. assert (EN : exists q, n_entry (S t) (IT c) = Some q) by (destruct CC as [-> |(ms & ->)]; cbn; eauto). destruct EN as (q & EN).
        eapply (ztask_move r (NCall (S t) (IT c))); [exact LT|exact Logic.I|cbn [n_step]; rewrite X, EN; reflexivity|]. cbn [hears hear_task hear_thread]. rewrite W, Nat.eqb_refl. destruct (tcall_dec c c); [cbn; eauto|congruence].
      - destruct F as (t' & X1 & X2). injection X1 as <-. assert (TWait ms = c) as <- by congruence. split; [|eauto]. unfold abs_st. rewrite FI. destruct (n_task (T r)); cbn in TK; try contradiction; discriminate.
      - destruct F as (t' & X1 & X2). injection X1 as <-. assert (TWait ms = c) as <- by congruence. split; [|eauto]. unfold abs_st. unfold n_dormant in DO. destruct (n_task (T r)); cbn in TK; try contradiction; discriminate.
    Qed.
    Lemma zthr_same t : p_thr A t = p_thr P t /\ forall i, p_guard A t i = p_guard P t i.
    Proof.
      split.
      - rewrite (rl_thr _ _ _ _ RL t). unfold abs_thr. destruct (p_thr P t) as [|[]|[] r x ms g p|[|] r g|] eqn:PT; try reflexivity.
        + destruct (p_guard P t g); [|reflexivity]. now rewrite zflag_not_done.
        + destruct (p_guard P t g); [|reflexivity]. now rewrite zflag_not_done.
        + now rewrite zthread_not_done.
        + now rewrite zthread_not_done.
        + now rewrite zflag_not_done.
      - intros i. rewrite (rl_guard _ _ _ _ RL t i). unfold abs_guard. destruct (p_thr P t) as [|[]|[] r x ms [g|] p|[|] r g|] eqn:PT; try reflexivity. now rewrite zthread_not_done.
    Qed.
    Lemma zqueue_still : forall t, qstep Q (QStep t) = None.
    Proof.
      destruct (zs_q _ _ _ _ _ _ _ WS) as (qe & HQ).
      refine (stack_still nat size 1 w Hw _ _ _ _ _ _ im_good im_ph iabs im_nofail (ie_good w) ie_ph f_ptn (fun ms => (-1 <= ms)%Z) true
        im_call_one (ie_call_one w wf dbg) (im_ok 1) (itr_e_ok w wf Hw Hwf dbg) im_prog ie_prog im_ret_one (ie_ret_one w wf dbg) _ im_can_call
        (ie_can_call w wf dbg) im_stuck (ie_stuck w wf w0 dbg) (z_queue s) Q qe (zs_s _ _ _ _ _ _ _ WS) HQ _).
      - intros [ | | |]; cbn; auto.
      - intros l PR. assert (MV : z_moves (ZQueue l)) by (destruct l as [t c|t|o l|l|t b]; cbn in PR; try contradiction; [exact Logic.I|destruct l; cbn in *; tauto|destruct l; cbn in *; tauto]).
        specialize (ST _ MV). cbn [z_step] in ST. unfold itr_step in ST.
        match type of ST with match ?x with _ => _ end = _ => destruct x as [[c es]|] eqn:CS; [|reflexivity] end. exfalso.
        destruct (hears_some (hear_queue N) es) with (P := P) as (P' & o & H); [|rewrite H in ST; discriminate].
        intros e P1 Hin. destruct e as [t d|t d v|t v]; cbn; [|eauto|eauto]. exfalso.
        destruct l as [u d'|u|o' l|l|u b]; cbn in PR; try contradiction; cbn [c_step] in CS.
        + destruct (c_thr (z_queue s) u) as [|[] ? []|]; try discriminate; injection CS as <- <-; try (now destruct Hin); destruct Hin as [Y|[]]; discriminate.
        + match type of CS with match ?x with _ => _ end = _ => destruct x as [[? ?]|]; [|discriminate] end. destruct (hear _ _ _ _); [|discriminate]. injection CS as <- <-. destruct Hin.
        + match type of CS with match ?x with _ => _ end = _ => destruct x as [[? ?]|]; [|discriminate] end. destruct (hear _ _ _ _); [|discriminate]. injection CS as <- <-. destruct Hin.
    Qed.
    Lemma zqueue_called t : q_thr Q t = QIdle -> wants N P t = None.
    Proof.
      intros QI. destruct (wants N P t) as [c|] eqn:W; [|reflexivity]. exfalso. specialize (ST (ZQueue (CCall t c)) Logic.I). cbn [z_step] in ST. unfold itr_step in ST. cbn [c_step] in ST.
      pose proof (r_thr _ _ _ _ _ _ _ _ _ (s_r _ _ _ _ _ _ _ _ _ _ _ _ _ (zs_s _ _ _ _ _ _ _ WS)) t) as R.
      destruct (c_thr (z_queue s) t) as [|g d p|g d p] eqn:C.
      - cbn [hears hear_queue] in ST. rewrite W in ST. destruct (qcall_dec c c); [discriminate|congruence].
      - cbn in R. congruence.
      - cbn in R. rewrite QI in R. destruct (uses g d p) as [[? ?|?]|]; [destruct (im_ph (c_mtx (z_queue s) o) t)|destruct (ie_ph (c_ev (z_queue s)) t)|]; discriminate.
    Qed.
    Lemma zstep_still t : on_queue A (XStep t) = false -> pstep A (XStep t) = None.
    Proof.
      intros OQ. destruct (zthr_same t) as (TE & GE). cbn [on_queue p_step] in *. rewrite TE in *.
      assert (LOC : local P (XStep t) = true -> pstep P (XStep t) <> None -> False).
      { intros LO NN. specialize (ST (ZPool (XStep t)) Logic.I). cbn [z_step] in ST. rewrite LO in ST. destruct (pstep P (XStep t)) as [[? ?]|]; [discriminate|congruence]. }
      cbn [local p_step] in LOC.
      assert (EV : forall r ms, wants_flag N P t = Some (r, EWaitAny (Within ms)) -> p_ev A r = false).
      { intros r ms W. destruct (zflag_called r t _ W) as (X & _ & EC & NX). rewrite (rl_ev _ _ _ _ RL r). unfold z_fl, absF. cbn. destruct (Z.eqb_spec (f_ptn (E r)) 0) as [Z0|NZ]; [reflexivity|]. exfalso. cbn in EC. injection EC as <-. apply NX.
        refine (proj2 (PoolObjects.pat_any N w _ _) NZ). exact (iv_pat _ _ _ _ _ I r). }
      destruct (p_thr P t) as [|[x ms g p|g ms|g|g|x q|x th]|[| | | |] r x ms g p|[|] r g|v] eqn:PT; try reflexivity; try discriminate; try (exfalso; apply LOC; [reflexivity|discriminate]).
      - (* a start with no task *) destruct (x =? 0) eqn:X0; [|discriminate]. exfalso. apply LOC; [reflexivity|discriminate].
      - (* wait *) rewrite GE. destruct (p_guard P t g) as [r|] eqn:GU; [|exfalso; apply LOC; [reflexivity|discriminate]].
        rewrite (EV r ms); [reflexivity|]. unfold wants_flag. now rewrite PT, GU.
      - (* release *) rewrite GE. destruct (p_guard P t g) as [r|] eqn:GU; [|exfalso; apply LOC; [reflexivity|discriminate]].
        rewrite (EV r (-1)%Z); [reflexivity|]. unfold wants_flag. now rewrite PT, GU.
      - (* wait for the thread *) destruct (zthread_called r t (TWait ms)) as (AC & _); [exact (HOLD _ _ _ _ _ _ _ PT)|unfold wants_thread; now rewrite PT|].
        destruct (p_run A r) eqn:PR; try reflexivity. apply (off_off _ _ _ _ _ _ r I RL) in PR. unfold z_th in PR. cbn in PR. congruence.
      - (* start *) exfalso. destruct (zthread_called r t TStart) as (_ & ms' & X); [exact (HOLD _ _ _ _ _ _ _ PT)|unfold wants_thread; now rewrite PT|discriminate].
      - (* resetAll *) exfalso. destruct (zflag_called r t EResetAll) as (X & _ & EC & _); [unfold wants_flag; now rewrite PT|discriminate].
    Qed.
    (** a task that is on its way to or from threadMain moves *)
    Lemma zmoving r : r < N -> abs_st (T r) = HStarted \/ abs_st (T r) = HEnding -> False.
    Proof.
      intros LT H. pose proof (G r) as [SI Z0 TK]. pose proof (si_task _ SI) as TO'. pose proof (si_wit _ SI) as WI.
      assert (NS : (exists t, starting (n_thr (T r) t) = true) -> False) by (intros (t & X); exact (starter_moves dflt minp maxp ext_prio _ t SI X (zcallers r t LT))).
      unfold abs_st in H. destruct (n_task (T r)) eqn:TN; cbn in TO'; try contradiction.
      - destruct (n_fin (T r)) eqn:FI; [destruct H; discriminate|]. apply NS, WI. auto.
      - destruct (n_st (T r)) eqn:NST; [|apply NS, WI; auto]. eapply (ztask_move r NTask); [exact LT|exact Logic.I|cbn [n_step]; rewrite TN, NST; reflexivity|cbn; eauto].
      - eapply (ztask_move r NTask); [exact LT|exact Logic.I|cbn [n_step]; rewrite TN; reflexivity|cbn; eauto].
      - destruct H; discriminate.
      - eapply (ztask_move r NTask); [exact LT|exact Logic.I|cbn [n_step]; rewrite TN; reflexivity|cbn; eauto].
      - eapply (ztask_move r NTask); [exact LT|exact Logic.I|cbn [n_step]; rewrite TN; reflexivity|cbn; eauto].
    Qed.
    Lemma zrun_still r : on_queue A (XRun r) = false -> pstep A (XRun r) = None.
    Proof.
      intros OQ. destruct (Nat.lt_ge_cases r N) as [LT|GE].
      2:{ cbn [p_step]. rewrite (rl_run _ _ _ _ RL r). unfold abs_run, z_th. now rewrite (TO r GE). }
      assert (LOC : local P (XRun r) = true -> pstep P (XRun r) <> None -> False).
      { intros LO NN. specialize (ST (ZPool (XRun r)) Logic.I). cbn [z_step] in ST. rewrite LO in ST. destruct (pstep P (XRun r)) as [[? ?]|]; [discriminate|congruence]. }
      cbn [local p_step] in LOC. cbn [on_queue] in OQ.
      cbn [p_step]. rewrite (rl_run _ _ _ _ RL r) in *. unfold abs_run in *. pose proof (iv_nat _ _ _ _ _ I r) as NK. unfold nat_ok in NK.
      assert (MV := zmoving r LT). change (h_st (z_th s r)) with (abs_st (T r)) in *.
      destruct (abs_st (T r)) eqn:TN.
      - reflexivity.
      - exfalso. apply MV. now left.
      - destruct NK as (NK1 & NK2). clear MV.
        assert (FL : forall c, wants_flag N P r = Some (r, c) -> econd w c = None -> False).
        { intros c W EC. destruct (zflag_called r r c W) as (X & _ & EC' & _). congruence. }
        assert (PI : forall x, p_run P r = x -> x <> WIn -> p_thr P r = PIdle) by (intros x PR NI; apply (iv_idle _ _ _ _ _ I r LT); congruence).
        assert (LTB : (r <? N) = true) by (now apply Nat.ltb_lt).
        assert (KR : n_task (T r) = KRun) by (unfold abs_st in TN; destruct (n_task (T r)); try discriminate; [destruct (n_fin (T r)); discriminate|reflexivity]).
        destruct (p_run P r) as [| | | |[] th|] eqn:PR; try reflexivity; try contradiction.
        + exfalso. apply LOC; [reflexivity|]. destruct (p_task P r =? 0); discriminate.
        + exfalso. apply LOC; [reflexivity|discriminate].
        + exfalso. apply LOC; [reflexivity|discriminate].
        + exfalso. apply (FL ESetAll); [unfold wants_flag; rewrite (PI _ eq_refl) by discriminate; now rewrite LTB, PR|reflexivity].
        + exfalso. apply (FL EResetAll); [unfold wants_flag; rewrite (PI _ eq_refl) by discriminate; now rewrite LTB, PR|reflexivity].
        + discriminate.
        + exfalso. eapply (ztask_move r NTask); [exact LT|exact Logic.I|cbn [n_step]; rewrite KR, (zg_zero _ (G r)); reflexivity|]. cbn. rewrite PR. eauto.
      - exfalso. apply MV. now right.
    Qed.
    Lemma itron_still : t_still N dflt ext_prio (PoolStackModel.mkT A Q).
    Proof.
      split; [exact zqueue_still|]. split; [|split; [exact zstep_still|exact zrun_still]].
      intros t QI. cbn in QI |- *. pose proof (zqueue_called t QI) as WN. unfold wants in WN |- *. rewrite (proj1 (zthr_same t)).
      destruct (p_thr P t) as [|[]|?|[|] ? ?|] eqn:PT; try reflexivity; try exact WN. destruct (t <? N) eqn:LT; [|reflexivity].
      rewrite (rl_run _ _ _ _ RL t). unfold abs_run. rewrite zflag_not_done.
      destruct (h_st (z_th s t)); try reflexivity. destruct (p_run P t) as [| | | |[] th|]; try reflexivity. exact WN.
    Qed.
  End Still.

  Theorem itron_waits c0 ls s o : z_filled N w wf dbg c0 -> (forall l, In l ls -> z_calm l) -> exec zstep (z_init dflt c0) ls = Some (s, o) ->
    (forall l, z_moves l -> zstep s l = None) ->
    exists ew f sg lost, explains N ext_prio o ew f sg /\ length lost <= count_eff timed_out (effects ew) /\ forall t,
    z_idle s t \/
    (exists x ms g p, p_thr (z_pool s) t = PAt (PStart x ms g p) /\
       forall r, r < N -> In r lost \/ p_run (z_pool s) r = WIn \/ exists t' g', p_guard (z_pool s) t' g' = Some r) \/
    (exists g r, ((exists ms, p_thr (z_pool s) t = PAt (PWait g ms)) \/ p_thr (z_pool s) t = PAt (PRelease g)) /\ r < N /\ p_guard (z_pool s) t g = Some r /\ p_run (z_pool s) r = WIn).
  Proof.
    intros F CA EX ST. destruct (itron_pool_explained N HN dflt ext_prio minp maxp w wf Hw Hwf dbg c0 ls s o F CA EX) as (ew & f & sg & A & Q & es & Ls & q0 & a & ls' & EE & WS & LA & F0 & X & EA & SA).
    assert (TO : tasks_ok s). { eapply tasks_exec; [|exact EX]. intros r _. reflexivity. }
    destruct (reach N dflt ext_prio ls' a es EA) as (own & _ & _ & H & _).
    assert (HOLD : forall t k r x ms g p, p_thr (z_pool s) t = PHold k r x ms g p -> r < N).
    { intros t k r x ms g p PT. assert (QI : q_thr Q t = QIdle) by (apply (inq_idle N (z_pool s) Q t (zs_inq _ _ _ _ _ _ _ WS)); unfold wants; now rewrite PT).
      destruct (agree_thr N _ _ t SA QI) as (E1 & _). cbn in E1. rewrite (rl_thr _ _ _ _ (zs_rel _ _ _ _ _ _ _ WS) t) in E1. unfold abs_thr in E1. rewrite PT in E1.
      rewrite (zthread_not_done s A Q WS TO ST r t) in E1.
      assert (E2 : p_thr a t = PHold k r x ms g p) by (destruct k; exact E1). exact (proj1 (held_by N dflt ext_prio a own t k r x ms g p H E2)). }
    assert (SAME := zthr_same s A Q WS TO ST).
    assert (WIN : forall r, p_run A r = WIn -> p_run (z_pool s) r = WIn).
    { intros r. rewrite (rl_run _ _ _ _ (zs_rel _ _ _ _ _ _ _ WS) r). unfold abs_run. destruct (h_st (z_th s r)); try discriminate.
      destruct (p_run (z_pool s) r) as [| | | |[] th|]; try discriminate; try reflexivity; destruct (fl_done (z_fl s) r r); discriminate. }
    destruct (stack_still_waits N HN dflt ext_prio q0 Ls _ es F0 X (itron_still s A Q WS TO ST HOLD)) as (lost & LL & W).
    exists ew, f, sg, lost. split; [exact EE|]. split; [now rewrite (late_effects _ _ _ _ LA)|]. intros t. unfold z_idle. unfold PoolStackModel.t_idle in W. cbn in W.
    destruct (W t) as [ID|[(x & ms & g & p & PT & LO)|(g & r & PT & LT & GU & RU)]]; rewrite ?(proj1 (SAME t)) in *.
    - now left.
    - right. left. exists x, ms, g, p. split; [exact PT|]. intros r Hr. destruct (LO r Hr) as [Y|[Y|(t' & g' & Y)]]; [now left|right; left; now apply WIN|]. right. right. exists t', g'. now rewrite <- (proj2 (SAME t') g').
    - right. right. exists g, r. rewrite (proj2 (SAME t) g) in GU. split; [exact PT|]. split; [exact LT|]. split; [exact GU|]. now apply WIN.
  Qed.
End L.
