(** ThreadPool over the whole StdCpp stack: nobody waits without a reason. *)
From Coq Require Import List ZArith Bool Lia Arith.
Import ListNotations.
From Verif Require Import Spec.OSError Spec.Linear Spec.EventFlagSpec Spec.MessageQueueSpec Spec.ThreadSpec OS.Sched OS.MessageQueueModel OS.MessageQueueProofs
  OS.EventFlagModel OS.EventFlagProofs OS.MutexModel OS.QueueStackModel OS.QueueStackProofs OS.QueueStackInst Spec.ThreadPoolSpec OS.ThreadPoolModel OS.ThreadPoolProofs
  OS.ThreadPoolLiveness OS.PoolStackModel OS.PoolStackProofs OS.PoolStill OS.ThreadModel OS.PoolWholeModel OS.PoolWholeProofs.
Local Open Scope nat_scope.

(** ** the thread objects *)
Definition sleep_ok (T : ThreadModel.tst) : Prop := forall u c, t_thr T u = TAsleep c -> t_active T = true /\ (c = TDestroy \/ exists ms, c = TWait ms).
Lemma sleep_step T l T' es : sleep_ok T -> t_step T l = Some (T', es) -> sleep_ok T'.
Proof.
  intros H E.
  assert (GO : forall a e n t q, (forall u c, u <> t -> t_thr T u = TAsleep c -> a = true) -> (forall c, q = TAsleep c -> a = true /\ (c = TDestroy \/ exists ms, c = TWait ms)) ->
    sleep_ok (ThreadModel.mkT a e n (fupd (t_thr T) t q))).
  { intros a e n t q A1 A2 u c. cbn. rewrite fupd_eq. destruct (Nat.eqb_spec u t) as [->|NE]; [exact (A2 c)|]. intros X. split; [exact (A1 u c NE X)|]. exact (proj2 (H u c X)). }
  assert (KEEP : forall t u c, u <> t -> t_thr T u = TAsleep c -> t_active T = true) by (intros t u c _ X; exact (proj1 (H u c X))).
  destruct l as [t c|t|t|t| |]; cbn [t_step] in E.
  - destruct (t_thr T t); try discriminate. destruct (client_call c && negb (t =? 0)); [|discriminate]. injection E as <- <-. apply GO; [apply KEEP|discriminate].
  - destruct (t_thr T t) as [|[ |ms| | | |]|c| | |v]; try discriminate; try (injection E as <- <-; apply GO; [apply KEEP|discriminate]).
    + destruct (t_active T) eqn:A; injection E as <- <-; apply GO; auto; try discriminate.
    + destruct (t_active T) eqn:A; injection E as <- <-; apply GO; rewrite ?A; auto; try discriminate; try (apply KEEP).
      all: intros c X; injection X as <-; eauto.
    + destruct (t_active T) eqn:A; injection E as <- <-; apply GO; rewrite ?A; auto; try discriminate; try (apply KEEP).
      all: intros c X; injection X as <-; eauto.
    + injection E as <- <-. apply GO; [auto|discriminate].
    + destruct (t_nat T); try discriminate. injection E as <- <-. apply GO; [apply KEEP|discriminate].
  - destruct (t_thr T t) as [| |[ |ms| | | |]| | |]; try discriminate. destruct (ms =? -1)%Z; [discriminate|]. destruct (t_active T) eqn:A; injection E as <- <-; apply GO; rewrite ?A; auto; try discriminate; try apply KEEP.
  - destruct (t_thr T t); try discriminate. injection E as <- <-. apply GO; [apply KEEP|discriminate].
  - destruct (t_nat T) eqn:NA; try discriminate.
    + destruct (t_active T) eqn:A; [destruct (t_end T)|]; injection E as <- <-; intros u c X; cbn in *; destruct (H u c X); split; congruence || assumption.
    + injection E as <- <-. intros u c X. cbn in *. exact (H u c X).
    + injection E as <- <-. intros u c X. cbn in X. destruct (t_thr T u); discriminate.
  - destruct (t_nat T); try discriminate. injection E as <- <-. intros u c X. cbn in *. exact (H u c X).
Qed.

Section L.
  Variable N : nat.
  Hypothesis HN : (Z.of_nat N < 2 ^ 64 - 1)%Z.
  Variable dflt : Z.
  Variable ext_prio : nat -> Z.
  Variable M : nat.
  Hypothesis HM1 : 1 <= M.
  Variable w : Z.
  Hypothesis Hw : (2 <= w)%Z.
  Variable dbg : bool.
  Notation size := (Z.of_nat N).
  Let HM : (0 <= size < 2 ^ 64 - 1)%Z.
  Proof. lia. Qed.
  Let w0 : (0 < w)%Z.
  Proof. lia. Qed.
  Notation pstep := (p_step N dflt ext_prio).
  Notation wstep := (w_step N dflt ext_prio M w dbg).
  Notation qstep := (q_step nat size).
  Notation wsim := (wsim N w).

  Definition threads_ok (s : wst) : Prop := forall r, sleep_ok (w_thread s r) /\ (N <= r -> w_thread s r = ThreadModel.t_init).
  Lemma threads_step s l s' o : threads_ok s -> wstep s l = Some (s', o) -> threads_ok s'.
  Proof.
    intros H E. destruct l as [l|l|r l|r l]; cbn [w_step] in E.
    - destruct (local (w_pool s) l); [|discriminate]. destruct (pstep (w_pool s) l) as [[P es]|]; [|discriminate]. injection E as <- <-. exact H.
    - destruct (std_step nat size M w dbg (w_queue s) l) as [[c es]|]; [|discriminate]. destruct (hears _ _ es) as [[P o1]|]; [|discriminate]. injection E as <- <-. exact H.
    - destruct (Nat.ltb_spec r N) as [LT|]; [|discriminate]. destruct (t_step (w_thread s r) l) as [[T es]|] eqn:ST; [|discriminate]. destruct (hears _ _ es) as [[P o1]|]; [|discriminate]. injection E as <- <-.
      intros u. cbn. rewrite fupd_eq. destruct (Nat.eqb_spec u r) as [->|]; [|apply H]. split; [eapply sleep_step; [apply H|exact ST]|lia].
    - destruct (e_step w dbg false (w_flag s r) l) as [[e es]|]; [|discriminate]. destruct (hears _ _ es) as [[P o1]|]; [|discriminate]. injection E as <- <-. exact H.
  Qed.
  Lemma threads_exec ls : forall s s' o, threads_ok s -> exec wstep s ls = Some (s', o) -> threads_ok s'.
  Proof.
    induction ls as [|l ls IH]; intros s s' o H E; cbn in E; [injection E as <- <-; exact H|].
    destruct (wstep s l) as [[s1 o1]|] eqn:S; [|discriminate]. destruct (exec wstep s1 ls) as [[s2 o2]|] eqn:X; [|discriminate]. injection E as <- <-.
    eapply IH; [|exact X]. eapply threads_step; eassumption.
  Qed.

  (** what is not a call is always heard *)
  Lemma hears_some {X : Type} (h : pst -> X -> option (pst * list (event pcall pres))) es : (forall e P, In e es -> exists P' o, h P e = Some (P', o)) -> forall P, exists P' o, hears h P es = Some (P', o).
  Proof.
    induction es as [|e es IH]; intros H P; [cbn; eauto|]. cbn. destruct (H e P (or_introl eq_refl)) as (P1 & o1 & ->).
    destruct (IH (fun e' P' hin => H e' P' (or_intror hin)) P1) as (P2 & o2 & ->). eauto.
  Qed.
  Lemma flag_heard r P es : (forall t c, ~ In (Call t c) es) -> exists P' o, hears (hear_flag N r) P es = Some (P', o).
  Proof.
    intros NC. apply hears_some. intros e P1 Hin. destruct e as [t c|t c v|t v]; [now elim (NC t c)| |]; cbn; [eauto|]. destruct (resume_flag P1 t v). eauto.
  Qed.
  Lemma has_call {C R : Type} (es : list (event C R)) : (exists t c, In (Call t c) es) \/ forall t c, ~ In (Call t c) es.
  Proof.
    induction es as [|e es IH]; [right; intros t c []|]. destruct e as [t c|t c v|t v].
    - left. exists t, c. now left.
    - destruct IH as [(u & d & X)|X]; [left; exists u, d; now right|right]. intros u d [Y|Y]; [discriminate|exact (X u d Y)].
    - destruct IH as [(u & d & X)|X]; [left; exists u, d; now right|right]. intros u d [Y|Y]; [discriminate|exact (X u d Y)].
  Qed.

  Section Still.
    Variables (s : wst) (A : pst) (Q : qst nat).
    Hypothesis WS : wsim s A Q.
    Hypothesis TO : threads_ok s.
    Hypothesis ST : forall l, w_moves l -> wstep s l = None.
    Hypothesis HOLD : forall t k r x ms g p, p_thr (w_pool s) t = PHold k r x ms g p -> r < N.
    Notation P := (w_pool s).
    Notation T := (w_thread s).
    Notation E := (w_flag s).
    Let I : inv N w P T E.
    Proof. exact (ws_inv _ _ _ _ _ WS). Qed.
    Let RL : rel P T E A.
    Proof. exact (ws_rel _ _ _ _ _ WS). Qed.

    Lemma flag_still r : forall t, se_ph (E r) t = Out \/ exists c X, se_ph (E r) t = Pending c /\ econd w c = Some X /\ ~ X (e_pat (E r)).
    Proof.
      apply (se_stuck w w0 dbg (E r) (iv_good _ _ _ _ _ I r)). intros l e' es PR EE.
      destruct (has_call es) as [(t & c & C)|NC]; [exists t, c; exact (se_call_one w dbg _ _ _ _ _ _ EE C)|]. exfalso.
      destruct (flag_heard r P es NC) as (P' & o & H). specialize (ST (WFlag r l)). cbn [w_step] in ST. rewrite EE, H in ST.
      enough (Some (mkW P' (w_queue s) T (fupd E r e'), o) = None) by discriminate. apply ST. destruct l; cbn in PR |- *; tauto.
    Qed.
    Lemma flag_not_done r t : fl_done E r t = None.
    Proof. unfold fl_done. destruct (flag_still r t) as [-> |(c & X & -> & _)]; reflexivity. Qed.
    Lemma flag_called r t c : wants_flag N P t = Some (r, c) -> exists X, se_ph (E r) t = Pending c /\ econd w c = Some X /\ ~ X (e_pat (E r)).
    Proof.
      intros W. destruct (flag_still r t) as [O|(c' & X & PE & H)].
      - exfalso. destruct (se_can_call w dbg (E r) t c O) as (l & e' & PR & EE). specialize (ST (WFlag r l)). cbn [w_step] in ST. rewrite EE in ST. cbn [hears hear_flag] in ST. rewrite W, Nat.eqb_refl in ST.
        destruct (PoolWholeModel.ecall_dec c c); [|congruence]. cbn in ST. enough (Some (mkW P (w_queue s) T (fupd E r e'), @nil (event pcall pres)) = None) by discriminate. apply ST. destruct l; cbn in PR |- *; tauto.
      - pose proof (iv_fl _ _ _ _ _ I r t) as F. rewrite PE in F. cbn in F. assert (c' = c) as -> by congruence. exists X. auto.
    Qed.
    Lemma thread_move r l Tr es : r < N -> w_moves (WThread r l) -> t_step (T r) l = Some (Tr, es) -> (forall t c, ~ In (Call t c) es) -> False.
    Proof.
      intros LT MV SR NC. specialize (ST (WThread r l) MV). cbn [w_step] in ST. apply Nat.ltb_lt in LT. rewrite LT, SR in ST.
      destruct (hears_some (hear_thread r) es) with (P := P) as (P' & o & H); [|rewrite H in ST; discriminate].
      intros e P1 Hin. destruct e as [t c|t c v|t v]; [now elim (NC t c)| |]; cbn; [eauto|]. destruct t; eauto.
    Qed.
    Lemma thread_not_done r t : th_done T r t = None.
    Proof.
      unfold th_done. destruct (t_thr (T r) (S t)) as [| | | | |v] eqn:X; try reflexivity. exfalso.
      destruct (Nat.lt_ge_cases r N) as [LT|GE]; [|rewrite (proj2 (TO r) GE) in X; discriminate].
      eapply (thread_move r (TStep (S t))); [exact LT|exact Logic.I|cbn; rewrite X; reflexivity|]. intros u c [Y|[]]. discriminate.
    Qed.
    (** a thread that wants to use a Thread object is asleep in wait() *)
    Lemma thread_called r t c : r < N -> wants_thread P t = Some (r, c) -> t_thr (T r) (S t) = TAsleep c /\ t_active (T r) = true /\ exists ms, c = TWait ms.
    Proof.
      intros LT W. pose proof (iv_th _ _ _ _ _ I r (S t)) as F. pose proof (thread_not_done r t) as ND. unfold th_done in ND.
      destruct (t_thr (T r) (S t)) as [|c'|c'| | |v] eqn:X; cbn in F; try contradiction; try discriminate.
      - exfalso. specialize (ST (WThread r (TCall (S t) c)) Logic.I). cbn [w_step] in ST. apply Nat.ltb_lt in LT. rewrite LT in ST. cbn [t_step] in ST. rewrite X in ST.
        assert (CC : client_call c = true) by (unfold wants_thread in W; destruct (p_thr P t) as [| |[| | | |]| |]; try discriminate; injection W as <- <-; reflexivity).
        rewrite CC in ST. cbn [andb negb Nat.eqb hears hear_thread] in ST. rewrite W, Nat.eqb_refl in ST. destruct (tcall_dec c c); [|congruence]. discriminate.
      - exfalso. destruct F as (t' & X1 & X2). injection X1 as <-. assert (c' = c) as -> by congruence.
        assert (CC : c = TStart \/ exists ms, c = TWait ms) by (unfold wants_thread in W; destruct (p_thr P t) as [| |[| | | |]| |]; try discriminate; injection W as <- <-; eauto).
        destruct CC as [-> |(ms & ->)].
        + destruct (t_active (T r)) eqn:AC; (eapply (thread_move r (TStep (S t))); [exact LT|exact Logic.I|cbn; rewrite X, AC; reflexivity|]); intros u d [Y|[]]; discriminate.
        + destruct (t_active (T r)) eqn:AC; (eapply (thread_move r (TStep (S t))); [exact LT|exact Logic.I|cbn; rewrite X, AC; reflexivity|]); [intros u d []|intros u d [Y|[]]; discriminate].
      - destruct F as (t' & X1 & X2). injection X1 as <-. assert (c' = c) as -> by congruence. split; [reflexivity|]. destruct (proj1 (TO r) (S t) c X) as (AC & CC). split; [exact AC|].
        destruct CC as [-> |CC]; [|exact CC]. unfold wants_thread in W. destruct (p_thr P t) as [| |[| | | |]| |]; discriminate.
    Qed.
    Lemma thr_same t : p_thr A t = p_thr P t /\ forall i, p_guard A t i = p_guard P t i.
    Proof.
      split.
      - rewrite (rl_thr _ _ _ _ RL t). unfold abs_thr. destruct (p_thr P t) as [|[]|[] r x ms g p|[|] r g|] eqn:PT; try reflexivity.
        + destruct (p_guard P t g); [|reflexivity]. now rewrite flag_not_done.
        + destruct (p_guard P t g); [|reflexivity]. now rewrite flag_not_done.
        + now rewrite thread_not_done.
        + now rewrite thread_not_done.
        + now rewrite flag_not_done.
      - intros i. rewrite (rl_guard _ _ _ _ RL t i). unfold abs_guard. destruct (p_thr P t) as [|[]|[] r x ms [g|] p|[|] r g|] eqn:PT; try reflexivity. now rewrite thread_not_done.
    Qed.
    Lemma queue_still : forall t, qstep Q (QStep t) = None.
    Proof.
      destruct (ws_q _ _ _ _ _ WS) as (qe & HQ).
      refine (stack_still nat size M w Hw _ _ (m_step M) _ _ (e_step w dbg false) sm_good sm_ph x_owner sm_nofail (se_good w) se_ph e_pat (fun _ => True) true
        (sm_call_one M) (se_call_one w dbg) (sm_ok M) (std_e_ok M HM1 w Hw dbg) sm_prog se_prog (sm_ret_one M) (se_ret_one w dbg) _ (sm_can_call M)
        (se_can_call w dbg) (sm_stuck M) (se_stuck w w0 dbg) (w_queue s) Q qe (ws_s _ _ _ _ _ WS) HQ _).
      - intros [ | | |]; cbn; auto.
      - intros l PR. assert (MV : w_moves (WQueue l)) by (destruct l as [t c|t|o l|l|t b]; cbn in PR; try contradiction; [exact Logic.I|destruct l; cbn in *; tauto|destruct l; cbn in *; tauto]).
        specialize (ST _ MV). cbn [w_step] in ST. unfold std_step in ST. destruct (c_step nat size mst mlab (m_step M) est elab (e_step w dbg false) (w_queue s) l) as [[c es]|] eqn:CS; [|reflexivity]. exfalso.
        destruct (hears_some (hear_queue N) es) with (P := P) as (P' & o & H); [|rewrite H in ST; discriminate].
        intros e P1 Hin. destruct e as [t d|t d v|t v]; cbn; [|eauto|eauto]. exfalso.
        destruct l as [u d'|u|o' l|l|u b]; cbn in PR; try contradiction; cbn [c_step] in CS.
        + destruct (c_thr (w_queue s) u) as [|[] ? []|]; try discriminate; injection CS as <- <-; try (now destruct Hin); destruct Hin as [Y|[]]; discriminate.
        + destruct (m_step M (c_mtx (w_queue s) o') l) as [[? ?]|]; [|discriminate]. destruct (hear _ _ _ _); [|discriminate]. injection CS as <- <-. destruct Hin.
        + destruct (e_step w dbg false (c_ev (w_queue s)) l) as [[? ?]|]; [|discriminate]. destruct (hear _ _ _ _); [|discriminate]. injection CS as <- <-. destruct Hin.
    Qed.
    Lemma queue_called t : q_thr Q t = QIdle -> wants N P t = None.
    Proof.
      intros QI. destruct (wants N P t) as [c|] eqn:W; [|reflexivity]. exfalso. specialize (ST (WQueue (CCall t c)) Logic.I). cbn [w_step] in ST. unfold std_step in ST. cbn [c_step] in ST.
      pose proof (r_thr _ _ _ _ _ _ _ _ _ (s_r _ _ _ _ _ _ _ _ _ _ _ _ _ (ws_s _ _ _ _ _ WS)) t) as R.
      destruct (c_thr (w_queue s) t) as [|g d p|g d p] eqn:C.
      - cbn [hears hear_queue] in ST. rewrite W in ST. destruct (qcall_dec c c); [discriminate|congruence].
      - cbn in R. congruence.
      - cbn in R. rewrite QI in R. destruct (uses g d p) as [[? ?|?]|]; [destruct (sm_ph (c_mtx (w_queue s) o) t)|destruct (se_ph (c_ev (w_queue s)) t)|]; discriminate.
    Qed.
    Lemma wants_same t : wants N A t = wants N P t \/ wants N P t = None.
    Proof.
      destruct (wants N P t) as [c|] eqn:W; [left|now right]. unfold wants in *. rewrite (proj1 (thr_same t)). destruct (p_thr P t) as [|[]|?|[|] ? ?|] eqn:PT; try discriminate; try exact W.
      destruct (t <? N); [|discriminate]. rewrite (rl_run _ _ _ _ RL t). unfold abs_run. pose proof (iv_nat _ _ _ _ _ I t) as (_ & NK).
      destruct (p_run P t) as [| | | |[] th|] eqn:PR; try discriminate. destruct (t_nat (T t)); try exact W; exfalso; [discriminate NK|destruct NK as (NK & _); discriminate NK|destruct NK as (NK & _); discriminate NK|exact NK].
    Qed.
    Lemma step_still t : on_queue A (XStep t) = false -> pstep A (XStep t) = None.
    Proof.
      intros OQ. destruct (thr_same t) as (TE & GE). cbn [on_queue p_step] in *. rewrite TE in *.
      assert (LOC : local P (XStep t) = true -> pstep P (XStep t) <> None -> False).
      { intros LO NN. specialize (ST (WPool (XStep t)) Logic.I). cbn [w_step] in ST. rewrite LO in ST. destruct (pstep P (XStep t)) as [[? ?]|]; [discriminate|congruence]. }
      cbn [local p_step] in LOC.
      destruct (p_thr P t) as [|[x ms g p|g ms|g|g|x q|x th]|[| | | |] r x ms g p|[|] r g|v] eqn:PT; try reflexivity; try discriminate; try (exfalso; apply LOC; [reflexivity|discriminate]).
      - (* a start with no task *) destruct (x =? 0) eqn:X0; [|discriminate]. exfalso. apply LOC; [reflexivity|discriminate].
      - (* wait *) rewrite GE. destruct (p_guard P t g) as [r|] eqn:G; [|exfalso; apply LOC; [reflexivity|discriminate]].
        destruct (flag_called r t (EWaitAny (Within ms))) as (X & _ & EC & NX); [unfold wants_flag; now rewrite PT, G|].
        rewrite (rl_ev _ _ _ _ RL r). destruct (Z.eqb_spec (e_pat (E r)) 0) as [Z0|NZ]; [reflexivity|]. exfalso. cbn in EC. injection EC as <-. apply NX.
        apply (pat_any N M HM1 w _ (iv_pat _ _ _ _ _ I r)). exact NZ.
      - (* release *) rewrite GE. destruct (p_guard P t g) as [r|] eqn:G; [|exfalso; apply LOC; [reflexivity|discriminate]].
        destruct (flag_called r t (EWaitAny (Within (-1)))) as (X & _ & EC & NX); [unfold wants_flag; now rewrite PT, G|].
        rewrite (rl_ev _ _ _ _ RL r). destruct (Z.eqb_spec (e_pat (E r)) 0) as [Z0|NZ]; [reflexivity|]. exfalso. cbn in EC. injection EC as <-. apply NX.
        apply (pat_any N M HM1 w _ (iv_pat _ _ _ _ _ I r)). exact NZ.
      - (* wait for the thread *) destruct (thread_called r t (TWait ms)) as (_ & AC & _); [exact (HOLD _ _ _ _ _ _ _ PT)|unfold wants_thread; now rewrite PT|].
        destruct (p_run A r) eqn:PR; try reflexivity. apply (active_off _ _ _ _ _ _ _ I RL) in PR. congruence.
      - (* start *) exfalso. destruct (thread_called r t TStart) as (_ & _ & ms' & X); [exact (HOLD _ _ _ _ _ _ _ PT)|unfold wants_thread; now rewrite PT|discriminate].
      - (* resetAll *) exfalso. destruct (flag_called r t EResetAll) as (X & _ & EC & _); [unfold wants_flag; now rewrite PT|discriminate].
    Qed.
    Lemma run_still r : on_queue A (XRun r) = false -> pstep A (XRun r) = None.
    Proof.
      intros OQ. destruct (Nat.lt_ge_cases r N) as [LT|GE].
      2:{ cbn [p_step]. rewrite (rl_run _ _ _ _ RL r). unfold abs_run. now rewrite (proj2 (TO r) GE). }
      assert (LOC : local P (XRun r) = true -> pstep P (XRun r) <> None -> False).
      { intros LO NN. specialize (ST (WPool (XRun r)) Logic.I). cbn [w_step] in ST. rewrite LO in ST. destruct (pstep P (XRun r)) as [[? ?]|]; [discriminate|congruence]. }
      cbn [local p_step] in LOC. cbn [on_queue] in OQ.
      assert (NAT : forall Tr es, t_step (T r) NStep = Some (Tr, es) -> (exists P' o, hears (hear_thread r) P es = Some (P', o)) -> False).
      { intros Tr es SR (P' & o & H). specialize (ST (WThread r NStep) Logic.I). cbn [w_step] in ST. apply Nat.ltb_lt in LT. rewrite LT, SR, H in ST. discriminate. }
      cbn [t_step] in NAT. cbn [p_step]. rewrite (rl_run _ _ _ _ RL r) in *. unfold abs_run in *. pose proof (iv_nat _ _ _ _ _ I r) as (EN & NK).
      destruct (t_nat (T r)) eqn:TN.
      - exfalso. destruct (t_active (T r)); [rewrite EN in NAT|]; (eapply NAT; [reflexivity|]); cbn; eauto.
      - destruct NK as (_ & ->). reflexivity.
      - destruct NK as (_ & _ & AC).
        assert (FL : forall c, wants_flag N P r = Some (r, c) -> econd w c = None -> False).
        { intros c W EC. destruct (flag_called r r c W) as (X & _ & EC' & _). congruence. }
        assert (PI : forall x, p_run P r = x -> x <> WIn -> p_thr P r = PIdle) by (intros x PR NI; apply (iv_idle _ _ _ _ _ I r LT); congruence).
        assert (LTB : (r <? N) = true) by (now apply Nat.ltb_lt).
        destruct (p_run P r) as [| | | |[] th|] eqn:PR; try reflexivity.
        + (* WStarted *) exfalso. pose proof (iv_nat _ _ _ _ _ I r) as (_ & NK). rewrite TN, PR in NK. destruct NK as (_ & NK & _). now apply NK.
        + exfalso. apply LOC; [reflexivity|]. destruct (p_task P r =? 0); discriminate.
        + exfalso. apply LOC; [reflexivity|discriminate].
        + exfalso. apply LOC; [reflexivity|discriminate].
        + exfalso. apply (FL ESetAll); [unfold wants_flag; rewrite (PI _ eq_refl) by discriminate; now rewrite LTB, PR|reflexivity].
        + exfalso. apply (FL EResetAll); [unfold wants_flag; rewrite (PI _ eq_refl) by discriminate; now rewrite LTB, PR|reflexivity].
        + discriminate.
        + exfalso. eapply NAT; [reflexivity|]. cbn. rewrite PR. eauto.
      - exfalso. eapply NAT; [reflexivity|]. cbn. eauto.
      - destruct NK.
    Qed.
    Lemma whole_still : t_still N dflt ext_prio (PoolStackModel.mkT A Q).
    Proof.
      split; [exact queue_still|]. split; [|split; [exact step_still|exact run_still]].
      intros t QI. cbn in QI |- *. pose proof (queue_called t QI) as WN. unfold wants in WN |- *. rewrite (proj1 (thr_same t)).
      destruct (p_thr P t) as [|[]|?|[|] ? ?|] eqn:PT; try reflexivity; try exact WN. destruct (t <? N) eqn:LT; [|reflexivity].
      rewrite (rl_run _ _ _ _ RL t). unfold abs_run. rewrite flag_not_done.
      destruct (t_nat (T t)) eqn:TN; try reflexivity; [destruct (t_active (T t)); reflexivity|destruct (t_active (T t)); reflexivity|].
      destruct (p_run P t) as [| | | |[] th|]; try reflexivity. exact WN.
    Qed.
  End Still.

  Theorem whole_waits c0 ls s o : w_filled N M w dbg c0 -> (forall l, In l ls -> w_calm l) -> exec wstep (w_init dflt c0) ls = Some (s, o) ->
    (forall l, w_moves l -> wstep s l = None) ->
    exists ew f sg lost, explains N ext_prio o ew f sg /\ length lost <= count_eff timed_out (effects ew) /\ forall t,
    w_idle s t \/
    (exists x ms g p, p_thr (w_pool s) t = PAt (PStart x ms g p) /\
       forall r, r < N -> In r lost \/ p_run (w_pool s) r = WIn \/ exists t' g', p_guard (w_pool s) t' g' = Some r) \/
    (exists g r, ((exists ms, p_thr (w_pool s) t = PAt (PWait g ms)) \/ p_thr (w_pool s) t = PAt (PRelease g)) /\ r < N /\ p_guard (w_pool s) t g = Some r /\ p_run (w_pool s) r = WIn).
  Proof.
    intros F CA EX ST. destruct (whole_explained N HN dflt ext_prio M HM1 w Hw dbg c0 ls s o F CA EX) as (ew & f & sg & A & Q & es & Ls & q0 & a & ls' & EE & WS & LA & F0 & X & EA & SA).
    assert (TO : threads_ok s). { eapply threads_exec; [|exact EX]. intros r. split; [intros u c Y; discriminate|reflexivity]. }
    destruct (reach N dflt ext_prio ls' a es EA) as (own & _ & _ & H & _).
    assert (HOLD : forall t k r x ms g p, p_thr (w_pool s) t = PHold k r x ms g p -> r < N).
    { intros t k r x ms g p PT. assert (QI : q_thr Q t = QIdle) by (apply (inq_idle N (w_pool s) Q t (ws_inq _ _ _ _ _ WS)); unfold wants; now rewrite PT).
      destruct (agree_thr N _ _ t SA QI) as (E1 & _). cbn in E1. rewrite (rl_thr _ _ _ _ (ws_rel _ _ _ _ _ WS) t) in E1. unfold abs_thr in E1. rewrite PT in E1.
      rewrite (thread_not_done s TO ST r t) in E1.
      assert (E2 : p_thr a t = PHold k r x ms g p) by (destruct k; exact E1). exact (proj1 (held_by N dflt ext_prio a own t k r x ms g p H E2)). }
    assert (SAME := thr_same s A Q WS TO ST).
    assert (WIN : forall r, p_run A r = WIn -> p_run (w_pool s) r = WIn).
    { intros r. rewrite (rl_run _ _ _ _ (ws_rel _ _ _ _ _ WS) r). unfold abs_run. destruct (t_nat (w_thread s r)); try discriminate; try (destruct (t_active (w_thread s r)); discriminate).
      destruct (p_run (w_pool s) r) as [| | | |[] th|]; try discriminate; try reflexivity; destruct (fl_done (w_flag s) r r); discriminate. }
    destruct (stack_still_waits N HN dflt ext_prio q0 Ls _ es F0 X (whole_still s A Q WS TO ST HOLD)) as (lost & LL & W).
    exists ew, f, sg, lost. split; [exact EE|]. split; [now rewrite (late_effects _ _ _ _ LA)|]. intros t. unfold w_idle. unfold PoolStackModel.t_idle in W. cbn in W.
    destruct (W t) as [ID|[(x & ms & g & p & PT & LO)|(g & r & PT & LT & G & RU)]]; rewrite ?(proj1 (SAME t)) in *.
    - now left.
    - right. left. exists x, ms, g, p. split; [exact PT|]. intros r Hr. destruct (LO r Hr) as [Y|[Y|(t' & g' & Y)]]; [now left|right; left; now apply WIN|]. right. right. exists t', g'. now rewrite <- (proj2 (SAME t') g').
    - right. right. exists g, r. rewrite (proj2 (SAME t) g) in G. split; [exact PT|]. split; [exact LT|]. split; [exact G|]. now apply WIN.
  Qed.
End L.
