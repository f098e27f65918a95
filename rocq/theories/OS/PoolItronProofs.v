(** Proofs about ThreadPool over the library's own objects on the Itron platform (OS/PoolItronModel): ItronThread, ItronEventFlag and MessageQueue over
    ItronMutex are objects of the kind OS/PoolObjects asks for. *)
From Coq Require Import List ZArith Bool Lia Arith.
Import ListNotations.
From Verif Require Import Spec.OSError Spec.Linear Spec.EventFlagSpec Spec.MessageQueueSpec Spec.ThreadSpec Spec.ItronThreadSpec OS.Sched OS.MessageQueueModel OS.MessageQueueProofs
  OS.EventFlagModel OS.ItronEventFlagModel OS.ItronMutexModel OS.ItronMutexProofs OS.QueueStackModel OS.QueueStackProofs OS.QueueStackInst Spec.ThreadPoolSpec OS.ThreadPoolModel OS.ThreadPoolProofs
  OS.ThreadPoolLiveness OS.PoolStackModel OS.PoolStackProofs OS.PoolWholeModel OS.PoolWholeProofs OS.ItronThreadModel OS.ItronThreadProofs OS.PoolItronModel OS.PoolObjects.
Local Open Scope nat_scope.

(** ** ItronThread as a thread object *)
Definition strip (x : status icall ires) : status tcall tres :=
  match x with Pending (IT c) => Pending c | Done (IR v) => Done v | _ => Out end.
Definition abs_st (T : its) : hstate :=
  match n_task T with
  | KDorm => if n_fin T then HOff else HStarted
  | KAwait | KClr => HStarted
  | KRun => HRun
  | KFin | KExit => HEnding
  | KDel => HOff
  end.
Definition absI (T : its) : athr := mkH (fun u => match u with 0 => Out | S _ => strip (st_of (n_thr T u)) end) (abs_st T).
Definition up (e : event tcall tres) : event icall ires :=
  match e with Call t c => Call t (IT c) | Eff t c v => Eff t (IT c) (IR v) | Ret t v => Ret t (IR v) end.
(** the callers only start and wait *)
Definition tk (q : ipc) : Prop :=
  match q with
  | IIdle | IClr | ISta | IRef | IChg | ISetSt | IUnlock None => True
  | ILock c | IFlg c | IDorm c => c = IT TStart
  | IWai c | IQue c | IPoll c => exists ms, c = IT (TWait ms)
  | IUnlock (Some r) | IRet r => exists v, r = IR v
  | ISetChg | IDel => False
  end.
Record zgood (T : its) : Prop := { zg_inv : sinv T; zg_zero : n_thr T 0 = IIdle; zg_tk : forall u, tk (n_thr T u) }.

Section Thread.
  Variables prio0 minp maxp : Z.
  Variable ext_prio : nat -> Z.
  Notation stp := (n_step prio0 minp maxp ext_prio).

  Lemma zgood_init : zgood (n_init prio0).
  Proof. constructor; [apply sinv_init|reflexivity|intros u; exact I]. Qed.
  Lemma hears_up r es : forall P, hears (hear_task r) P (map up es) = hears (hear_thread r) P es.
  Proof.
    induction es as [|e es IH]; intros P; cbn [map hears]; [reflexivity|].
    assert (X : hear_task r P (up e) = hear_thread r P e) by (destruct e as [t c|t c v|t v]; destruct t; reflexivity). rewrite X. destruct (hear_thread r P e) as [(P1, o1)|]; [|reflexivity]. now rewrite IH.
  Qed.
  (** a caller moves *)
  Lemma abs_caller T T' t q u : n_thr T' = fupd (n_thr T) (S t) q -> h_ph (absI T') u = set_st (h_ph (absI T)) (S t) (strip (st_of q)) u.
  Proof.
    intros H. unfold set_st, absI. cbn [h_ph]. destruct u as [|u]; [reflexivity|]. rewrite H, fupd_eq. destruct (S u =? S t); reflexivity.
  Qed.
  Lemma abs_quiet T T' t q u : n_thr T' = fupd (n_thr T) (S t) q -> strip (st_of q) = strip (st_of (n_thr T (S t))) -> h_ph (absI T') u = h_ph (absI T) u.
  Proof.
    intros H E. rewrite (abs_caller T T' t q u H). unfold set_st. destruct (Nat.eqb_spec u (S t)) as [->|]; [|reflexivity]. now rewrite E.
  Qed.
  Lemma run_quiet T T' t q : n_thr T' = fupd (n_thr T) (S t) q -> strip (st_of q) = strip (st_of (n_thr T (S t))) -> abs_st T' = abs_st T -> th_run (absI T) [] (absI T').
  Proof. intros H E S. apply tr_nil; [exact S|]. intros u. exact (abs_quiet T T' t q u H E). Qed.
  Lemma run_one a e b : th_event a e b -> th_run a [e] b.
  Proof. intros H. eapply tr_cons; [exact H|]. apply tr_nil; reflexivity. Qed.
  Lemma tk_upd (f : nat -> ipc) t q : (forall u, tk (f u)) -> tk q -> forall u, tk (fupd f t q u).
  Proof. intros H Q u. rewrite fupd_eq. destruct (u =? t); auto. Qed.

  Lemma task_step T l T' es : zgood T -> stp T l = Some (T', es) ->
    (forall t c, In (Call t c) es -> t = 0 /\ (c = IT TBegin \/ c = IT TEnd) \/ t <> 0 /\ (c = IT TStart \/ exists ms, c = IT (TWait ms) /\ (-1 <= ms)%Z)) ->
    (forall u ms, h_ph (absI T) u = Pending (TWait ms) -> h_st (absI T) <> HStarted) ->
    zgood T' /\ exists es', es = map up es' /\ th_run (absI T) es' (absI T').
  Proof.
    intros [SI Z0 TK] ST CA NH.
    assert (LO : n_label_ok l).
    { destruct l as [t c|t|t|t|]; cbn; auto. cbn [n_step] in ST. destruct (n_thr T t) eqn:X; try discriminate. destruct (n_entry t c) eqn:Y; [|discriminate].
      assert (C : In (Call t c) es) by (destruct (t =? 0); [destruct (n_task T); try discriminate|]; injection ST as <- <-; now left).
      destruct (CA t c C) as [(-> & [-> | ->])|(_ & [-> |(ms & -> & H)])]; auto; discriminate. }
    assert (SI' : sinv T') by (eapply sinv_step; eauto).
    assert (G : (n_thr T' 0 = IIdle /\ forall u, tk (n_thr T' u)) /\ exists es', es = map up es' /\ th_run (absI T) es' (absI T')); [|destruct G as ((G1 & G2) & G3); split; [constructor|]; auto].
    assert (CL : forall t q, n_thr T' = fupd (n_thr T) (S t) q -> tk q -> n_thr T' 0 = IIdle /\ forall u, tk (n_thr T' u)).
    { intros t q -> Q. split; [rewrite fupd_other by discriminate; exact Z0|]. now apply tk_upd. }
    destruct l as [t c|t|t|t|].
    - (* a call *)
      cbn [n_step] in ST. destruct (n_thr T t) eqn:X; try discriminate. destruct (n_entry t c) as [q|] eqn:Y; [|discriminate].
      destruct t as [|t].
      { exfalso. cbn in ST. destruct (n_task T); try discriminate. injection ST as <- <-. destruct (CA 0 c (or_introl eq_refl)) as [(_ & [-> | ->])|(B & _)]; [discriminate|discriminate|now elim B]. }
      cbn [Nat.eqb] in ST. injection ST as <- <-. destruct (CA (S t) c (or_introl eq_refl)) as [(B & _)|(_ & K)]; [discriminate|].
      assert (KK : exists c0, c = IT c0 /\ tk q /\ strip (st_of q) = Pending c0) by (destruct K as [-> |(ms & -> & _)]; injection Y as <-; cbn; eauto 6).
      destruct KK as (c0 & -> & Q1 & Q2). split; [now apply (CL t q)|]. exists [Call (S t) c0]. split; [reflexivity|]. apply run_one. cbn -[absI]. split; [cbn; now rewrite X|]. split; [reflexivity|].
      intros u. rewrite (abs_caller T (n_go T (S t) q) t q u eq_refl). now rewrite Q2.
    - (* a caller moves *)
      destruct t as [|t]; [cbn [n_step] in ST; rewrite Z0 in ST; discriminate|].
      pose proof (TK (S t)) as K. pose proof (si_pc T SI (S t)) as PC. pose proof (si_task T SI) as TO.
      assert (QT : forall s q, T' = s -> n_thr s = fupd (n_thr T) (S t) q -> tk q -> strip (st_of q) = strip (st_of (n_thr T (S t))) -> abs_st s = abs_st T -> es = [] ->
        (n_thr T' 0 = IIdle /\ forall u, tk (n_thr T' u)) /\ exists es', es = map up es' /\ th_run (absI T) es' (absI T')).
      { intros s q -> H Q E S ->. split; [now apply (CL t q)|]. exists []. split; [reflexivity|]. exact (run_quiet T s t q H E S). }
      assert (EF : forall s q c v, T' = s -> n_thr s = fupd (n_thr T) (S t) q -> tk q -> strip (st_of (n_thr T (S t))) = Pending c -> strip (st_of q) = Done v ->
        match c with
        | TStart => v = RVoid /\ abs_st s = started (abs_st T)
        | TWait ms => abs_st s = abs_st T /\ (v = RErr OK /\ abs_st T = HOff \/ v = RErr TimedOut /\ ms <> (-1)%Z /\ abs_st T <> HOff)
        | _ => False
        end -> es = [Eff (S t) (IT c) (IR v)] ->
        (n_thr T' 0 = IIdle /\ forall u, tk (n_thr T' u)) /\ exists es', es = map up es' /\ th_run (absI T) es' (absI T')).
      { intros s q c v -> H Q E SD M ->. split; [now apply (CL t q)|]. exists [Eff (S t) c v]. split; [reflexivity|]. apply run_one. cbn -[absI]. split; [exact E|].
        split; [intros u; rewrite (abs_caller T _ t q u H); now rewrite SD|]. exact M. }
      cbn [n_step] in ST. destruct (n_thr T (S t)) as [|c|c|c| | | | | |r| |c|c|c| |r] eqn:X; try discriminate; cbn [tk] in K; try contradiction.
      + subst c. destruct (n_mtx T); [discriminate|]. injection ST as ET EE. eapply QT; [symmetry; exact ET|reflexivity|reflexivity|reflexivity|reflexivity|now symmetry].
      + subst c. cbn in PC. unfold n_is_finished in ST. destruct (n_task T) eqn:KT; cbn in TO; try contradiction; destruct (n_fin T) eqn:FI; injection ST as ET EE;
          try (eapply QT; [symmetry; exact ET|reflexivity|reflexivity|reflexivity|reflexivity|now symmetry]);
          (eapply (EF _ _ TStart RVoid); [symmetry; exact ET|reflexivity|cbn; eauto|reflexivity|reflexivity|split; [reflexivity|unfold abs_st; cbn; rewrite ?KT, ?FI; reflexivity]|now symmetry]).
      + subst c. cbn in PC. unfold n_is_finished, n_dormant in ST. destruct (n_task T) eqn:KT; cbn in TO; try contradiction; injection ST as ET EE;
          try (eapply QT; [symmetry; exact ET|reflexivity|reflexivity|reflexivity|reflexivity|now symmetry]);
          (eapply (EF _ _ TStart RVoid); [symmetry; exact ET|reflexivity|cbn; eauto|reflexivity|reflexivity|split; [reflexivity|unfold abs_st; cbn; rewrite ?KT; reflexivity]|now symmetry]).
      + cbn in PC. destruct PC as (P1 & P2). injection ST as ET EE.
        eapply (EF _ _ TStart RVoid); [symmetry; exact ET|reflexivity|reflexivity|reflexivity|reflexivity|split; [reflexivity|unfold abs_st; cbn; rewrite P1, P2; reflexivity]|now symmetry].
      + cbn in PC. destruct PC as (P1 & P2). rewrite P2 in ST. injection ST as ET EE.
        eapply QT; [symmetry; exact ET|reflexivity|reflexivity|reflexivity|unfold abs_st; cbn; rewrite P1, P2; reflexivity|now symmetry].
      + injection ST as ET EE. eapply QT; [symmetry; exact ET|reflexivity| | |reflexivity|now symmetry]; match goal with |- context[if ?b then _ else _] => destruct b end; reflexivity.
      + injection ST as ET EE. eapply QT; [symmetry; exact ET|reflexivity|reflexivity|reflexivity|reflexivity|now symmetry].
      + injection ST as ET EE. destruct r as [r|]; (eapply QT; [symmetry; exact ET|reflexivity|exact K|reflexivity|reflexivity|now symmetry]).
      + injection ST as ET EE. eapply QT; [symmetry; exact ET|reflexivity|cbn; eauto|reflexivity|reflexivity|now symmetry].
      + destruct K as (ms & ->). cbn in PC.
        assert (B : (ms <? -1)%Z = false) by (apply Z.ltb_ge; lia). rewrite B in ST.
        assert (KD : n_task T <> KDel) by (intros KT; rewrite KT in TO; exact TO).
        destruct (n_fin T) eqn:FI.
        * assert (ST' : Some (n_go T (S t) (IPoll (IT (TWait ms))), []) = Some (T', es)) by (destruct (n_task T); congruence).
          injection ST' as ET EE. eapply QT; [symmetry; exact ET|reflexivity|cbn; eauto|reflexivity|reflexivity|now symmetry].
        * assert (ST' : (if (ms =? 0)%Z then Some (n_go T (S t) (IRet (IR (RErr TimedOut))), [Eff (S t) (IT (TWait ms)) (IR (RErr TimedOut))]) else Some (n_go T (S t) (IQue (IT (TWait ms))), [])) = Some (T', es))
            by (destruct (n_task T); congruence).
          destruct (Z.eqb_spec ms 0) as [->|]; injection ST' as ET EE; [|eapply QT; [symmetry; exact ET|reflexivity|cbn; eauto|reflexivity|reflexivity|now symmetry]].
          eapply (EF _ _ (TWait 0) (RErr TimedOut)); [symmetry; exact ET|reflexivity|cbn; eauto|reflexivity|reflexivity| |now symmetry].
          split; [reflexivity|]. right. split; [reflexivity|]. split; [discriminate|]. unfold abs_st. rewrite FI. destruct (n_task T); try discriminate. now elim KD.
      + destruct K as (ms & ->). unfold n_dormant in ST. destruct (n_task T) eqn:KT; try discriminate. injection ST as ET EE.
        eapply (EF _ _ (TWait ms) (RErr OK)); [symmetry; exact ET|reflexivity|cbn; eauto|reflexivity|reflexivity| |now symmetry].
        split; [reflexivity|]. left. split; [reflexivity|]. specialize (NH (S t) ms). cbn [h_ph absI h_st] in NH. rewrite X in NH. specialize (NH eq_refl).
        revert NH. unfold abs_st. rewrite KT. destruct (n_fin T); congruence.
      + injection ST as <- <-. destruct K as (v & ->). split; [now apply (CL t IIdle)|]. exists [Ret (S t) v]. split; [reflexivity|]. apply run_one. cbn -[absI]. split; [cbn; now rewrite X|]. split; [reflexivity|].
        intros u. rewrite (abs_caller T (n_go T (S t) IIdle) t IIdle u eq_refl). reflexivity.
    - (* a time-out *)
      cbn [n_step] in ST. destruct (n_thr T t) as [| | | | | | | | | | | |[[ |ms| | | |]| |]| | |] eqn:X; try discriminate.
      destruct (Z.eqb_spec ms (-1)) as [|EM]; [discriminate|]. injection ST as <- <-.
      destruct t as [|t]; [congruence|]. pose proof (si_pc T SI (S t)) as PC. rewrite X in PC. cbn in PC. destruct PC as (_ & FI). pose proof (si_task T SI) as TO.
      split; [apply (CL t (IRet (IR (RErr TimedOut)))); [reflexivity|cbn; eauto]|]. exists [Eff (S t) (TWait ms) (RErr TimedOut)]. split; [reflexivity|]. apply run_one. cbn -[absI]. split; [cbn; now rewrite X|].
      split; [intros u; rewrite (abs_caller T (n_go T (S t) (IRet (IR (RErr TimedOut)))) t (IRet (IR (RErr TimedOut))) u eq_refl); reflexivity|]. split; [reflexivity|]. right. split; [reflexivity|]. split; [exact EM|].
      cbn. unfold abs_st. rewrite FI. destruct (n_task T); try discriminate. contradiction TO.
    - (* one more round of waitUntilDormant *)
      cbn [n_step] in ST. destruct (n_thr T t); try discriminate. destruct (n_dormant T); [discriminate|]. injection ST as <- <-. split; [auto|]. exists []. split; [reflexivity|]. apply tr_nil; reflexivity.
    - (* the task *)
      pose proof (si_task T SI) as TO. cbn [n_step] in ST. destruct (n_task T) eqn:KT; try discriminate; cbn in TO.
      + destruct (n_st T); [|discriminate]. injection ST as <- <-. split; [cbn; auto|]. exists []. split; [reflexivity|]. apply tr_nil; [|reflexivity]. unfold absI, abs_st. cbn. now rewrite KT.
      + injection ST as <- <-. split; [cbn; auto|]. exists [Call 0 TBegin; Eff 0 TBegin RVoid; Ret 0 RVoid]. split; [reflexivity|].
        eapply tr_cons; [|eapply tr_cons; [|apply run_one]]; cbn -[absI]; [|split; reflexivity|split; reflexivity].
        split; [unfold absI, abs_st; cbn; now rewrite KT|]. split; reflexivity.
      + rewrite Z0 in ST. injection ST as <- <-. split; [cbn; auto|]. exists [Call 0 TEnd]. split; [reflexivity|]. apply run_one. cbn -[absI]. split; [unfold absI, abs_st; cbn; now rewrite KT|]. split; reflexivity.
      + injection ST as <- <-. split.
        * cbn [n_thr]. split; [now rewrite Z0|]. intros u. pose proof (TK u) as K. destruct (n_thr T u); exact K.
        * exists []. split; [reflexivity|]. apply tr_nil; [unfold absI, abs_st; cbn; now rewrite KT|]. intros u. unfold absI. cbn. destruct u as [|u]; [reflexivity|]. destruct (n_thr T (S u)); reflexivity.
      + injection ST as <- <-. destruct TO as (FI & _). split; [cbn; auto|]. exists [Eff 0 TEnd RVoid; Ret 0 RVoid]. split; [reflexivity|].
        eapply tr_cons; [|apply run_one]; cbn -[absI]; [|split; reflexivity].
        split; [unfold absI, abs_st; cbn; now rewrite KT|]. split; [unfold absI, abs_st; cbn; now rewrite FI|reflexivity].
  Qed.
End Thread.

Definition absF (e : ifst) : aflag := mkG (ie_ph e) (f_ptn e).
(** ** the time limits of the calls in progress *)
Definition pc_ms (q : ppc) : Prop := match q with PAt (PStart _ ms _ _) | PAt (PWait _ ms) | PHold _ _ _ ms _ _ => (-1 <= ms)%Z | _ => True end.
Definition ms_ok (P : pst) : Prop := forall t, pc_ms (p_thr P t).
Lemma ms_upd (f : nat -> ppc) t q : (forall u, pc_ms (f u)) -> pc_ms q -> forall u, pc_ms (fupd f t q u).
Proof. intros H Q u. rewrite fupd_eq. destruct (u =? t); auto. Qed.
Lemma ms_hears {X : Type} (h : pst -> X -> option (pst * pout)) es : (forall P e P' o, ms_ok P -> h P e = Some (P', o) -> ms_ok P') ->
  forall P P' o, ms_ok P -> hears h P es = Some (P', o) -> ms_ok P'.
Proof.
  intros H. induction es as [|e es IH]; intros P P' o M HE; cbn in HE.
  - injection HE as <- _. exact M.
  - destruct (h P e) as [(P1, o1)|] eqn:H1; [|discriminate]. destruct (hears h P1 es) as [(P2, o2)|] eqn:H2; [|discriminate]. injection HE as <- _. eauto.
Qed.
Ltac ms_tac := unfold ms_ok in *; intros; cbn [p_thr p_go p_wto]; auto; try (apply ms_upd; cbn; auto).
Lemma ms_thread r P e P' o : ms_ok P -> hear_thread r P e = Some (P', o) -> ms_ok P'.
Proof.
  intros M H. destruct e as [[|t] c|t c v|[|t] v]; cbn [hear_thread] in H.
  - destruct c; try discriminate; [injection H as <- _; exact M|]. destruct (p_run P r); try discriminate. injection H as <- _. exact M.
  - destruct (wants_thread P t) as [(r', c')|]; [|discriminate]. destruct ((r =? r') && _); [|discriminate]. injection H as <- _. exact M.
  - injection H as <- _. exact M.
  - injection H as <- _. exact M.
  - injection H as <- _. unfold resume_thread. pose proof (M t) as Mt. destruct (p_thr P t) as [|[ | | | | |]|[ | | | |]|[|]|] eqn:X; try exact M; cbn in Mt; [destruct v as [|[]|]|]; ms_tac.
Qed.
Lemma ms_flag N r P e P' o : ms_ok P -> hear_flag N r P e = Some (P', o) -> ms_ok P'.
Proof.
  intros M H. destruct e as [t c|t c v|t v]; cbn [hear_flag] in H.
  - destruct (wants_flag N P t) as [(r', c')|]; [|discriminate]. destruct ((r =? r') && _); [|discriminate]. injection H as <- _. exact M.
  - injection H as <- _. exact M.
  - unfold resume_flag in H. pose proof (M t) as Mt. destruct (p_thr P t) as [|[ | | | | |]|[ | | | |]|[|]|] eqn:X; cbn in Mt; try (injection H as <- _; exact M).
    + destruct (p_run P t) as [| | | |[| | | |] th|]; injection H as <- _; exact M.
    + injection H as <- _. destruct v; ms_tac.
    + injection H as <- _. destruct (p_guard P t g); ms_tac.
    + injection H as <- _. ms_tac.
Qed.
Lemma ms_queue N P e P' o : ms_ok P -> hear_queue N P e = Some (P', o) -> ms_ok P'.
Proof.
  intros M H. destruct e as [t c|t c v|t v]; cbn [hear_queue] in H.
  - destruct (wants N P t); [|discriminate]. destruct (qcall_dec c q); [|discriminate]. injection H as <- _. exact M.
  - injection H as <- _. exact M.
  - injection H as <- _. unfold resume. pose proof (M t) as Mt. destruct (p_thr P t) as [|[ | | | | |]|[ | | | |]|[|]|] eqn:X; cbn in Mt; try exact M.
    + destruct v as [|[] [|]| |]; ms_tac.
    + ms_tac.
Qed.
Lemma ms_local N dflt ext_prio P l P' es : ms_ok P -> z_calm (ZPool l) -> p_step N dflt ext_prio P l = Some (P', es) -> ms_ok P'.
Proof.
  intros M C S. destruct l as [t c|t|t o|r|r th]; cbn [p_step] in S.
  - destruct (p_thr P t); try discriminate. destruct (callable N P t c); [|discriminate]. injection S as <- _. cbn in C. destruct c; ms_tac.
  - pose proof (M t) as Mt.
    destruct (p_thr P t) as [|[x ms g p|g ms|g|g|x q|x th]|[ | | | |] r x ms g p|[|] r g|v] eqn:X; cbn in Mt; try discriminate;
      repeat (match type of S with
              | (if ?b then _ else _) = _ => destruct b
              | match ?b with [] => _ | _ :: _ => _ end = _ => destruct b
              | match ?b with Some _ => _ | None => _ end = _ => destruct b
              | match p_run ?A ?b with _ => _ end = _ => destruct (p_run A b)
              end; try discriminate); try (injection S as <- _; ms_tac); auto.
  - pose proof (M t) as Mt. destruct (p_thr P t) as [|[x ms g p|g ms|g|g|x q|x th]|[ | | | |] r x ms g p|[|] r g|v] eqn:X; cbn in Mt; try discriminate;
      repeat (match type of S with
              | (if ?b then _ else _) = _ => destruct b
              | match ?b with [] => _ | _ :: _ => _ end = _ => destruct b
              | match ?b with Some _ => _ | None => _ end = _ => destruct b
              | match p_run ?A ?b with _ => _ end = _ => destruct (p_run A b)
              end; try discriminate); try (injection S as <- _; ms_tac); auto.
  - destruct (p_run P r) as [| | | |[| | | |] th|]; try discriminate; repeat (match type of S with (if ?b then _ else _) = _ => destruct b end; try discriminate); injection S as <- _; exact M.
  - destruct (p_run P r); try discriminate. destruct (p_thr P r); try discriminate. injection S as <- _. exact M.
Qed.

Section Z.
  Variable N : nat.
  Hypothesis HN : (Z.of_nat N < 2 ^ 64 - 1)%Z.
  Variable dflt : Z.
  Variable ext_prio : nat -> Z.
  Variables minp maxp : Z.
  Variables w wf : Z.
  Hypothesis Hw : (2 <= w)%Z.
  Hypothesis Hwf : (w <= wf)%Z.
  Variable dbg : bool.
  Notation size := (Z.of_nat N).
  Let HM : (0 <= size < 2 ^ 64 - 1)%Z.
  Proof. lia. Qed.
  Let w0 : (0 < w)%Z.
  Proof. lia. Qed.
  Notation pstep := (p_step N dflt ext_prio).
  Notation sstep := (PoolStackModel.t_step N dflt ext_prio).
  Notation zstep := (z_step N dflt ext_prio minp maxp w wf dbg).
  Notation nstep := (n_step dflt minp maxp ext_prio).
  Notation qok := (qinv nat size).
  Notation ssim := (Sm nat ist ifst im_good im_ph iabs (ie_good w) ie_ph f_ptn (fun ms => (-1 <= ms)%Z) true).

  Definition z_th (s : zst) (r : nat) : athr := absI (z_thread s r).
  Definition z_fl (s : zst) (r : nat) : aflag := absF (z_flag s r).
  Definition z_reach (A : pst) (Q : qst nat) : Prop :=
    exists q0 Ls es, filled N q0 /\ exec sstep (PoolStackModel.t_init dflt q0) Ls = Some (PoolStackModel.mkT A Q, es).
  Record zsim (s : zst) (A : pst) (Q : qst nat) : Prop := {
    zs_rel : rel (z_pool s) (z_th s) (z_fl s) A;
    zs_inv : inv N w (z_pool s) (z_th s) (z_fl s);
    zs_inq : inq N (z_pool s) Q;
    zs_s : ssim (z_queue s) Q;
    zs_q : exists qe, qok Q qe;
    zs_good : forall r, zgood (z_thread s r);
    zs_flag : forall r, ie_good w (z_flag s r);
    zs_ms : ms_ok (z_pool s);
    zs_reach : z_reach A Q }.
  Definition z_lags (s : zst) (Q : qst nat) : nat -> bool := owes (z_pool s) (z_fl s) Q.

  (** nobody waits for the end of a thread that has been started but does not run yet *)
  Lemma join_quiet A Q t r x ms g p : z_reach A Q -> p_thr A t = PHold SJoin r x ms g p -> p_run A r <> WStarted.
  Proof.
    intros (q0 & Ls & es & F & EX) X Y. destruct (refines N HN dflt ext_prio q0 Ls _ es F EX) as (ls' & a & EA & SA).
    destruct (reach N dflt ext_prio ls' a es EA) as (own & f & sg & IV & _).
    assert (XA : p_thr a t = PHold SJoin r x ms g p).
    { pose proof (sm_thr _ _ _ SA t) as H. cbn in H. rewrite X in H. unfold thr_ok in H. destruct (q_thr Q t); [now destruct H as (-> & _)|contradiction]. }
    destruct (held_by _ _ _ _ _ _ _ _ _ _ _ _ IV XA) as (_ & _ & _ & _ & _ & QU & _).
    rewrite (run_eq N (PoolStackModel.mkT A Q) a r SA) in QU by (cbn; rewrite Y; discriminate). cbn in QU. rewrite Y in QU. destruct QU; discriminate.
  Qed.
  Lemma n_calls T l T' es t c : nstep T l = Some (T', es) -> In (Call t c) es -> es = [Call t c] /\ l = NCall t c \/ t = 0 /\ (c = IT TBegin \/ c = IT TEnd).
  Proof.
    intros S H. destruct l as [u d|u|u|u|]; cbn [n_step] in S.
    - destruct (n_thr T u); try discriminate. destruct (n_entry u d); [|discriminate].
      assert (E : es = [Call u d]) by (destruct (u =? 0); [destruct (n_task T); try discriminate|]; injection S as _ <-; reflexivity).
      subst es. destruct H as [H|[]]. injection H as <- <-. auto.
    - exfalso. unfold n_is_finished in S. repeat (match type of S with
        | match ?b with _ => _ end = _ => destruct b
        end; try discriminate); injection S as _ <-; cbn [In] in H; intuition discriminate.
    - exfalso. repeat (match type of S with match ?b with _ => _ end = _ => destruct b end; try discriminate); injection S as _ <-; cbn [In] in H; intuition discriminate.
    - exfalso. repeat (match type of S with match ?b with _ => _ end = _ => destruct b end; try discriminate); injection S as _ <-; destruct H.
    - right. destruct (n_task T); try discriminate.
      + destruct (n_st T); [|discriminate]. injection S as _ <-. destruct H.
      + injection S as _ <-. destruct H as [H|[H|[H|[]]]]; try discriminate. injection H as <- <-. auto.
      + destruct (n_thr T 0); try discriminate. injection S as _ <-. destruct H as [H|[]]. injection H as <- <-. auto.
      + injection S as _ <-. destruct H.
      + injection S as _ <-. destruct H as [H|[H|[]]]; discriminate.
  Qed.
  (** what the pool makes of the calls of a thread object *)
  Lemma heard_calls P r T l T' es P' o : ms_ok P -> nstep T l = Some (T', es) -> hears (hear_task r) P es = Some (P', o) ->
    forall t c, In (Call t c) es -> t = 0 /\ (c = IT TBegin \/ c = IT TEnd) \/ t <> 0 /\ (c = IT TStart \/ exists ms, c = IT (TWait ms) /\ (-1 <= ms)%Z).
  Proof.
    intros M ST H t c C. destruct (n_calls _ _ _ _ _ _ ST C) as [(-> & ->)|X]; [|auto]. cbn in H. destruct c as [c|p|]; try discriminate.
    destruct t as [|t]; [left; cbn in H; destruct c; try discriminate; auto|]. right. split; [discriminate|]. cbn in H.
    destruct (wants_thread P t) as [(r', c')|] eqn:W; [|discriminate]. destruct (r =? r'); [|discriminate]. destruct (tcall_dec c c') as [<-|]; [|discriminate].
    destruct (PoolObjects.th_shape _ _ _ _ W) as [(x & ms & g & p & -> & Y)|(x & ms & g & p & -> & Y)]; [right|now left]. exists ms. split; [reflexivity|]. pose proof (M t) as Mt. rewrite Y in Mt. exact Mt.
  Qed.
  Lemma queue_calm P s l s' es P' o : ms_ok P -> z_calm (ZQueue l) -> itr_step nat size w wf dbg s l = Some (s', es) -> hears (hear_queue N) P es = Some (P', o) -> itr_calm nat l.
  Proof.
    intros M C S H. destruct l as [t c|t|m l|l|t b]; cbn in C |- *; auto. unfold itr_step in S. cbn [c_step] in S. destruct (c_thr s t); try discriminate. injection S as <- <-.
    cbn in H. destruct (wants N P t) as [c'|] eqn:W; [|discriminate]. destruct (qcall_dec c c') as [<-|]; [|discriminate].
    destruct (PoolObjects.q_shape _ _ _ _ W) as [x ms g p Y _|r g Y|th Y LT Z]; cbn; try lia. pose proof (M t) as Mt. rewrite Y in Mt. exact Mt.
  Qed.

  Lemma z_one s A Q l s' o : zsim s A Q -> z_calm l -> zstep s l = Some (s', o) ->
    exists Ls A' Q' es ew, exec sstep (PoolStackModel.mkT A Q) Ls = Some (PoolStackModel.mkT A' Q', es) /\ zsim s' A' Q' /\ late (z_lags s Q) es (z_lags s' Q') ew /\ history ew = o.
  Proof.
    intros [R I IQ HS (qe & HQ) GT GF MS RE] CA ST.
    assert (FIN : forall P' c' T' E' Q' o', sim2 N dflt ext_prio w (z_pool s) (z_th s) (z_fl s) Q A P' (z_th (mkZ P' c' T' E')) (z_fl (mkZ P' c' T' E')) Q' o' ->
      ssim c' Q' -> (exists qe', qok Q' qe') -> (forall r, zgood (T' r)) -> (forall r, ie_good w (E' r)) -> ms_ok P' ->
      exists Ls A' Q' es ew, exec sstep (PoolStackModel.mkT A Q) Ls = Some (PoolStackModel.mkT A' Q', es) /\ zsim (mkZ P' c' T' E') A' Q' /\ late (z_lags s Q) es (z_lags (mkZ P' c' T' E') Q') ew /\ history ew = o').
    { intros P' c' T' E' Q' o' (Ls & A' & es & ew & X & R' & I' & IQ' & L & H) HS' HQ' GT' GF' MS'. exists Ls, A', Q', es, ew. split; [exact X|]. split; [|split; [exact L|exact H]].
      constructor; auto. destruct RE as (q0 & Ls0 & es0 & F & EX). exists q0, (Ls0 ++ Ls), (es0 ++ es). split; [exact F|]. now rewrite exec_app, EX, X. }
    destruct l as [l|l|r l|r l]; cbn [z_step] in ST.
    - destruct (local (z_pool s) l) eqn:LO; [|discriminate]. destruct (pstep (z_pool s) l) as [(P', es)|] eqn:SP; [|discriminate]. injection ST as <- <-.
      destruct (PoolObjects.local_step N HN dflt ext_prio w _ _ _ Q A l P' es I R IQ LO SP) as (OQ & A1 & SA & K). apply (FIN P' (z_queue s) (z_thread s) (z_flag s) Q); eauto.
      + apply sim1_sim2. exists A1, es, es. split; [right; exists l; auto|]. destruct K as [K1 K2 K3 K4]. auto.
      + exact (ms_local _ _ _ _ _ _ _ MS CA SP).
    - destruct (itr_step nat size w wf dbg (z_queue s) l) as [(c', es)|] eqn:SQ; [|discriminate].
      destruct (hears (hear_queue N) (z_pool s) es) as [(P', o')|] eqn:HE; [|discriminate]. injection ST as <- <-.
      pose proof (queue_calm _ _ _ _ _ _ _ MS CA SQ HE) as QC. pose proof (ms_hears _ _ (ms_queue N) _ _ _ MS HE) as MS'.
      destruct (S_step nat size HM 1 w Hw _ _ _ _ _ _ im_good im_ph iabs im_nofail (ie_good w) ie_ph f_ptn (fun ms => (-1 <= ms)%Z) true im_call_one (ie_call_one w wf dbg) (im_ok 1)
        (itr_e_ok w wf Hw Hwf dbg) _ _ _ l c' es HS HQ (itr_lab_calm nat l QC) SQ) as (qls & Q' & qes & EX & HH & QU & HS').
      rewrite <- HH in HE. apply (FIN P' c' (z_thread s) (z_flag s) Q'); auto.
      + exact (PoolObjects.q_many N HN dflt ext_prio w _ _ qls _ _ A _ _ _ _ I R IQ (fun x hx => QU eq_refl x hx) EX HE).
      + exists (qe ++ qes). exact (qinv_exec nat size HM _ _ _ _ _ HQ EX).
    - destruct (Nat.ltb_spec r N) as [LT|]; [|discriminate]. destruct (nstep (z_thread s r) l) as [(Tr, es)|] eqn:SQ; [|discriminate].
      destruct (hears (hear_task r) (z_pool s) es) as [(P', o')|] eqn:HE; [|discriminate]. injection ST as <- <-.
      destruct (task_step dflt minp maxp ext_prio (z_thread s r) l Tr es (GT r) SQ (heard_calls _ _ _ _ _ _ _ _ MS SQ HE)) as (G' & es' & -> & TR).
      { intros u ms Hp. change (absI (z_thread s r)) with (z_th s r) in *. pose proof (iv_th _ _ _ _ _ I r u) as HT. rewrite Hp in HT. cbn in HT. destruct HT as (t & -> & W).
        destruct (PoolObjects.th_shape _ _ _ _ W) as [(x & ms' & g & p & E1 & Y)|(x & ms' & g & p & E1 & Y)]; [|discriminate].
        assert (AT : p_thr A t = PHold SJoin r x ms' g p).
        { rewrite (rl_thr _ _ _ _ R). unfold abs_thr. rewrite Y. unfold th_done. now rewrite Hp. }
        pose proof (join_quiet _ _ _ _ _ _ _ _ RE AT) as NS. rewrite (rl_run _ _ _ _ R) in NS. unfold abs_run in NS. intros HH. now rewrite HH in NS. }
      rewrite hears_up in HE. apply (FIN P' (z_queue s) (fupd (z_thread s) r Tr) (z_flag s) Q); eauto.
      + apply (thread_evs N HN dflt ext_prio w r _ _ _ TR _ (z_th s) _ Q A P' o'); auto.
        * intros q Ne. unfold z_th. cbn. now rewrite fupd_other.
        * unfold z_th. cbn. now rewrite fupd_same.
      + intros r'. rewrite fupd_eq. destruct (r' =? r); auto.
      + exact (ms_hears _ _ (ms_thread r) _ _ _ MS HE).
    - destruct (f_step w wf dbg false (z_flag s r) l) as [(e', es)|] eqn:SQ; [|discriminate].
      destruct (hears (hear_flag N r) (z_pool s) es) as [(P', o')|] eqn:HE; [|discriminate]. injection ST as <- <-.
      assert (CO : forall t c, In (Call t c) es -> ecall_ok w c /\ tmout_ok c).
      { intros t c Hc. pose proof (ie_call_one w wf dbg _ _ _ _ _ _ SQ Hc) as ->. cbn in HE. destruct (wants_flag N (z_pool s) t) as [(r', c')|] eqn:W; [|discriminate].
        destruct (r =? r'); [|discriminate]. destruct (ecall_dec c c') as [->|]; [|discriminate]. pose proof (MS t) as Mt.
        destruct (PoolObjects.fl_shape _ _ _ _ _ W) as [g ms Y G|g Y G|g Y|th Y L EQ Z|th Y L EQ Z]; cbn; split; auto; try lia. rewrite Y in Mt. exact Mt. }
      destruct (ie_ok w wf w0 Hwf dbg _ _ _ _ (GF r) SQ CO) as (G' & f & f' & F & L & F').
      apply (FIN P' (z_queue s) (z_thread s) (fupd (z_flag s) r e') Q); eauto.
      + apply (flag_evs N HN dflt ext_prio w Hw r es _ _ (z_fl s) Q A P' o' f (f_ptn (z_flag s r)) f' (f_ptn e')); auto.
        * intros u. unfold z_fl. cbn. now rewrite F.
        * intros q Ne. unfold z_fl. cbn. now rewrite fupd_other.
        * intros u. unfold z_fl. cbn. now rewrite fupd_same, F'.
        * unfold z_fl. cbn. now rewrite fupd_same.
      + intros r'. rewrite fupd_eq. destruct (r' =? r); auto.
      + exact (ms_hears _ _ (ms_flag N r) _ _ _ MS HE).
  Qed.
  Lemma z_run ls : forall s A Q s' o, zsim s A Q -> (forall l, In l ls -> z_calm l) -> exec zstep s ls = Some (s', o) ->
    exists Ls A' Q' es ew, exec sstep (PoolStackModel.mkT A Q) Ls = Some (PoolStackModel.mkT A' Q', es) /\ zsim s' A' Q' /\ late (z_lags s Q) es (z_lags s' Q') ew /\ history ew = o.
  Proof.
    induction ls as [|l ls IH]; intros s A Q s' o S CA EX; cbn [exec] in EX.
    - injection EX as <- <-. exists [], A, Q, [], []. split; [reflexivity|]. split; [exact S|]. split; [apply lt_nil; reflexivity|reflexivity].
    - destruct (zstep s l) as [[s1 o1]|] eqn:E1; [|discriminate]. destruct (exec zstep s1 ls) as [[s2 o2]|] eqn:E2; [|discriminate]. injection EX as <- <-.
      destruct (z_one s A Q l s1 o1 S (CA l (or_introl eq_refl)) E1) as (L1 & A1 & Q1 & es1 & ew1 & X1 & S1 & T1 & H1).
      destruct (IH s1 A1 Q1 s2 o2 S1 (fun x hx => CA x (or_intror hx)) E2) as (L2 & A2 & Q2 & es2 & ew2 & X2 & S2 & T2 & H2).
      exists (L1 ++ L2), A2, Q2, (es1 ++ es2), (ew1 ++ ew2). split; [now rewrite exec_app, X1, X2|]. split; [exact S2|]. split; [exact (late_app _ _ _ _ T1 _ _ _ T2)|].
      unfold history in *. now rewrite filter_app, H1, H2.
  Qed.
  Lemma z_start c0 : z_filled N w wf dbg c0 -> exists q0, filled N q0 /\ zsim (z_init dflt c0) (t_pool_init dflt) q0 /\ forall u, z_lags (z_init dflt c0) q0 u = false.
  Proof.
    intros (c & ls & es & EX & CA & HE & ID).
    destruct (stack_refines nat size HM 1 w Hw _ _ _ _ _ _ _ _ im_good im_ph iabs im_nofail (ie_good w) ie_ph f_ptn (fun ms => (-1 <= ms)%Z) true
      im_start (ie_start w w0) im_call_one (ie_call_one w wf dbg) (im_ok 1) (itr_e_ok w wf Hw Hwf dbg) ls c0 es (fun l hl => itr_lab_calm nat l (CA l hl)) EX) as (qls & q0 & qes & QX & HH & _ & HS & HQ).
    assert (QI : forall t, q_thr q0 t = QIdle).
    { intros t. rewrite (r_thr _ _ _ _ _ _ _ _ _ (s_r _ _ _ _ _ _ _ _ _ _ _ _ _ HS) t). rewrite (ID t). reflexivity. }
    assert (FI : filled N q0).
    { exists c, qls, qes. split; [exact QX|]. split; [|exact QI]. destruct (qi_q _ _ _ _ HQ) as (m & _ & _ & _ & f & L & _).
      eapply seq_effects; [exact L|reflexivity|]. now rewrite HH. }
    exists q0. split; [exact FI|]. split; [|reflexivity].
    constructor; cbn; auto.
    - constructor; reflexivity.
    - split.
      + intros r. reflexivity.
      + intros r _ _. reflexivity.
      + intros r _. reflexivity.
      + intros r u. destruct u; exact Logic.I.
      + intros r u. exact Logic.I.
      + intros r. split; [apply Z.le_refl|]. apply Z.pow_pos_nonneg; lia.
    - intros t x pt Hx. rewrite QI in Hx. discriminate.
    - eauto.
    - intros r. apply zgood_init.
    - intros r. apply (ie_start w w0).
    - intros t. exact Logic.I.
    - exists q0, [], []. split; [exact FI|reflexivity].
  Qed.
  Theorem itron_refines c0 ls s o : z_filled N w wf dbg c0 -> (forall l, In l ls -> z_calm l) -> exec zstep (z_init dflt c0) ls = Some (s, o) ->
    exists q0 Ls A Q es ew, filled N q0 /\ exec sstep (PoolStackModel.t_init dflt q0) Ls = Some (PoolStackModel.mkT A Q, es) /\
      late (fun _ => false) es (z_lags s Q) ew /\ history ew = o /\ zsim s A Q.
  Proof.
    intros F CA EX. destruct (z_start c0 F) as (q0 & F0 & S0 & L0). destruct (z_run ls _ _ _ _ _ S0 CA EX) as (Ls & A & Q & es & ew & X & S & L & H).
    exists q0, Ls, A, Q, es, ew. split; [exact F0|]. split; [exact X|]. split; [|split; [exact H|exact S]]. eapply late_ext; [exact L|intros t; now rewrite L0|reflexivity].
  Qed.
  (** ** what follows for callers.  [ew] is the history [o] with the instants of effect *)
  Lemma itron_pool_explained c0 ls s o : z_filled N w wf dbg c0 -> (forall l, In l ls -> z_calm l) -> exec zstep (z_init dflt c0) ls = Some (s, o) ->
    exists ew f sg A Q es Ls q0 a ls', explains N ext_prio o ew f sg /\ zsim s A Q /\ late (fun _ => false) es (z_lags s Q) ew /\ filled N q0 /\ exec sstep (PoolStackModel.t_init dflt q0) Ls = Some (PoolStackModel.mkT A Q, es) /\ exec pstep (p_init N dflt) ls' = Some (a, es) /\ PoolStackProofs.sim N (PoolStackModel.mkT A Q) a.
  Proof.
    intros F CA EX. destruct (itron_refines c0 ls s o F CA EX) as (q0 & Ls & A & Q & es & ew & F0 & X & L & H & S).
    destruct (refines N HN dflt ext_prio q0 Ls _ es F0 X) as (ls' & a & EA & SA).
    destruct (reach N dflt ext_prio ls' a es EA) as (own & f & sg & _ & LR & _).
    destruct (late_lin _ _ _ _ _ _ L _ _ _ _ (fun _ => Out) (fun _ => eq_refl) LR) as (g & G & _).
    exists ew, g, sg, A, Q, es, Ls, q0, a, ls'. unfold explains. tauto.
  Qed.
  Theorem itron_pool_atomic c0 ls s o : z_filled N w wf dbg c0 -> (forall l, In l ls -> z_calm l) -> exec zstep (z_init dflt c0) ls = Some (s, o) ->
    linearizable (pspec_lossy N ext_prio) all_free o.
  Proof. intros F CA EX. destruct (itron_pool_explained c0 ls s o F CA EX) as (ew & f & sg & _ & _ & _ & _ & _ & _ & _ & (H & L) & _). exists ew, f, sg. auto. Qed.
  Theorem itron_pool_atomic_strict c0 ls s o : z_filled N w wf dbg c0 -> (forall l, In l ls -> z_calm l) -> exec zstep (z_init dflt c0) ls = Some (s, o) ->
    (forall t x ms g p, In (Call t (PStart x ms g p)) o -> ms = (-1)%Z) -> linearizable (pspec N ext_prio) all_free o.
  Proof.
    intros F CA EX PA. destruct (itron_pool_explained c0 ls s o F CA EX) as (ew & f & sg & A & Q & es & Ls & q0 & a & ls' & (H & L) & WS & LA & F0 & X & EA & _).
    exists ew, f, sg. split; [exact H|]. apply no_loss_strict; [exact L|]. apply lin_run_effects in L.
    apply (lost_count N ext_prio ew sg L). rewrite (late_effects _ _ _ _ LA).
    apply no_timed_out_count. apply (patient_never_times_out N dflt ext_prio ls' a es EA).
    intros t x ms g p C. apply (PA t x ms g p). rewrite <- H. apply filter_In. split; [|reflexivity]. now apply (late_calls _ _ _ _ LA).
  Qed.
  Theorem itron_pool_tasks c0 ls s o : z_filled N w wf dbg c0 -> (forall l, In l ls -> z_calm l) -> exec zstep (z_init dflt c0) ls = Some (s, o) ->
    exists ew f sg, explains N ext_prio o ew f sg /\ forall x,
      count_eff (ended x) (effects ew) <= count_eff (begun x) (effects ew) <= count_eff (accepted x) (effects ew) /\ ((forall r, r < N -> n_dormant (z_thread s r) = true /\ n_fin (z_thread s r) = true) ->
        count_eff (begun x) (effects ew) = count_eff (accepted x) (effects ew) /\ count_eff (ended x) (effects ew) = count_eff (accepted x) (effects ew)).
  Proof.
    intros F CA EX. destruct (itron_pool_explained c0 ls s o F CA EX) as (ew & f & sg & A & Q & es & Ls & q0 & a & ls' & EE & WS & LA & F0 & X & EA & _).
    exists ew, f, sg. split; [exact EE|]. intros x. rewrite (late_effects _ _ _ _ LA).
    destruct (stack_each_task_once N HN dflt ext_prio q0 Ls _ es x F0 X) as (C1 & C2). split; [exact C1|]. intros AC. apply C2. intros r Hr. cbn.
    apply (off_off _ _ _ _ _ _ r (zs_inv _ _ _ WS) (zs_rel _ _ _ WS)). destruct (AC r Hr) as (A1 & A2). unfold z_th, absI, abs_st. cbn.
    revert A1. unfold n_dormant. rewrite A2. destruct (n_task (z_thread s r)); congruence.
  Qed.
  Theorem itron_pool_guard_waits c0 ls s o : z_filled N w wf dbg c0 -> (forall l, In l ls -> z_calm l) -> exec zstep (z_init dflt c0) ls = Some (s, o) ->
    exists ew f sg, explains N ext_prio o ew f sg /\ forall l1 l2 l3 t x ms g p c res,
    effects ew = l1 ++ (t, PStart x ms (Some g) p, PErr OK) :: l2 ++ (t, c, res) :: l3 ->
    (exists ms', c = PWait g ms' /\ res = PErr OK) \/ c = PRelease g -> ~ In (t, PRelease g, PVoid) l2 ->
    exists r q th m1 m2 m3, r < N /\ l2 = m1 ++ (r, PBegin x q, PVoid) :: m2 ++ (r, PEnd x th, PVoid) :: m3 /\ forall v, p = Some v -> q = v.
  Proof.
    intros F CA EX. destruct (itron_pool_explained c0 ls s o F CA EX) as (ew & f & sg & A & Q & es & Ls & q0 & a & ls' & EE & WS & LA & F0 & X & EA & _).
    exists ew, f, sg. split; [exact EE|]. intros l1 l2 l3 t x ms g p c res. rewrite (late_effects _ _ _ _ LA). exact (stack_guard_waits N HN dflt ext_prio q0 Ls _ es l1 l2 l3 t x ms g p c res F0 X).
  Qed.
  Theorem itron_pool_memory c0 ls s o : z_filled N w wf dbg c0 -> (forall l, In l ls -> z_calm l) -> exec zstep (z_init dflt c0) ls = Some (s, o) -> c_ub (z_queue s) = false.
  Proof.
    intros F CA EX. destruct (itron_refines c0 ls s o F CA EX) as (q0 & Ls & A & Q & es & ew & F0 & X & L & H & S).
    rewrite <- (r_ub _ _ _ _ _ _ _ _ _ (s_r _ _ _ _ _ _ _ _ _ _ _ _ _ (zs_s _ _ _ S))). destruct (zs_q _ _ _ S) as (qe & HQ). exact (qi_ub _ _ _ _ HQ).
  Qed.
End Z.
