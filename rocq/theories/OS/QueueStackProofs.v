(** Proofs about the queue over implementations: every run is, seen by the queue's callers, a run of OS/MessageQueueModel. *)
From Coq Require Import List ZArith Bool Lia Arith.
Import ListNotations.
From Verif Require Import Spec.OSError Spec.Linear Spec.MutexSpec Spec.EventFlagSpec Spec.MessageQueueSpec OS.Sched OS.MessageQueueModel
  OS.MessageQueueProofs OS.QueueStackModel.
Open Scope Z_scope.

Lemma which_eqb_spec a b : reflect (a = b) (which_eqb a b).
Proof. destruct a, b; constructor; congruence. Qed.
Lemma wupd_eq {A} (f : which -> A) o x o' : wupd f o x o' = if which_eqb o' o then x else f o'.
Proof. reflexivity. Qed.
Lemma set_st_eq {C R} (f : nat -> status C R) t x u : set_st f t x u = if Nat.eqb u t then x else f u.
Proof. reflexivity. Qed.

Section Sim.
  Variable V : Type.
  Variable maxSize : Z.
  Hypothesis Hmax : 0 <= maxSize < 2 ^ 64 - 1.
  Variable M : nat.
  Variable w : Z.
  Hypothesis Hw : 2 <= w.
  Notation B := (rbBufSize maxSize).
  Notation qstep := (q_step V maxSize).
  Notation qinv := (qinv V maxSize).
  Notation spec := (espec w false).

  (** what the queue model sees of a thread, of the statuses of its calls on the objects and of the objects' states *)
  Definition abs_pc (fm : which -> nat -> status mcall err) (fe : nat -> status ecall eres) (x : cpc V) (t : nat) : qpc V :=
    match x with
    | CIdle => QIdle
    | CBefore _ c p => QAt c p
    | CIn g c p => match uses g c p with
                 | Some (OMutex o _) => match fm o t with Done r => QAt c (after_mutex c p r) | _ => QAt c p end
                 | Some (OEvent _) => match fe t with Done r => QAt c (after_event c p r) | _ => QAt c p end
                 | None => QAt c p
                 end
    end.
  Definition at_mtx (o : which) (x : cpc V) : option mcall :=
    match x with CIn g c p => match uses g c p with Some (OMutex o' m) => if which_eqb o o' then Some m else None | _ => None end | _ => None end.
  Definition at_evt (x : cpc V) : option ecall :=
    match x with CIn g c p => match uses g c p with Some (OEvent m) => Some m | _ => None end | _ => None end.
  Definition st_fits {C R} (a : option C) (x : status C R) : Prop :=
    match a with Some m => x = Pending m \/ exists r, x = Done r | None => x = Out end.
  Definition on_obj (x : cpc V) : Prop := match x with CIn g c p => g = true /\ uses g c p <> None | CBefore g _ _ => g = true | CIdle => True end.

  Record R (thr : nat -> cpc V) (fm : which -> nat -> status mcall err) (am : which -> option (nat * nat))
           (fe : nat -> status ecall eres) (ae : Z) (rg : ring V) (ub : bool) (q : qst V) : Prop := {
    r_ring : q_ring q = rg;
    r_ub : q_ub q = ub;
    r_ne : q_ne q = Z.testbit ae 0;
    r_nf : q_nf q = Z.testbit ae 1;
    r_mrb : q_mrb q = option_map fst (am ORB);
    r_msend : q_msend q = option_map fst (am OSnd);
    r_mrecv : q_mrecv q = option_map fst (am ORcv);
    r_one : forall o t n, am o = Some (t, n) -> n = 1%nat;
    r_thr : forall t, q_thr q t = abs_pc fm fe (thr t) t;
    r_m : forall o t, st_fits (at_mtx o (thr t)) (fm o t);
    r_e : forall t, st_fits (at_evt (thr t)) (fe t);
    r_on : forall t, on_obj (thr t);
    r_lk : forall t r c p, thr t = CIn true c p -> fm ORB t = Done r -> after_guard true p r = true
  }.

  Lemma R_ext thr fm am fe ae rg ub q thr' fm' am' fe' :
    R thr fm am fe ae rg ub q -> (forall t, thr' t = thr t) -> (forall o t, fm' o t = fm o t) -> (forall o, am' o = am o) -> (forall t, fe' t = fe t) ->
    R thr' fm' am' fe' ae rg ub q.
  Proof.
    intros H E1 E2 E4 E3. constructor; try rewrite E4; try apply H.
    - intros o t n. rewrite E4. apply H.
    - intros t. rewrite (r_thr _ _ _ _ _ _ _ _ H), E1. unfold abs_pc. destruct (thr t) as [|g c p|g c p]; try reflexivity.
      destruct (uses g c p) as [[o m|e]|]; rewrite ?E2, ?E3; reflexivity.
    - intros o t. rewrite E1, E2. apply H.
    - intros t. rewrite E1, E3. apply H.
    - intros t. rewrite E1. apply H.
    - intros t r c p. rewrite E1, E2. apply H.
  Qed.

  (** the mutex a thread holds, by its position *)
  Lemma holds_rb q es t : qinv q es -> (q_mrb q = Some t <-> h_rb V (q_thr q t) = true).
  Proof. intros H. symmetry. apply (qi_rb _ _ _ _ H). Qed.

  Lemma outer_owner thr fm am fe ae rg ub q (c : qcall V) : R thr fm am fe ae rg ub q -> outer q c = option_map fst (am (outer_of c)).
  Proof. intros H. unfold outer, outer_of. destruct (is_send c); apply H. Qed.
  Lemma outer_held q es t c p : qinv q es -> q_thr q t = QAt c p -> sr V c -> (outer q c = Some t <-> in_outer V p = true).
  Proof.
    intros H Q S. unfold outer. destruct c; cbn in S; try tauto; cbn [is_send].
    - rewrite <- (qi_send _ _ _ _ H t), Q. reflexivity.
    - rewrite <- (qi_recv _ _ _ _ H t), Q. reflexivity.
  Qed.

  Notation qexec := (exec qstep).
  Lemma exec_one q l q' qes : qstep q l = Some (q', qes) -> qexec q [l] = Some (q', qes).
  Proof. intros E. cbn. rewrite E. now rewrite app_nil_r. Qed.
  Lemma exec_none q : qexec q [] = Some (q, []).
  Proof. reflexivity. Qed.

  (** a step of one thread of the queue model, matched by an effect at mutex [o] *)
  Lemma mtx_move thr fm am fe ae rg ub q o t g c p m r a' mrb ms mr :
    R thr fm am fe ae rg ub q -> thr t = CIn g c p -> uses g c p = Some (OMutex o m) ->
    mrb = option_map fst (wupd am o a' ORB) -> ms = option_map fst (wupd am o a' OSnd) -> mr = option_map fst (wupd am o a' ORcv) ->
    (forall u n, a' = Some (u, n) -> n = 1%nat) -> after_guard true p r = true ->
    R thr (wupd fm o (set_st (fm o) t (Done r))) (wupd am o a') fe ae rg ub
      (mkQ (q_ring q) (q_ne q) (q_nf q) mrb ms mr (q_ub q) (fupd (q_thr q) t (QAt c (after_mutex c p r)))).
  Proof.
    intros H T U E1 E2 E3 D AG. constructor; cbn [q_ring q_ne q_nf q_mrb q_msend q_mrecv q_ub q_thr]; try apply H; try assumption.
    - intros o' u n. rewrite wupd_eq. destruct (which_eqb o' o); [apply D|apply H].
    - intros u. rewrite fupd_eq. destruct (Nat.eqb_spec u t) as [->|N].
      + unfold abs_pc. rewrite T, U, wupd_eq. destruct (which_eqb_spec o o); [|congruence]. now rewrite set_st_eq, Nat.eqb_refl.
      + rewrite (r_thr _ _ _ _ _ _ _ _ H). unfold abs_pc. destruct (thr u) as [|g' c' p'|g' c' p']; try reflexivity.
        destruct (uses g' c' p') as [[o' m'|e]|]; try reflexivity. rewrite wupd_eq. destruct (which_eqb_spec o' o) as [->|]; [|reflexivity].
        rewrite set_st_eq. destruct (Nat.eqb_spec u t); [congruence|reflexivity].
    - intros o' u. rewrite wupd_eq. destruct (which_eqb_spec o' o) as [->|]; [|apply H].
      rewrite set_st_eq. destruct (Nat.eqb_spec u t) as [->|N]; [|apply H].
      unfold at_mtx. rewrite T, U. destruct (which_eqb_spec o o); [|congruence]. right. eauto.
    - intros u r' c' p' Tu. rewrite wupd_eq. destruct (which_eqb_spec ORB o) as [<-|]; [|exact (r_lk _ _ _ _ _ _ _ _ H u r' c' p' Tu)].
      rewrite set_st_eq. destruct (Nat.eqb_spec u t) as [->|N]; [|exact (r_lk _ _ _ _ _ _ _ _ H u r' c' p' Tu)].
      intros Y. injection Y as <-. congruence.
  Qed.
  Ltac pick_which := intros; repeat rewrite wupd_eq; cbn [which_eqb]; try reflexivity; auto.

  (** [strict]: no lock() fails at all *)
  Variable strict : Prop.
  Definition quiet (l : qlab V) : Prop := match l with QLockFail _ | QThrow _ _ => False | _ => True end.
  Definition hq (qls : list (qlab V)) (qes : list (event (qcall V) (qres V))) : Prop := history qes = [] /\ (strict -> forall l, In l qls -> quiet l).
  Lemma hq_nil : hq [] [].
  Proof. split; [reflexivity|intros _ l []]. Qed.
  Lemma hq_app a b x y : hq a x -> hq b y -> hq (a ++ b) (x ++ y).
  Proof.
    intros (A & A') (B & B'). split; [unfold history in *; now rewrite filter_app, A, B|]. intros St l Hl. apply in_app_or in Hl. destruct Hl; [now apply A'|now apply B'].
  Qed.
  Ltac hq1 := split; [reflexivity|intros _ ? [<-|[]]; exact Logic.I].
  Lemma mutex_eff thr fm am fe ae rg ub q es o t m r f' a' :
    R thr fm am fe ae rg ub q -> qinv q es ->
    fm o t = Pending m -> mspec M (am o) t m r a' -> (forall u, f' u = set_st (fm o) t (Done r) u) ->
    (o = ORB \/ strict -> is_lock m = true -> r <> OtherError) ->
    exists qls q' qes, qexec q qls = Some (q', qes) /\ hq qls qes /\ R thr (wupd fm o f') (wupd am o a') fe ae rg ub q'.
  Proof.
    intros H I F S Ef NF.
    assert (X : exists qls q' qes, qexec q qls = Some (q', qes) /\ hq qls qes /\
                R thr (wupd fm o (set_st (fm o) t (Done r))) (wupd am o a') fe ae rg ub q').
    2:{ destruct X as (qls & q' & qes & E & Hh & HR). exists qls, q', qes. split; [exact E|]. split; [exact Hh|].
        eapply R_ext; [exact HR|reflexivity| |reflexivity|reflexivity]. intros o' u. rewrite !wupd_eq. destruct (which_eqb o' o); [apply Ef|reflexivity]. }
    clear Ef f'.
    pose proof (r_m _ _ _ _ _ _ _ _ H o t) as Fit. unfold st_fits in Fit. rewrite F in Fit.
    destruct (at_mtx o (thr t)) as [m'|] eqn:A; [|discriminate].
    destruct Fit as [Fit|(r' & Fit)]; [|discriminate]. injection Fit as <-.
    unfold at_mtx in A. destruct (thr t) as [|g c p|g c p] eqn:T; try discriminate.
    destruct (uses g c p) as [[o' m'|e]|] eqn:U; try discriminate. destruct (which_eqb_spec o o') as [<-|]; [|discriminate]. injection A as ->.
    pose proof (r_on _ _ _ _ _ _ _ _ H t) as On. rewrite T in On. destruct On as (-> & _).
    pose proof (r_thr _ _ _ _ _ _ _ _ H t) as Qt. unfold abs_pc in Qt. rewrite T, U, F in Qt.
    pose proof (fun a' mrb ms mr => mtx_move thr fm am fe ae rg ub q o t true c p m r a' mrb ms mr H T U) as MV.
    destruct (qi_q _ _ _ _ I) as (ql & _ & PC & _). specialize (PC t). rewrite Qt in PC.
    pose proof (r_one _ _ _ _ _ _ _ _ H o) as One.
    destruct p; cbn [uses] in U; try discriminate.
    - (* PLockOuter *)
      injection U as <- <-. cbn in PC.
      pose proof (outer_owner _ _ _ _ _ _ _ _ c H) as OO. pose proof (outer_held q es t c _ I Qt PC) as OH. cbn [in_outer] in OH.
      unfold mspec in S. cbn [is_lock] in S. destruct r; try contradiction.
      + destruct S as [(S & ->)|(n & S & _)]; [|exfalso; rewrite S in OO; cbn in OO; apply OH in OO; discriminate].
        eexists [QStep t], _, _. split.
        { apply exec_one. cbn [q_step]. rewrite Qt, OO, S. cbn [option_map free]. reflexivity. }
        split; [hq1|]. unfold set_outer, outer_of. cbn [after_mutex] in MV. destruct (is_send c) eqn:Sc; cbn [q_go q_ring q_ne q_nf q_mrb q_msend q_mrecv q_ub q_thr]; unfold outer_of in MV; rewrite Sc in MV; apply MV; pick_which; try apply H; try congruence.
      + destruct S as (NU & -> & u & n & S & _). eexists [QTimeout t], _, _. split.
        { apply exec_one. cbn [q_step]. rewrite Qt, OO, S. cbn [option_map free orb]. destruct (Z.eqb_spec (tmout c) (-1)); [contradiction|]. reflexivity. }
        split; [hq1|]. unfold q_go. apply MV; try reflexivity; try (intros; eapply One; eassumption).
        all: rewrite wupd_eq; destruct c; cbn in PC; try contradiction; cbn; apply H.
      + subst a'. eexists [QLockFail t], _, _. split.
        { apply exec_one. cbn [q_step]. rewrite Qt. reflexivity. }
        split; [split; [reflexivity|intros St; now elim (NF (or_intror St) eq_refl)]|]. unfold q_go. apply MV; try reflexivity; try (intros; eapply One; eassumption).
        all: rewrite wupd_eq; destruct c; cbn in PC; try contradiction; cbn; apply H.
    - (* PLockChk *)
      injection U as <- <-. pose proof (holds_rb q es t I) as HH. rewrite Qt in HH. cbn in HH.
      pose proof (r_mrb _ _ _ _ _ _ _ _ H) as OO.
      unfold mspec in S. cbn [is_lock] in S. destruct r; try contradiction.
      + destruct S as [(S & ->)|(n & S & _)]; [|exfalso; rewrite OO, S in HH; cbn in HH; destruct HH as [HH _]; discriminate (HH eq_refl)].
        eexists [QStep t], _, _. split.
        { apply exec_one. cbn [q_step]. rewrite Qt, OO, S. cbn [option_map free]. reflexivity. }
        split; [hq1|]. unfold set_mrb, q_go. cbn [q_ring q_ne q_nf q_mrb q_msend q_mrecv q_ub q_thr]. apply MV; pick_which; try apply H; congruence.
      + destruct S as (NU & _). elim NU. exact Logic.I.
      + now elim (NF (or_introl eq_refl) eq_refl).
    - (* PUnlockChk *)
      injection U as <- <-. pose proof (holds_rb q es t I) as HH. rewrite Qt in HH. cbn in HH. destruct HH as [_ HH]. specialize (HH eq_refl).
      pose proof (r_mrb _ _ _ _ _ _ _ _ H) as OO. rewrite HH in OO.
      destruct (am ORB) as [[u n]|] eqn:AM; [|discriminate]. injection OO as <-. rewrite (One t n eq_refl) in S.
      unfold mspec in S. cbn [is_lock] in S. rewrite Nat.eqb_refl in S. destruct S as (-> & ->).
      eexists [QStep t], _, _. split; [apply exec_one; cbn [q_step]; rewrite Qt; reflexivity|].
      split; [hq1|]. unfold set_mrb, q_go. cbn [q_ring q_ne q_nf q_mrb q_msend q_mrecv q_ub q_thr]. apply MV; pick_which; try apply H; discriminate.
    - (* PLockOp *)
      injection U as <- <-. pose proof (holds_rb q es t I) as HH. rewrite Qt in HH. cbn in HH.
      pose proof (r_mrb _ _ _ _ _ _ _ _ H) as OO.
      unfold mspec in S. cbn [is_lock] in S. destruct r; try contradiction.
      + destruct S as [(S & ->)|(n & S & _)]; [|exfalso; rewrite OO, S in HH; cbn in HH; destruct HH as [HH _]; discriminate (HH eq_refl)].
        eexists [QStep t], _, _. split.
        { apply exec_one. cbn [q_step]. rewrite Qt, OO, S. cbn [option_map free]. reflexivity. }
        split; [hq1|]. unfold set_mrb, q_go. cbn [q_ring q_ne q_nf q_mrb q_msend q_mrecv q_ub q_thr]. apply MV; pick_which; try apply H; congruence.
      + destruct S as (NU & _). elim NU. exact Logic.I.
      + now elim (NF (or_introl eq_refl) eq_refl).
    - (* PUnlockOp *)
      injection U as <- <-. pose proof (holds_rb q es t I) as HH. rewrite Qt in HH. cbn in HH. destruct HH as [_ HH]. specialize (HH eq_refl).
      pose proof (r_mrb _ _ _ _ _ _ _ _ H) as OO. rewrite HH in OO.
      destruct (am ORB) as [[u n]|] eqn:AM; [|discriminate]. injection OO as <-. rewrite (One t n eq_refl) in S.
      unfold mspec in S. cbn [is_lock] in S. rewrite Nat.eqb_refl in S. destruct S as (-> & ->).
      eexists [QStep t], _, _. split; [apply exec_one; cbn [q_step]; rewrite Qt; reflexivity|].
      split; [hq1|]. unfold set_mrb, q_go. cbn [q_ring q_ne q_nf q_mrb q_msend q_mrecv q_ub q_thr]. apply MV; pick_which; try apply H; discriminate.
    - (* PUnlockOuter *)
      injection U as <- <-. cbn in PC.
      pose proof (outer_owner _ _ _ _ _ _ _ _ c H) as OO. pose proof (outer_held q es t c _ I Qt PC) as OH. cbn [in_outer] in OH.
      destruct OH as [_ OH]. rewrite (OH eq_refl) in OO.
      destruct (am (outer_of c)) as [[u n]|] eqn:AM; [|discriminate]. injection OO as <-. rewrite (One t n eq_refl) in S.
      unfold mspec in S. cbn [is_lock] in S. rewrite Nat.eqb_refl in S. destruct S as (-> & ->).
      eexists [QStep t], _, _. split; [apply exec_one; cbn [q_step]; rewrite Qt; reflexivity|].
      split; [hq1|]. unfold set_outer, outer_of. cbn [after_mutex] in MV. destruct (is_send c) eqn:Sc; cbn [q_go q_ring q_ne q_nf q_mrb q_msend q_mrecv q_ub q_thr]; unfold outer_of in MV; rewrite Sc in MV; apply MV; pick_which; try apply H; try congruence;
        match goal with h : (if _ then None else _) = Some _ |- _ => cbn in h; discriminate h end.
  Qed.

  (** the bits of the event flag *)
  Definition bit_of (x : Z) : Z := if x =? EV_NOT_EMPTY then 0 else 1.
  Lemma pat_bits c i : 0 <= i -> Z.testbit (wait_pat (V := V) c) i = (i =? (if is_send c then 1 else 0)).
  Proof.
    intros Hi. unfold wait_pat, EV_NOT_EMPTY, EV_NOT_FULL. destruct (is_send c).
    - change 2 with (2 ^ 1). rewrite Z.pow2_bits_eqb by lia. apply Z.eqb_sym.
    - change 1 with (2 ^ 0). rewrite Z.pow2_bits_eqb by lia. apply Z.eqb_sym.
  Qed.
  Lemma done_bits c i : 0 <= i -> Z.testbit (done_pat (V := V) c) i = (i =? (if is_send c then 0 else 1)).
  Proof.
    intros Hi. unfold done_pat, EV_NOT_EMPTY, EV_NOT_FULL. destruct (is_send c).
    - change 1 with (2 ^ 0). rewrite Z.pow2_bits_eqb by lia. apply Z.eqb_sym.
    - change 2 with (2 ^ 1). rewrite Z.pow2_bits_eqb by lia. apply Z.eqb_sym.
  Qed.

  Lemma evt_move thr fm am fe ae rg ub q t g c p m r a' ne nf :
    R thr fm am fe ae rg ub q -> thr t = CIn g c p -> uses g c p = Some (OEvent m) ->
    ne = Z.testbit a' 0 -> nf = Z.testbit a' 1 ->
    R thr fm am (set_st fe t (Done r)) a' rg ub
      (mkQ (q_ring q) ne nf (q_mrb q) (q_msend q) (q_mrecv q) (q_ub q) (fupd (q_thr q) t (QAt c (after_event c p r)))).
  Proof.
    intros H T U E1 E2. constructor; cbn [q_ring q_ne q_nf q_mrb q_msend q_mrecv q_ub q_thr]; try apply H; try assumption.
    - intros u. rewrite fupd_eq. destruct (Nat.eqb_spec u t) as [->|N].
      + unfold abs_pc. now rewrite T, U, set_st_eq, Nat.eqb_refl.
      + rewrite (r_thr _ _ _ _ _ _ _ _ H). unfold abs_pc. destruct (thr u) as [|g' c' p'|g' c' p']; try reflexivity.
        destruct (uses g' c' p') as [[o' m'|e]|]; try reflexivity.
        rewrite set_st_eq. destruct (Nat.eqb_spec u t); [congruence|reflexivity].
    - intros u. rewrite set_st_eq. destruct (Nat.eqb_spec u t) as [->|N]; [|apply H].
      unfold at_evt. rewrite T, U. right. eauto.
  Qed.

  Lemma event_eff thr fm am fe ae rg ub q es t m r f' a' :
    R thr fm am fe ae rg ub q -> qinv q es ->
    fe t = Pending m -> spec ae t m r a' -> (forall u, f' u = set_st fe t (Done r) u) ->
    exists qls q' qes, qexec q qls = Some (q', qes) /\ hq qls qes /\ R thr fm am f' a' rg ub q'.
  Proof.
    intros H I F S Ef.
    assert (X : exists qls q' qes, qexec q qls = Some (q', qes) /\ hq qls qes /\ R thr fm am (set_st fe t (Done r)) a' rg ub q').
    2:{ destruct X as (qls & q' & qes & E & Hh & HR). exists qls, q', qes. split; [exact E|]. split; [exact Hh|].
        eapply R_ext; [exact HR|reflexivity|reflexivity|reflexivity|exact Ef]. }
    clear Ef f'.
    pose proof (r_e _ _ _ _ _ _ _ _ H t) as Fit. unfold st_fits in Fit. rewrite F in Fit.
    destruct (at_evt (thr t)) as [m'|] eqn:A; [|discriminate].
    destruct Fit as [Fit|(r' & Fit)]; [|discriminate]. injection Fit as <-.
    unfold at_evt in A. destruct (thr t) as [|g c p|g c p] eqn:T; try discriminate.
    destruct (uses g c p) as [[o' m'|e]|] eqn:U; try discriminate. injection A as ->.
    pose proof (r_on _ _ _ _ _ _ _ _ H t) as On. rewrite T in On. destruct On as (-> & _).
    pose proof (r_thr _ _ _ _ _ _ _ _ H t) as Qt. unfold abs_pc in Qt. rewrite T, U, F in Qt.
    pose proof (fun a' ne nf => evt_move thr fm am fe ae rg ub q t true c p m r a' ne nf H T U) as MV.
    pose proof (r_ne _ _ _ _ _ _ _ _ H) as NE. pose proof (r_nf _ _ _ _ _ _ _ _ H) as NFl.
    destruct p; cbn [uses] in U; try discriminate.
    - (* PResetEv *)
      injection U as <-. destruct S as (_ & -> & S).
      eexists [QStep t], _, _. split; [apply exec_one; cbn [q_step]; rewrite Qt; reflexivity|].
      split; [hq1|]. cbn [after_event] in MV. unfold reset_bit. destruct (is_send c) eqn:Sc; unfold q_go; cbn [q_ring q_ne q_nf q_mrb q_msend q_mrecv q_ub q_thr];
        apply MV; rewrite S, pat_bits, Sc by lia; cbn [Z.eqb Pos.eqb negb]; rewrite ?andb_true_r, ?andb_false_r; congruence.
    - (* PWait *)
      injection U as <-. unfold espec in S. destruct S as (_ & S). cbn [econd] in S.
      destruct (Z.eqb_spec (wait_pat c) 0) as [E0|_]; [unfold wait_pat in E0; destruct (is_send c); discriminate|].
      assert (QB : (exists i, 0 <= i < w /\ has (wait_pat c) i /\ has ae i) <-> wait_bit q c = true).
      { unfold wait_bit, has. split.
        - intros (i & Hi & P & A). rewrite pat_bits in P by lia. apply Z.eqb_eq in P. destruct (is_send c); subst i; congruence.
        - intros X. exists (if is_send c then 1 else 0). rewrite pat_bits by (destruct (is_send c); lia). rewrite Z.eqb_refl.
          split; [destruct (is_send c); lia|]. split; [reflexivity|]. destruct (is_send c); congruence. }
      destruct S as [(S & -> & ->)|(S & FV & -> & ->)].
      + apply QB in S. eexists [QStep t], _, _. split; [apply exec_one; cbn [q_step]; rewrite Qt, S; reflexivity|].
        split; [hq1|]. unfold q_go. cbn [after_event] in MV. apply MV; assumption.
      + assert (WB : wait_bit q c = false) by (destruct (wait_bit q c); [elim S; now apply QB|reflexivity]).
        eexists [QTimeout t], _, _. split.
        { apply exec_one. cbn [q_step]. rewrite Qt, WB. cbn [orb]. destruct (Z.eqb_spec (tmout c) (-1)) as [E|]; [|reflexivity].
          elim FV. cbn. right. now rewrite E. }
        split; [hq1|]. unfold q_go. cbn [after_event] in MV. apply MV; assumption.
    - (* PSetEv *)
      injection U as <-. destruct S as (_ & -> & S).
      eexists [QStep t], _, _. split; [apply exec_one; cbn [q_step]; rewrite Qt; reflexivity|].
      split; [hq1|]. cbn [after_event] in MV. unfold set_bit. destruct (is_send c) eqn:Sc; unfold q_go; cbn [q_ring q_ne q_nf q_mrb q_msend q_mrecv q_ub q_thr];
        apply MV; rewrite S, done_bits, Sc by lia; cbn [Z.eqb Pos.eqb]; rewrite ?orb_true_r, ?orb_false_r; congruence.
  Qed.

  (** calls and returns on the objects change nothing the queue model sees *)
  Lemma mutex_call thr fm am fe ae rg ub q o t m thr' :
    R thr fm am fe ae rg ub q -> fm o t = Out -> hear_mutex V o thr (Call t m) = Some thr' ->
    R thr' (wupd fm o (set_st (fm o) t (Pending m))) am fe ae rg ub q.
  Proof.
    intros H F E. cbn [hear_mutex] in E. destruct (thr t) as [|g c p|g c p] eqn:T; try discriminate.
    destruct (uses g c p) as [[o' m'|e]|] eqn:U; try discriminate. destruct (which_eqb_spec o o') as [<-|]; [|discriminate].
    destruct (mcall_dec m m') as [<-|]; [|discriminate]. injection E as <-.
    pose proof (r_on _ _ _ _ _ _ _ _ H t) as On. rewrite T in On. cbn in On.
    constructor; try apply H.
    - intros u. rewrite (r_thr _ _ _ _ _ _ _ _ H), fupd_eq. destruct (Nat.eqb_spec u t) as [->|N].
      + unfold abs_pc. rewrite T, U, wupd_eq. destruct (which_eqb_spec o o); [|congruence]. now rewrite set_st_eq, Nat.eqb_refl.
      + unfold abs_pc. destruct (thr u) as [|g' c' p'|g' c' p']; try reflexivity. destruct (uses g' c' p') as [[o' m'|e]|]; try reflexivity.
        rewrite wupd_eq. destruct (which_eqb_spec o' o) as [->|]; [|reflexivity]. rewrite set_st_eq. destruct (Nat.eqb_spec u t); [congruence|reflexivity].
    - intros o' u. rewrite fupd_eq, wupd_eq. pose proof (r_m _ _ _ _ _ _ _ _ H o' u) as X.
      destruct (Nat.eqb_spec u t) as [->|N].
      + cbn [at_mtx]. rewrite U. destruct (which_eqb_spec o' o) as [->|]; [rewrite set_st_eq, Nat.eqb_refl; now left|].
        rewrite T in X. exact X.
      + destruct (which_eqb_spec o' o) as [->|]; [|exact X]. rewrite set_st_eq. destruct (Nat.eqb_spec u t); [congruence|exact X].
    - intros u. rewrite fupd_eq. pose proof (r_e _ _ _ _ _ _ _ _ H u) as X. destruct (Nat.eqb_spec u t) as [->|N]; [|exact X].
      cbn [at_evt]. rewrite U. rewrite T in X. exact X.
    - intros u. rewrite fupd_eq. destruct (Nat.eqb_spec u t) as [->|N]; [|apply H]. cbn. split; [exact On|congruence].
    - intros u r' c' p'. rewrite fupd_eq, wupd_eq. destruct (Nat.eqb_spec u t) as [->|N].
      + intros Tu. injection Tu as <- <- <-. destruct (which_eqb_spec ORB o) as [<-|]; [rewrite set_st_eq, Nat.eqb_refl; discriminate|].
        pose proof (r_m _ _ _ _ _ _ _ _ H ORB t) as X. rewrite T in X. cbn in X. congruence.
      + destruct (which_eqb_spec ORB o) as [<-|]; [|apply H]. rewrite set_st_eq. destruct (Nat.eqb_spec u t); [congruence|apply H].
  Qed.
  Lemma event_call thr fm am fe ae rg ub q t m thr' :
    R thr fm am fe ae rg ub q -> fe t = Out -> hear_event V thr (Call t m) = Some thr' ->
    R thr' fm am (set_st fe t (Pending m)) ae rg ub q.
  Proof.
    intros H F E. cbn [hear_event] in E. destruct (thr t) as [|g c p|g c p] eqn:T; try discriminate.
    destruct (uses g c p) as [[o' m'|m']|] eqn:U; try discriminate.
    destruct (ecall_dec m m') as [<-|]; [|discriminate]. injection E as <-.
    pose proof (r_on _ _ _ _ _ _ _ _ H t) as On. rewrite T in On. cbn in On.
    constructor; try apply H.
    - intros u. rewrite (r_thr _ _ _ _ _ _ _ _ H), fupd_eq. destruct (Nat.eqb_spec u t) as [->|N].
      + unfold abs_pc. rewrite T, U. now rewrite set_st_eq, Nat.eqb_refl.
      + unfold abs_pc. destruct (thr u) as [|g' c' p'|g' c' p']; try reflexivity. destruct (uses g' c' p') as [[o' m'|e]|]; try reflexivity.
        rewrite set_st_eq. destruct (Nat.eqb_spec u t); [congruence|reflexivity].
    - intros o' u. rewrite fupd_eq. pose proof (r_m _ _ _ _ _ _ _ _ H o' u) as X.
      destruct (Nat.eqb_spec u t) as [->|N]; [|exact X]. cbn [at_mtx]. rewrite U. rewrite T in X. exact X.
    - intros u. rewrite fupd_eq, set_st_eq. pose proof (r_e _ _ _ _ _ _ _ _ H u) as X. destruct (Nat.eqb_spec u t) as [->|N]; [|exact X].
      cbn [at_evt]. rewrite U. now left.
    - intros u. rewrite fupd_eq. destruct (Nat.eqb_spec u t) as [->|N]; [|apply H]. cbn. split; [exact On|congruence].
    - intros u r' c' p'. rewrite fupd_eq. destruct (Nat.eqb_spec u t) as [->|N]; [|apply H].
      intros _. pose proof (r_m _ _ _ _ _ _ _ _ H ORB t) as X. rewrite T in X. cbn in X. congruence.
  Qed.
  Lemma mutex_ret thr fm am fe ae rg ub q o t r thr' :
    R thr fm am fe ae rg ub q -> fm o t = Done r -> hear_mutex V o thr (Ret t r) = Some thr' ->
    R thr' (wupd fm o (set_st (fm o) t Out)) am fe ae rg ub q.
  Proof.
    intros H F E. cbn [hear_mutex] in E. destruct (thr t) as [|g c p|g c p] eqn:T; try discriminate.
    destruct (uses g c p) as [[o' m'|e]|] eqn:U; try discriminate. destruct (which_eqb_spec o o') as [<-|]; [|discriminate].
    injection E as <-.
    pose proof (r_on _ _ _ _ _ _ _ _ H t) as On. rewrite T in On. destruct On as (-> & _).
    assert (G : after_guard true p r = true).
    { destruct p; try reflexivity; cbn [uses] in U; injection U as <- <-; exact (r_lk _ _ _ _ _ _ _ _ H t r c _ T F). }
    constructor; try apply H.
    - intros u. rewrite (r_thr _ _ _ _ _ _ _ _ H), fupd_eq. destruct (Nat.eqb_spec u t) as [->|N].
      + unfold abs_pc. now rewrite T, U, F.
      + unfold abs_pc. destruct (thr u) as [|g' c' p'|g' c' p']; try reflexivity. destruct (uses g' c' p') as [[o' m''|e]|]; try reflexivity.
        rewrite wupd_eq. destruct (which_eqb_spec o' o) as [->|]; [|reflexivity]. rewrite set_st_eq. destruct (Nat.eqb_spec u t); [congruence|reflexivity].
    - intros o' u. rewrite fupd_eq, wupd_eq. pose proof (r_m _ _ _ _ _ _ _ _ H o' u) as X.
      destruct (Nat.eqb_spec u t) as [->|N].
      + cbn [at_mtx st_fits]. destruct (which_eqb_spec o' o) as [->|ne]; [now rewrite set_st_eq, Nat.eqb_refl|].
        rewrite T in X. unfold at_mtx in X. rewrite U in X. destruct (which_eqb_spec o' o); [congruence|exact X].
      + destruct (which_eqb_spec o' o) as [->|]; [|exact X]. rewrite set_st_eq. destruct (Nat.eqb_spec u t); [congruence|exact X].
    - intros u. rewrite fupd_eq. pose proof (r_e _ _ _ _ _ _ _ _ H u) as X. destruct (Nat.eqb_spec u t) as [->|N]; [|exact X].
      rewrite T in X. unfold at_evt in X. rewrite U in X. exact X.
    - intros u. rewrite fupd_eq. destruct (Nat.eqb_spec u t) as [->|N]; [|apply H]. exact G.
    - intros u r' c' p'. rewrite fupd_eq, wupd_eq. destruct (Nat.eqb_spec u t) as [->|N]; [discriminate|].
      destruct (which_eqb_spec ORB o) as [<-|]; [|apply H]. rewrite set_st_eq. destruct (Nat.eqb_spec u t); [congruence|apply H].
  Qed.
  Lemma event_ret thr fm am fe ae rg ub q t r thr' :
    R thr fm am fe ae rg ub q -> fe t = Done r -> hear_event V thr (Ret t r) = Some thr' ->
    R thr' fm am (set_st fe t Out) ae rg ub q.
  Proof.
    intros H F E. cbn [hear_event] in E. destruct (thr t) as [|g c p|g c p] eqn:T; try discriminate.
    destruct (uses g c p) as [[o' m'|m']|] eqn:U; try discriminate. injection E as <-.
    pose proof (r_on _ _ _ _ _ _ _ _ H t) as On. rewrite T in On. destruct On as (-> & _).
    constructor; try apply H.
    - intros u. rewrite (r_thr _ _ _ _ _ _ _ _ H), fupd_eq. destruct (Nat.eqb_spec u t) as [->|N].
      + unfold abs_pc. now rewrite T, U, F.
      + unfold abs_pc. destruct (thr u) as [|g' c' p'|g' c' p']; try reflexivity. destruct (uses g' c' p') as [[o' m''|e]|]; try reflexivity.
        rewrite set_st_eq. destruct (Nat.eqb_spec u t); [congruence|reflexivity].
    - intros o' u. rewrite fupd_eq. pose proof (r_m _ _ _ _ _ _ _ _ H o' u) as X. destruct (Nat.eqb_spec u t) as [->|N]; [|exact X].
      rewrite T in X. unfold at_mtx in X. rewrite U in X. exact X.
    - intros u. rewrite fupd_eq, set_st_eq. pose proof (r_e _ _ _ _ _ _ _ _ H u) as X. destruct (Nat.eqb_spec u t) as [->|N]; [reflexivity|exact X].
    - intros u. rewrite fupd_eq. destruct (Nat.eqb_spec u t) as [->|N]; [|apply H]. reflexivity.
    - intros u r' c' p'. rewrite fupd_eq. destruct (Nat.eqb_spec u t) as [->|N]; [discriminate|apply H].
  Qed.

  Lemma qinv_exec q es ls q' es' : qinv q es -> qexec q ls = Some (q', es') -> qinv q' (es ++ es').
  Proof. intros I E. exact (exec_inv _ _ _ qstep qinv (fun s e l s' e' h st => qinv_step V maxSize Hmax s e l s' e' h st) ls q es q' es' I E). Qed.

  (** all the events of one step of a mutex *)
  Lemma mutex_walk o es f0 a0 f' a' : lin_run (mspec M) f0 a0 es f' a' ->
    forall thr fm am fe ae rg ub q qe thr', R thr fm am fe ae rg ub q -> qinv q qe -> (forall u, f0 u = fm o u) -> a0 = am o ->
    hear V (hear_mutex V o) thr es = Some thr' -> (o = ORB \/ strict -> forall t m, In (Eff t m OtherError) es -> is_lock m = false) ->
    exists qls q' qes, qexec q qls = Some (q', qes) /\ hq qls qes /\ R thr' (wupd fm o f') (wupd am o a') fe ae rg ub q'.
  Proof.
    assert (WA : forall (am : which -> option (nat * nat)) o', wupd am o (am o) o' = am o').
    { intros am o'. rewrite wupd_eq. destruct (which_eqb_spec o' o) as [->|]; reflexivity. }
    assert (WW : forall (A : Type) (g : which -> A) x y o', wupd (wupd g o x) o y o' = wupd g o y o').
    { intros A g x y o'. rewrite !wupd_eq. destruct (which_eqb o' o); reflexivity. }
    induction 1 as [f s|f s t c es f' s' Ft L IH|f s t c r s1 es f' s' Ft Sp L IH|f s t r es f' s' Ft L IH];
      intros thr fm am fe ae rg ub q qe thr' HR I Ef Ea Hr NF; cbn [hear] in Hr.
    - injection Hr as <-. exists [], q, []. split; [reflexivity|]. split; [exact hq_nil|]. subst s. eapply R_ext; [exact HR|reflexivity| |apply WA|reflexivity].
      intros o' u. rewrite wupd_eq. destruct (which_eqb_spec o' o) as [->|]; [apply Ef|reflexivity].
    - destruct (hear_mutex V o thr (Call t c)) as [thr1|] eqn:E; [|discriminate].
      pose proof (mutex_call _ _ _ _ _ _ _ _ _ _ _ _ HR (eq_trans (eq_sym (Ef t)) Ft) E) as HR1.
      destruct (IH thr1 _ _ _ _ _ _ _ qe thr' HR1 I) as (qls & q' & qes & E1 & E2 & E3); [|exact Ea|exact Hr|intros; eapply NF; [assumption|right; eassumption]|].
      { intros u. rewrite wupd_eq. destruct (which_eqb_spec o o); [|congruence]. rewrite !set_st_eq. destruct (Nat.eqb u t); [reflexivity|apply Ef]. }
      exists qls, q', qes. split; [exact E1|]. split; [exact E2|]. eapply R_ext; [exact E3|reflexivity| |reflexivity|reflexivity]. intros o' u. now rewrite WW.
    - cbn [hear_mutex] in Hr. subst s.
      destruct (mutex_eff thr fm am fe ae rg ub q qe o t c r (set_st f t (Done r)) s1 HR I (eq_trans (eq_sym (Ef t)) Ft) Sp) as (q1 & qa & qe1 & A1 & A2 & A3).
      { intros u. rewrite !set_st_eq. destruct (Nat.eqb u t); [reflexivity|apply Ef]. }
      { intros Eo Lc ->. rewrite (NF Eo t c (or_introl eq_refl)) in Lc. discriminate. }
      destruct (IH thr _ _ _ _ _ _ _ (qe ++ qe1) thr' A3) as (qls & q' & qes & E1 & E2 & E3); [exact (qinv_exec _ _ _ _ _ I A1)| | |exact Hr|intros; eapply NF; [assumption|right; eassumption]|].
      { intros u. rewrite wupd_eq. destruct (which_eqb_spec o o); [reflexivity|congruence]. }
      { rewrite wupd_eq. destruct (which_eqb_spec o o); [reflexivity|congruence]. }
      exists (q1 ++ qls), q', (qe1 ++ qes). split; [now rewrite exec_app, A1, E1|]. split; [exact (hq_app _ _ _ _ A2 E2)|].
      eapply R_ext; [exact E3|reflexivity| | |reflexivity]; [intros o' u|intros o']; now rewrite WW.
    - destruct (hear_mutex V o thr (Ret t r)) as [thr1|] eqn:E; [|discriminate].
      pose proof (mutex_ret _ _ _ _ _ _ _ _ _ _ _ _ HR (eq_trans (eq_sym (Ef t)) Ft) E) as HR1.
      destruct (IH thr1 _ _ _ _ _ _ _ qe thr' HR1 I) as (qls & q' & qes & E1 & E2 & E3); [|exact Ea|exact Hr|intros; eapply NF; [assumption|right; eassumption]|].
      { intros u. rewrite wupd_eq. destruct (which_eqb_spec o o); [|congruence]. rewrite !set_st_eq. destruct (Nat.eqb u t); [reflexivity|apply Ef]. }
      exists qls, q', qes. split; [exact E1|]. split; [exact E2|]. eapply R_ext; [exact E3|reflexivity| |reflexivity|reflexivity]. intros o' u. now rewrite WW.
  Qed.
  Lemma event_walk es f0 a0 f' a' : lin_run spec f0 a0 es f' a' ->
    forall thr fm am fe rg ub q qe thr', R thr fm am fe a0 rg ub q -> qinv q qe -> (forall u, f0 u = fe u) ->
    hear V (hear_event V) thr es = Some thr' ->
    exists qls q' qes, qexec q qls = Some (q', qes) /\ hq qls qes /\ R thr' fm am f' a' rg ub q'.
  Proof.
    induction 1 as [f s|f s t c es f' s' Ft L IH|f s t c r s1 es f' s' Ft Sp L IH|f s t r es f' s' Ft L IH];
      intros thr fm am fe rg ub q qe thr' HR I Ef Hr; cbn [hear] in Hr.
    - injection Hr as <-. exists [], q, []. split; [reflexivity|]. split; [exact hq_nil|]. eapply R_ext; [exact HR|reflexivity|reflexivity|reflexivity|exact Ef].
    - destruct (hear_event V thr (Call t c)) as [thr1|] eqn:E; [|discriminate].
      pose proof (event_call _ _ _ _ _ _ _ _ _ _ _ HR (eq_trans (eq_sym (Ef t)) Ft) E) as HR1.
      apply (IH thr1 _ _ _ _ _ _ qe thr' HR1 I); [|exact Hr].
      intros u. rewrite !set_st_eq. destruct (Nat.eqb u t); [reflexivity|apply Ef].
    - cbn [hear_event] in Hr.
      destruct (event_eff thr fm am fe s rg ub q qe t c r (set_st f t (Done r)) s1 HR I (eq_trans (eq_sym (Ef t)) Ft) Sp) as (q1 & qa & qe1 & A1 & A2 & A3).
      { intros u. rewrite !set_st_eq. destruct (Nat.eqb u t); [reflexivity|apply Ef]. }
      destruct (IH thr _ _ _ _ _ _ (qe ++ qe1) thr' A3) as (qls & q' & qes & E1 & E2 & E3); [exact (qinv_exec _ _ _ _ _ I A1)|reflexivity|exact Hr|].
      exists (q1 ++ qls), q', (qe1 ++ qes). split; [now rewrite exec_app, A1, E1|]. split; [exact (hq_app _ _ _ _ A2 E2)|exact E3].
    - destruct (hear_event V thr (Ret t r)) as [thr1|] eqn:E; [|discriminate].
      pose proof (event_ret _ _ _ _ _ _ _ _ _ _ _ HR (eq_trans (eq_sym (Ef t)) Ft) E) as HR1.
      apply (IH thr1 _ _ _ _ _ _ qe thr' HR1 I); [|exact Hr].
      intros u. rewrite !set_st_eq. destruct (Nat.eqb u t); [reflexivity|apply Ef].
  Qed.

  (** a step of the thread itself, from a position where it uses no object to another before its use *)
  Lemma own_move thr fm am fe ae rg ub q t x y q' :
    R thr fm am fe ae rg ub q -> (thr t = x /\ match x with CIn _ _ _ => False | _ => True end) ->
    match y with CIn _ _ _ => False | CBefore g _ _ => g = true | CIdle => True end ->
    q_ne q' = q_ne q -> q_nf q' = q_nf q -> q_mrb q' = q_mrb q -> q_msend q' = q_msend q -> q_mrecv q' = q_mrecv q ->
    (forall u, q_thr q' u = fupd (q_thr q) t (match y with CIdle => QIdle | CBefore _ c p | CIn _ c p => QAt c p end) u) ->
    R (fupd thr t y) fm am fe ae (q_ring q') (q_ub q') q'.
  Proof.
    intros H (T & NX) NY E1 E2 E3 E4 E5 ET.
    assert (Fm : forall o, fm o t = Out).
    { intros o. pose proof (r_m _ _ _ _ _ _ _ _ H o t) as X. rewrite T in X. destruct x; try contradiction; exact X. }
    assert (Fe : fe t = Out).
    { pose proof (r_e _ _ _ _ _ _ _ _ H t) as X. rewrite T in X. destruct x; try contradiction; exact X. }
    constructor; try reflexivity.
    - rewrite E1. apply H.
    - rewrite E2. apply H.
    - rewrite E3. apply H.
    - rewrite E4. apply H.
    - rewrite E5. apply H.
    - apply H.
    - intros u. rewrite ET, !fupd_eq. destruct (Nat.eqb_spec u t) as [->|N]; [|apply H]. destruct y; [reflexivity|reflexivity|contradiction].
    - intros o u. rewrite fupd_eq. destruct (Nat.eqb_spec u t) as [->|N]; [|apply H]. destruct y; [apply Fm|apply Fm|contradiction].
    - intros u. rewrite fupd_eq. destruct (Nat.eqb_spec u t) as [->|N]; [|apply H]. destruct y; [exact Fe|exact Fe|contradiction].
    - intros u. rewrite fupd_eq. destruct (Nat.eqb_spec u t) as [->|N]; [|apply H]. destruct y; [exact Logic.I|exact NY|contradiction].
    - intros u r c p. rewrite fupd_eq. destruct (Nat.eqb_spec u t) as [->|N]; [|apply H]. intros ->. contradiction.
  Qed.
End Sim.

Section Gen.
  Variable V : Type.
  Variable maxSize : Z.
  Hypothesis Hmax : 0 <= maxSize < 2 ^ 64 - 1.
  Variable M : nat.
  Variable w : Z.
  Hypothesis Hw : 2 <= w.
  Variables MS ML : Type.
  Variable mstep : MS -> ML -> option (MS * list (event mcall err)).
  Variables ES EL : Type.
  Variable estep : ES -> EL -> option (ES * list (event ecall eres)).
  Variable m0 : MS.
  Variable e0 : ES.
  (** what is assumed of the implementations (and proved of them below); [mgood true]: no lock() on this mutex was refused by the platform *)
  Variable mgood : bool -> MS -> Prop.
  Variable mph : MS -> nat -> status mcall err.
  Variable mabs : MS -> option (nat * nat).
  Variable nofail : ML -> Prop.
  Variable egood : ES -> Prop.
  Variable eph : ES -> nat -> status ecall eres.
  Variable eabs : ES -> Z.
  Variable tok : Z -> Prop.
  Variable strict : bool.      (* no lock() fails, and no copy throws *)
  Hypothesis m_start : (forall b, mgood b m0) /\ mabs m0 = None /\ forall t, mph m0 t = Out.
  Hypothesis e_start : egood e0 /\ eabs e0 = 0 /\ forall t, eph e0 t = Out.
  Hypothesis m_call_one : forall s l s' es t c, mstep s l = Some (s', es) -> In (Call t c) es -> es = [Call t c].
  Hypothesis e_call_one : forall s l s' es t c, estep s l = Some (s', es) -> In (Call t c) es -> es = [Call t c].
  Hypothesis m_ok : forall b s l s' es, mgood b s -> mstep s l = Some (s', es) -> (b = true -> nofail l) ->
    (forall t c, In (Call t c) es -> if is_lock c then forall n, mabs s <> Some (t, n) else mabs s = Some (t, 1%nat)) ->
    mgood b s' /\ (b = true -> forall t c, In (Eff t c OtherError) es -> is_lock c = false) /\
    exists f f', (forall t, f t = mph s t) /\ lin_run (mspec M) f (mabs s) es f' (mabs s') /\ forall t, f' t = mph s' t.
  Hypothesis e_ok : forall s l s' es, egood s -> estep s l = Some (s', es) ->
    (forall t c, In (Call t c) es -> ecall_ok w c /\ match c with EWait _ _ _ (Within ms) => tok ms | EWait _ _ _ _ | EWaitAny _ | EWaitOne _ _ => False | _ => True end) ->
    egood s' /\ exists f f', (forall t, f t = eph s t) /\ lin_run (espec w false) f (eabs s) es f' (eabs s') /\ forall t, f' t = eph s' t.

  Notation cstep := (c_step V maxSize MS ML mstep ES EL estep).
  Notation qstep := (q_step V maxSize).
  Notation qinv := (qinv V maxSize).

  Record Sm (s : cst V MS ES) (q : qst V) : Prop := {
    s_r : R V (c_thr s) (fun o => mph (c_mtx s o)) (fun o => mabs (c_mtx s o)) (eph (c_ev s)) (eabs (c_ev s)) (c_ring s) (c_ub s) q;
    s_m : forall o, mgood (which_eqb o ORB || strict) (c_mtx s o);
    s_e : egood (c_ev s);
    s_t : forall t c, c_running s t = Some c -> tok (tmout c)
  }.
  Definition lab_ok (l : clab V ML EL) : Prop :=
    match l with CCall _ c => tok (tmout c) | CMtx o l => which_eqb o ORB || strict = true -> nofail l | CThrow _ _ => strict = false | _ => True end.

  Definition runs_of (x : cpc V) : option (qcall V) := match x with CIdle => None | CBefore _ c _ | CIn _ c _ => Some c end.
  Lemma hear_m_runs o : forall es thr thr', hear V (hear_mutex V o) thr es = Some thr' -> forall t, runs_of (thr' t) = runs_of (thr t).
  Proof.
    induction es as [|e es IH]; intros thr thr' H t; cbn [hear] in H; [now injection H as <-|].
    destruct (hear_mutex V o thr e) as [thr1|] eqn:E; [|discriminate]. rewrite (IH _ _ H).
    destruct e as [u c|u c r|u r]; cbn [hear_mutex] in E.
    - destruct (thr u) as [|g c' p|g c' p] eqn:T; try discriminate. destruct (uses g c' p) as [[o' m'|e]|]; try discriminate.
      destruct (which_eqb o o'); [|discriminate]. destruct (mcall_dec c m'); [|discriminate]. injection E as <-.
      rewrite fupd_eq. destruct (Nat.eqb_spec t u) as [->|]; [now rewrite T|reflexivity].
    - now injection E as <-.
    - destruct (thr u) as [|g c' p|g c' p] eqn:T; try discriminate. destruct (uses g c' p) as [[o' m'|e]|]; try discriminate.
      destruct (which_eqb o o'); [|discriminate]. injection E as <-.
      rewrite fupd_eq. destruct (Nat.eqb_spec t u) as [->|]; [now rewrite T|reflexivity].
  Qed.
  Lemma hear_e_runs : forall es thr thr', hear V (hear_event V) thr es = Some thr' -> forall t, runs_of (thr' t) = runs_of (thr t).
  Proof.
    induction es as [|e es IH]; intros thr thr' H t; cbn [hear] in H; [now injection H as <-|].
    destruct (hear_event V thr e) as [thr1|] eqn:E; [|discriminate]. rewrite (IH _ _ H).
    destruct e as [u c|u c r|u r]; cbn [hear_event] in E.
    - destruct (thr u) as [|g c' p|g c' p] eqn:T; try discriminate. destruct (uses g c' p) as [[o' m'|m']|]; try discriminate.
      destruct (ecall_dec c m'); [|discriminate]. injection E as <-.
      rewrite fupd_eq. destruct (Nat.eqb_spec t u) as [->|]; [now rewrite T|reflexivity].
    - now injection E as <-.
    - destruct (thr u) as [|g c' p|g c' p] eqn:T; try discriminate. destruct (uses g c' p) as [[o' m'|m']|]; try discriminate.
      injection E as <-. rewrite fupd_eq. destruct (Nat.eqb_spec t u) as [->|]; [now rewrite T|reflexivity].
  Qed.

  (** the calls the queue makes: locks only what it does not hold, unlocks only what it holds *)
  Lemma mutex_use thr fm am fe ae rg ub q qe o t m thr' :
    R V thr fm am fe ae rg ub q -> qinv q qe -> hear_mutex V o thr (Call t m) = Some thr' ->
    if is_lock m then forall n, am o <> Some (t, n) else am o = Some (t, 1%nat).
  Proof.
    intros H I E. cbn [hear_mutex] in E. destruct (thr t) as [|g c p|g c p] eqn:T; try discriminate.
    destruct (uses g c p) as [[o' m'|e]|] eqn:U; try discriminate. destruct (which_eqb_spec o o') as [<-|]; [|discriminate].
    destruct (mcall_dec m m') as [<-|]; [|discriminate]. clear E.
    pose proof (r_on _ _ _ _ _ _ _ _ _ H t) as On. rewrite T in On. cbn in On. subst g.
    pose proof (r_thr _ _ _ _ _ _ _ _ _ H t) as Qt. rewrite T in Qt. cbn in Qt.
    destruct (qi_q _ _ _ _ I) as (ql & _ & PC & _). specialize (PC t). rewrite Qt in PC.
    pose proof (r_one _ _ _ _ _ _ _ _ _ H o) as One.
    pose proof (holds_rb V maxSize q qe t I) as HH. rewrite Qt in HH. rewrite (r_mrb _ _ _ _ _ _ _ _ _ H) in HH.
    pose proof (outer_owner V _ _ _ _ _ _ _ _ c H) as OO.
    destruct p; cbn [uses] in U; try discriminate; injection U as <- <-; cbn [is_lock]; cbn in PC; cbn [h_rb] in HH.
    - pose proof (outer_held V maxSize Hmax q qe t c _ I Qt PC) as OH. cbn in OH. intros n X. rewrite X in OO. cbn in OO. apply OH in OO. discriminate.
    - intros n X. rewrite X in HH. cbn in HH. destruct HH as [HH _]. discriminate (HH eq_refl).
    - destruct HH as [_ HH]. specialize (HH eq_refl). destruct (am ORB) as [[u n]|]; [|discriminate]. injection HH as ->. now rewrite (One t n eq_refl).
    - intros n X. rewrite X in HH. cbn in HH. destruct HH as [HH _]. discriminate (HH eq_refl).
    - destruct HH as [_ HH]. specialize (HH eq_refl). destruct (am ORB) as [[u n]|]; [|discriminate]. injection HH as ->. now rewrite (One t n eq_refl).
    - pose proof (outer_held V maxSize Hmax q qe t c _ I Qt PC) as OH. cbn in OH. destruct OH as [_ OH]. rewrite (OH eq_refl) in OO.
      destruct (am (outer_of c)) as [[u n]|]; [|discriminate]. injection OO as <-. now rewrite (One t n eq_refl).
  Qed.

  Lemma S_init : Sm (c_init m0 e0) (q_init V).
  Proof.
    destruct m_start as (G & A & P). destruct e_start as (G' & A' & P').
    constructor; cbn; [|intros o; apply G|exact G'|discriminate].
    constructor; cbn; rewrite ?A, ?A'; try reflexivity; try discriminate.
    - intros o t. apply P.
    - exact P'.
  Qed.

  Ltac QT := intros St x [<-|[]]; first [exact Logic.I|match goal with OK : lab_ok _ |- _ => cbn in OK; congruence end].
  Lemma S_step s q qe l s' es : Sm s q -> qinv q qe -> lab_ok l -> cstep s l = Some (s', es) ->
    exists qls q' qes, exec qstep q qls = Some (q', qes) /\ history qes = es /\ (strict = true -> forall x, In x qls -> quiet V x) /\ Sm s' q'.
  Proof.
    intros HS I OK E. destruct HS as [HR HM HE HT]. destruct l as [t c|t|o l|l|t fl]; cbn [c_step] in E.
    - (* call *)
      destruct (c_thr s t) eqn:T; try discriminate. injection E as <- <-.
      pose proof (r_thr _ _ _ _ _ _ _ _ _ HR t) as Qt. rewrite T in Qt. cbn in Qt.
      exists [QCall t c], (q_go q t (QAt c (match c with QSend _ _ | QRecv _ _ => PLockOuter | _ => PLockOp end))), [Call t c].
      split; [apply exec_one; cbn [q_step]; now rewrite Qt|]. split; [reflexivity|]. split; [QT|].
      constructor; cbn [c_go c_thr c_mtx c_ev c_ring c_ub]; try assumption.
      + rewrite <- (r_ring _ _ _ _ _ _ _ _ _ HR), <- (r_ub _ _ _ _ _ _ _ _ _ HR).
        eapply (own_move V _ _ _ _ _ _ _ q t CIdle (CBefore true c _) (q_go q t _)); try reflexivity; try exact HR. split; [exact T|exact Logic.I].
      + intros u c'. unfold c_running. cbn [c_go c_thr]. rewrite fupd_eq. destruct (Nat.eqb_spec u t) as [->|]; [|apply HT]. intros X. injection X as <-. exact OK.
    - (* own step *)
      destruct (c_thr s t) as [|g c p|g c p] eqn:T; try discriminate.
      pose proof (r_thr _ _ _ _ _ _ _ _ _ HR t) as Qt. rewrite T in Qt. cbn in Qt.
      pose proof (r_on _ _ _ _ _ _ _ _ _ HR t) as On. rewrite T in On. cbn in On. subst g.
      assert (RT : forall y (s1 : cst V MS ES), c_thr s1 = fupd (c_thr s) t y -> runs_of y = None \/ runs_of y = Some c -> forall u c', c_running s1 u = Some c' -> tok (tmout c')).
      { intros y s1 Es1 Hy u c'. unfold c_running. rewrite Es1, fupd_eq. destruct (Nat.eqb_spec u t) as [->|]; [|apply HT].
        fold (runs_of y). intros X. destruct Hy as [Hy|Hy]; [congruence|]. assert (c' = c) as -> by congruence. apply (HT t). unfold c_running. now rewrite T. }
      pose proof (r_ring _ _ _ _ _ _ _ _ _ HR) as Er. pose proof (r_ub _ _ _ _ _ _ _ _ _ HR) as Eu.
      destruct p; try discriminate.
      + (* PChk *)
        injection E as <- <-. set (b := if is_send c then ring_full V (rbBufSize maxSize) (c_ring s) else ring_empty V (c_ring s)).
        exists [QStep t], (q_go q t (QAt c (if b then PResetEv else PUnlockChk false))), [].
        split. { apply exec_one. cbn [q_step]. rewrite Qt. unfold blocked, b. rewrite Er. reflexivity. }
        split; [reflexivity|]. split; [QT|]. constructor; cbn [c_go c_thr c_mtx c_ev c_ring c_ub]; try assumption.
        * rewrite <- Er, <- Eu. eapply (own_move V _ _ _ _ _ _ _ q t (CBefore true c PChk) (CBefore true c _) (q_go q t _)); try reflexivity; try exact HR. split; [exact T|exact Logic.I].
        * eapply RT; [reflexivity|now right].
      + (* POp *)
        injection E as <- <-.
        destruct (qstep q (QStep t)) as [[q' qes]|] eqn:Eq; [|cbn [q_step] in Eq; rewrite Qt in Eq; discriminate].
        pose proof (qinv_step V maxSize Hmax q qe _ q' qes I Eq) as I'.
        cbn [q_step] in Eq. rewrite Qt in Eq. injection Eq as Eq.
        exists [QStep t], q', qes. split; [apply exec_one; cbn [q_step]; rewrite Qt; congruence|].
        unfold q_op in Eq. unfold c_op. destruct c as [v ms|store ms| |].
        * rewrite Er in Eq. destruct (ring_push V (rbBufSize maxSize) (c_ring s) v) as [rg|] eqn:Ep.
          2:{ injection Eq as <- <-. discriminate (qi_ub _ _ _ _ I'). }
          injection Eq as <- <-. split; [reflexivity|]. split; [QT|]. constructor; cbn [c_go with_ring c_thr c_mtx c_ev c_ring c_ub]; try assumption.
          -- rewrite <- Eu. eapply (own_move V _ _ _ _ _ _ _ q t (CBefore true _ POp) (CBefore true _ _) (q_go (set_ring q rg) t _)); try reflexivity; try exact HR. split; [exact T|exact Logic.I].
          -- eapply RT; [reflexivity|now right].
        * rewrite Er in Eq. destruct (ring_pop V (rbBufSize maxSize) (c_ring s)) as [[v rg]|] eqn:Ep.
          2:{ injection Eq as <- <-. discriminate (qi_ub _ _ _ _ I'). }
          injection Eq as <- <-. split; [reflexivity|]. split; [QT|]. constructor; cbn [c_go with_ring c_thr c_mtx c_ev c_ring c_ub]; try assumption.
          -- rewrite <- Eu. eapply (own_move V _ _ _ _ _ _ _ q t (CBefore true _ POp) (CBefore true _ _) (q_go (set_ring q rg) t _)); try reflexivity; try exact HR. split; [exact T|exact Logic.I].
          -- eapply RT; [reflexivity|now right].
        * injection Eq as <- <-. split; [reflexivity|]. split; [QT|]. constructor; cbn [c_go with_ring c_thr c_mtx c_ev c_ring c_ub]; try assumption.
          -- rewrite <- Er, <- Eu. eapply (own_move V _ _ _ _ _ _ _ q t (CBefore true _ POp) (CBefore true _ _) (q_go q t _)); try reflexivity; try exact HR. split; [exact T|exact Logic.I].
          -- eapply RT; [reflexivity|now right].
        * injection Eq as <- <-. split; [reflexivity|]. split; [QT|]. constructor; cbn [c_go with_ring c_thr c_mtx c_ev c_ring c_ub]; try assumption.
          -- rewrite <- Er, <- Eu. eapply (own_move V _ _ _ _ _ _ _ q t (CBefore true _ POp) (CBefore true _ _) (q_go q t _)); try reflexivity; try exact HR. split; [exact T|exact Logic.I].
          -- eapply RT; [reflexivity|now right].
      + (* PRet *)
        injection E as <- <-. eexists [QStep t], (q_go q t QIdle), _. split; [apply exec_one; cbn [q_step]; rewrite Qt; reflexivity|].
        split; [reflexivity|]. split; [QT|]. constructor; cbn [c_go c_thr c_mtx c_ev c_ring c_ub]; try assumption.
        * rewrite <- Er, <- Eu. eapply (own_move V _ _ _ _ _ _ _ q t (CBefore true c _) CIdle (q_go q t _)); try reflexivity; try exact HR. split; [exact T|exact Logic.I].
        * eapply RT; [reflexivity|now left].
    - (* mutex *)
      destruct (mstep (c_mtx s o) l) as [[m' mes]|] eqn:Em; [|discriminate].
      destruct (hear V (hear_mutex V o) (c_thr s) mes) as [thr'|] eqn:Eh; [|discriminate]. injection E as <- <-.
      destruct (m_ok (which_eqb o ORB || strict) (c_mtx s o) l m' mes (HM o) Em) as (G & NF & f & f' & F1 & L & F2).
      { exact OK. }
      { intros t c Hin. rewrite (m_call_one _ _ _ _ _ _ Em Hin) in Eh. cbn [hear] in Eh.
        destruct (hear_mutex V o (c_thr s) (Call t c)) as [thr1|] eqn:E1; [|discriminate].
        exact (mutex_use _ _ _ _ _ _ _ _ _ _ _ _ _ HR I E1). }
      destruct (mutex_walk V maxSize Hmax M (strict = true) o mes f _ f' _ L (c_thr s) _ _ _ _ _ _ q qe thr' HR I F1 eq_refl Eh) as (qls & q' & qes & A1 & A2 & A3).
      { intros B t c Hin. apply (NF ltac:(destruct B as [-> | ->]; [reflexivity|apply orb_true_r]) t c Hin). }
      exists qls, q', qes. split; [exact A1|]. split; [exact (proj1 A2)|]. split; [exact (proj2 A2)|]. constructor; cbn [c_thr c_mtx c_ev c_ring c_ub]; try assumption.
      + eapply R_ext; [exact A3|reflexivity| | |reflexivity].
        * intros o' u. rewrite !wupd_eq. destruct (which_eqb o' o); [now rewrite F2|reflexivity].
        * intros o'. rewrite !wupd_eq. destruct (which_eqb o' o); reflexivity.
      + intros o'. rewrite wupd_eq. destruct (which_eqb_spec o' o) as [->|]; [exact G|apply HM].
      + intros u c'. unfold c_running. cbn [c_thr]. change (runs_of (thr' u) = Some c' -> tok (tmout c')). rewrite (hear_m_runs o _ _ _ Eh). apply HT.
    - (* event flag *)
      destruct (estep (c_ev s) l) as [[e' ees]|] eqn:Em; [|discriminate].
      destruct (hear V (hear_event V) (c_thr s) ees) as [thr'|] eqn:Eh; [|discriminate]. injection E as <- <-.
      destruct (e_ok (c_ev s) l e' ees HE Em) as (G & f & f' & F1 & L & F2).
      { intros t c Hin. rewrite (e_call_one _ _ _ _ _ _ Em Hin) in Eh. cbn [hear] in Eh.
        destruct (hear_event V (c_thr s) (Call t c)) as [thr1|] eqn:E1; [|discriminate]. cbn [hear_event] in E1.
        destruct (c_thr s t) as [|g qc p|g qc p] eqn:T; try discriminate. destruct (uses g qc p) as [[o' m'|m']|] eqn:U; try discriminate.
        destruct (ecall_dec c m') as [<-|]; [|discriminate].
        assert (P4 : 4 <= 2 ^ w) by (change 4 with (2 ^ 2); apply Z.pow_le_mono_r; lia).
        assert (Pw : 0 <= wait_pat qc < 2 ^ w) by (unfold wait_pat, EV_NOT_EMPTY, EV_NOT_FULL; destruct (is_send qc); lia).
        assert (Pd : 0 <= done_pat qc < 2 ^ w) by (unfold done_pat, EV_NOT_EMPTY, EV_NOT_FULL; destruct (is_send qc); lia).
        destruct p; cbn [uses] in U; try destruct g; try discriminate; injection U as <-; cbn [ecall_ok]; split; auto.
        all: apply (HT t); unfold c_running; now rewrite T. }
      destruct (event_walk V maxSize Hmax w Hw (strict = true) ees f _ f' _ L (c_thr s) _ _ _ _ _ q qe thr' HR I F1 Eh) as (qls & q' & qes & A1 & A2 & A3).
      exists qls, q', qes. split; [exact A1|]. split; [exact (proj1 A2)|]. split; [exact (proj2 A2)|]. constructor; cbn [c_thr c_mtx c_ev c_ring c_ub]; try assumption.
      + eapply R_ext; [exact A3|reflexivity|reflexivity|reflexivity|]. intros u. now rewrite F2.
      + intros u c'. unfold c_running. cbn [c_thr]. change (runs_of (thr' u) = Some c' -> tok (tmout c')). rewrite (hear_e_runs _ _ _ Eh). apply HT.
    - (* the copy throws *)
      destruct (c_thr s t) as [|g c p|g c p] eqn:T; try discriminate.
      pose proof (r_thr _ _ _ _ _ _ _ _ _ HR t) as Qt. rewrite T in Qt. cbn in Qt.
      pose proof (r_on _ _ _ _ _ _ _ _ _ HR t) as On. rewrite T in On. cbn in On. subst g.
      pose proof (r_ring _ _ _ _ _ _ _ _ _ HR) as Er. pose proof (r_ub _ _ _ _ _ _ _ _ _ HR) as Eu.
      assert (RT : forall y (s1 : cst V MS ES), c_thr s1 = fupd (c_thr s) t y -> runs_of y = Some c -> forall u c', c_running s1 u = Some c' -> tok (tmout c')).
      { intros y s1 Es1 Hy u c'. unfold c_running. rewrite Es1, fupd_eq. destruct (Nat.eqb_spec u t) as [->|]; [|apply HT].
        fold (runs_of y). intros X. assert (c' = c) as -> by congruence. apply (HT t). unfold c_running. now rewrite T. }
      destruct c as [v ms|[|] ms| |]; destruct p; try discriminate; injection E as <- <-.
      + eexists [QThrow t fl], (q_go q t _), _. split; [apply exec_one; cbn [q_step]; rewrite Qt; reflexivity|]. split; [reflexivity|]. split; [QT|].
        constructor; cbn [c_go c_thr c_mtx c_ev c_ring c_ub]; try assumption.
        * rewrite <- Er, <- Eu. eapply (own_move V _ _ _ _ _ _ _ q t (CBefore true _ POp) (CBefore true _ _) (q_go q t _)); try reflexivity; try exact HR. split; [exact T|exact Logic.I].
        * eapply RT; reflexivity.
      + eexists [QThrow t fl], (q_go q t _), _. split; [apply exec_one; cbn [q_step]; rewrite Qt; reflexivity|]. split; [reflexivity|]. split; [QT|].
        constructor; cbn [c_go c_thr c_mtx c_ev c_ring c_ub]; try assumption.
        * rewrite <- Er, <- Eu. eapply (own_move V _ _ _ _ _ _ _ q t (CBefore true _ POp) (CBefore true _ _) (q_go q t _)); try reflexivity; try exact HR. split; [exact T|exact Logic.I].
        * eapply RT; reflexivity.
  Qed.

  Theorem stack_refines : forall ls s es, (forall l, In l ls -> lab_ok l) -> exec cstep (c_init m0 e0) ls = Some (s, es) ->
    exists qls q qes, exec qstep (q_init V) qls = Some (q, qes) /\ history qes = es /\ (strict = true -> forall x, In x qls -> quiet V x) /\ Sm s q /\ qinv q qes.
  Proof.
    assert (G : forall ls s q qe s' es, (forall l, In l ls -> lab_ok l) -> Sm s q -> qinv q qe -> exec cstep s ls = Some (s', es) ->
      exists qls q' qes, exec qstep q qls = Some (q', qes) /\ history qes = es /\ (strict = true -> forall x, In x qls -> quiet V x) /\ Sm s' q' /\ qinv q' (qe ++ qes)).
    { induction ls as [|l ls IH]; intros s q qe s' es OK HS I E; cbn [exec] in E.
      - injection E as <- <-. exists [], q, []. rewrite app_nil_r. split; [reflexivity|]. split; [reflexivity|]. split; [intros _ x []|]. split; [exact HS|exact I].
      - destruct (cstep s l) as [[s1 es1]|] eqn:E1; [|discriminate]. destruct (exec cstep s1 ls) as [[s2 es2]|] eqn:E2; [|discriminate]. injection E as <- <-.
        destruct (S_step s q qe l s1 es1 HS I (OK l (or_introl eq_refl)) E1) as (l1 & q1 & qe1 & A1 & A2 & A4 & A3).
        pose proof (qinv_exec V maxSize Hmax _ _ _ _ _ I A1) as I1.
        destruct (IH s1 q1 _ s2 es2 (fun x hx => OK x (or_intror hx)) A3 I1 E2) as (l2 & q2 & qe2 & B1 & B2 & B5 & B3 & B4).
        exists (l1 ++ l2), q2, (qe1 ++ qe2). split; [now rewrite exec_app, A1, B1|]. split; [unfold history in *; now rewrite filter_app, A2, B2|].
        split; [intros St x Hx; apply in_app_or in Hx; destruct Hx; [now apply A4|now apply B5]|]. split; [exact B3|]. now rewrite app_assoc. }
    intros ls s es OK E. destruct (G ls _ _ [] s es OK S_init (qinv_init V maxSize Hmax) E) as (qls & q & qes & A). exists qls, q, qes. exact A.
  Qed.

  (** the result seen by the callers *)
  Theorem stack_linearizable ls s es : (forall l, In l ls -> lab_ok l) -> exec cstep (c_init m0 e0) ls = Some (s, es) ->
    linearizable (qspec V (Z.to_nat maxSize)) [] es /\ c_ub s = false.
  Proof.
    intros OK E. destruct (stack_refines ls s es OK E) as (qls & q & qes & A & <- & _ & B & _).
    destruct (queue_linearizable V maxSize Hmax qls q qes A) as (L & U). split; [exact L|]. now rewrite <- (r_ub _ _ _ _ _ _ _ _ _ (s_r _ _ B)).
  Qed.

  Theorem stack_no_failure ls s es t r : strict = true -> (forall l, In l ls -> lab_ok l) -> exec cstep (c_init m0 e0) ls = Some (s, es) ->
    In (Ret t r) es -> is_failure V r = false.
  Proof.
    intros St OK E H. destruct (stack_refines ls s es OK E) as (qls & q & qes & A & <- & Q & _).
    destruct (is_failure V r) eqn:F; [|reflexivity]. apply filter_In in H. destruct H as (H & _).
    destruct (queue_no_failure V maxSize Hmax qls q qes t r A H F) as [X|(fl & X)]; elim (Q St _ X).
  Qed.

  (** ** when nothing can move *)
  Variable mprog : ML -> Prop.
  Variable eprog : EL -> Prop.
  Hypothesis m_ret_one : forall s l s' es t r, mstep s l = Some (s', es) -> In (Ret t r) es -> es = [Ret t r].
  Hypothesis e_ret_one : forall s l s' es t r, estep s l = Some (s', es) -> In (Ret t r) es -> es = [Ret t r].
  Hypothesis m_prog_ok : forall l, mprog l -> nofail l.
  Hypothesis m_can_call : forall s t c, mph s t = Out -> exists l s', mprog l /\ mstep s l = Some (s', [Call t c]).
  Hypothesis e_can_call : forall s t c, eph s t = Out -> exists l s', eprog l /\ estep s l = Some (s', [Call t c]).
  Hypothesis m_stuck : forall b s, mgood b s -> (forall l s' es, mprog l -> mstep s l = Some (s', es) -> exists t c, es = [Call t c]) ->
    forall t, mph s t = Out \/ exists c u n, mph s t = Pending c /\ is_lock c = true /\ mabs s = Some (u, n) /\ u <> t.
  Hypothesis e_stuck : forall s, egood s -> (forall l s' es, eprog l -> estep s l = Some (s', es) -> exists t c, es = [Call t c]) ->
    forall t, eph s t = Out \/ exists c Q, eph s t = Pending c /\ econd w c = Some Q /\ ~ Q (eabs s).
  Definition cprog (l : clab V ML EL) : Prop := match l with CDo _ => True | CMtx _ l => mprog l | CEvt l => eprog l | _ => False end.

  Lemma hear_effs {E : Type} (h : (nat -> cpc V) -> E -> option (nat -> cpc V)) thr es : (forall e, In e es -> h thr e = Some thr) -> hear V h thr es = Some thr.
  Proof.
    induction es as [|e es IH]; intros H; [reflexivity|]. cbn [hear]. rewrite (H e (or_introl eq_refl)). apply IH. intros e' He. apply H. now right.
  Qed.

  (** a queue over objects in which nothing can move is a queue in which nothing can move *)
  Lemma stack_still s q qe : Sm s q -> qinv q qe -> (forall l, cprog l -> cstep s l = None) -> forall t, qstep q (QStep t) = None.
  Proof.
    intros [HR HM HE HT] I ST.
    (* the mutexes *)
    assert (MX : forall o t, mph (c_mtx s o) t = Out \/ exists c u n, mph (c_mtx s o) t = Pending c /\ is_lock c = true /\ mabs (c_mtx s o) = Some (u, n) /\ u <> t).
    { intros o. apply (m_stuck _ _ (HM o)). intros l m' mes P Em.
      destruct mes as [|e mes']; [specialize (ST (CMtx o l) P); cbn [c_step] in ST; rewrite Em in ST; discriminate|].
      destruct (in_dec Bool.bool_dec true (map (fun e => match e with Call _ _ => true | _ => false end) (e :: mes'))) as [Hin|Hin].
      - apply in_map_iff in Hin. destruct Hin as (x & X & Hin). destruct x as [t c|t c r|t r]; try discriminate.
        rewrite (m_call_one _ _ _ _ _ _ Em Hin). eauto.
      - exfalso. assert (NC : forall t c, ~ In (Call t c) (e :: mes')).
        { intros t c X. apply Hin. apply in_map_iff. exists (Call t c). split; [reflexivity|exact X]. }
        specialize (ST (CMtx o l) P). cbn [c_step] in ST. rewrite Em in ST.
        assert (HH : exists thr', hear V (hear_mutex V o) (c_thr s) (e :: mes') = Some thr').
        { destruct (in_dec Bool.bool_dec true (map (fun e => match e with Ret _ _ => true | _ => false end) (e :: mes'))) as [Hr|Hr].
          - apply in_map_iff in Hr. destruct Hr as (x & X & Hr). destruct x as [t c|t c r|t r]; try discriminate.
            pose proof (m_ret_one _ _ _ _ _ _ Em Hr) as X1. rewrite X1 in Em. rewrite X1.
            destruct (m_ok (which_eqb o ORB || strict) (c_mtx s o) l m' [Ret t r] (HM o) Em) as (_ & _ & f & f' & F1 & L & F2).
            { intros _. now apply m_prog_ok. }
            { intros u c [X'|[]]. discriminate. }
            inversion L; subst. match goal with h : f t = Done r |- _ => rewrite F1 in h; rename h into FT end.
            pose proof (r_m _ _ _ _ _ _ _ _ _ HR o t) as Fit. cbn beta in Fit. rewrite FT in Fit.
            cbn [hear hear_mutex]. unfold at_mtx in Fit. destruct (c_thr s t) as [|g c p|g c p]; try (now discriminate Fit).
            destruct (uses g c p) as [[o' m''|e']|]; try (now discriminate Fit). destruct (which_eqb o o'); [eauto|discriminate Fit].
          - exists (c_thr s). apply hear_effs. intros x Hx. destruct x as [t c|t c r|t r]; [elim (NC t c Hx)|reflexivity|].
            elim Hr. apply in_map_iff. exists (Ret t r). split; [reflexivity|exact Hx]. }
        destruct HH as (thr' & HH). rewrite HH in ST. discriminate. }
    (* the event flag *)
    assert (EX : forall t, eph (c_ev s) t = Out \/ exists c Q, eph (c_ev s) t = Pending c /\ econd w c = Some Q /\ ~ Q (eabs (c_ev s))).
    { apply (e_stuck _ HE). intros l m' mes P Em.
      destruct mes as [|e mes']; [specialize (ST (CEvt l) P); cbn [c_step] in ST; rewrite Em in ST; discriminate|].
      destruct (in_dec Bool.bool_dec true (map (fun e => match e with Call _ _ => true | _ => false end) (e :: mes'))) as [Hin|Hin].
      - apply in_map_iff in Hin. destruct Hin as (x & X & Hin). destruct x as [t c|t c r|t r]; try discriminate.
        rewrite (e_call_one _ _ _ _ _ _ Em Hin). eauto.
      - exfalso. assert (NC : forall t c, ~ In (Call t c) (e :: mes')).
        { intros t c X. apply Hin. apply in_map_iff. exists (Call t c). split; [reflexivity|exact X]. }
        specialize (ST (CEvt l) P). cbn [c_step] in ST. rewrite Em in ST.
        assert (HH : exists thr', hear V (hear_event V) (c_thr s) (e :: mes') = Some thr').
        { destruct (in_dec Bool.bool_dec true (map (fun e => match e with Ret _ _ => true | _ => false end) (e :: mes'))) as [Hr|Hr].
          - apply in_map_iff in Hr. destruct Hr as (x & X & Hr). destruct x as [t c|t c r|t r]; try discriminate.
            pose proof (e_ret_one _ _ _ _ _ _ Em Hr) as X1. rewrite X1 in Em. rewrite X1.
            destruct (e_ok (c_ev s) l m' [Ret t r] HE Em) as (_ & f & f' & F1 & L & F2).
            { intros u c [X'|[]]. discriminate. }
            inversion L; subst. match goal with h : f t = Done r |- _ => rewrite F1 in h; rename h into FT end.
            pose proof (r_e _ _ _ _ _ _ _ _ _ HR t) as Fit. cbn beta in Fit. rewrite FT in Fit.
            cbn [hear hear_event]. unfold at_evt in Fit. destruct (c_thr s t) as [|g c p|g c p]; try (now discriminate Fit).
            destruct (uses g c p) as [[o' m''|e']|]; try (now discriminate Fit). eauto.
          - exists (c_thr s). apply hear_effs. intros x Hx. destruct x as [t c|t c r|t r]; [elim (NC t c Hx)|reflexivity|].
            elim Hr. apply in_map_iff. exists (Ret t r). split; [reflexivity|exact Hx]. }
        destruct HH as (thr' & HH). rewrite HH in ST. discriminate. }
    (* nobody is between calls *)
    intros t. pose proof (r_thr _ _ _ _ _ _ _ _ _ HR t) as Qt. pose proof (r_on _ _ _ _ _ _ _ _ _ HR t) as On.
      pose proof (fun o => r_m _ _ _ _ _ _ _ _ _ HR o t) as Fm. pose proof (r_e _ _ _ _ _ _ _ _ _ HR t) as Fe. cbn beta in Fm.
      cbn [q_step]. destruct (c_thr s t) as [|g c p|g c p] eqn:T; cbn in On.
      - cbn in Qt. now rewrite Qt.
      - exfalso. subst g. destruct (uses true c p) as [[o m|m]|] eqn:U.
        + destruct (m_can_call (c_mtx s o) t m (Fm o)) as (l & m' & P & Em). specialize (ST (CMtx o l) P). cbn [c_step] in ST. rewrite Em in ST.
          cbn [hear hear_mutex] in ST. rewrite T, U in ST. destruct (which_eqb_spec o o); [|congruence]. destruct (mcall_dec m m); [discriminate|congruence].
        + destruct (e_can_call (c_ev s) t m Fe) as (l & m' & P & Em). specialize (ST (CEvt l) P). cbn [c_step] in ST. rewrite Em in ST.
          cbn [hear hear_event] in ST. rewrite T, U in ST. destruct (ecall_dec m m); [discriminate|congruence].
        + specialize (ST (CDo t) Logic.I). cbn [c_step] in ST. rewrite T in ST. destruct p; cbn [uses] in U; discriminate.
      - destruct On as (-> & On). destruct (uses true c p) as [[o m|m]|] eqn:U; [| |congruence].
        + specialize (Fm o). unfold at_mtx in Fm. rewrite U in Fm. destruct (which_eqb_spec o o); [|congruence].
          destruct (MX o t) as [X|(d & u & n & X & Lk & Ow & Nu)]; [rewrite X in Fm; destruct Fm as [Fm|(r & Fm)]; discriminate|].
          cbn in Qt. rewrite U, X in Qt. rewrite Qt. rewrite X in Fm. destruct Fm as [Fm|(r & Fm)]; [|discriminate]. injection Fm as ->.
          pose proof (outer_owner V _ _ _ _ _ _ _ _ c HR) as OO. pose proof (r_mrb _ _ _ _ _ _ _ _ _ HR) as MR. cbn beta in OO, MR.
          destruct p; cbn [uses] in U; try discriminate; injection U as <- <-; try discriminate Lk.
          * rewrite OO, Ow. reflexivity.
          * rewrite MR, Ow. reflexivity.
          * rewrite MR, Ow. reflexivity.
        + unfold at_evt in Fe. rewrite U in Fe.
          destruct (EX t) as [X|(d & Q & X & Ec & NQ)]; [rewrite X in Fe; destruct Fe as [Fe|(r & Fe)]; discriminate|].
          cbn in Qt. rewrite U, X in Qt. rewrite Qt. rewrite X in Fe. destruct Fe as [Fe|(r & Fe)]; [|discriminate]. injection Fe as ->.
          destruct p; cbn [uses] in U; try discriminate; injection U as <-; try discriminate Ec.
          cbn [econd] in Ec. destruct (Z.eqb_spec (wait_pat c) 0) as [E0|_]; [unfold wait_pat in E0; destruct (is_send c); discriminate|].
          injection Ec as <-. destruct (wait_bit q c) eqn:WB; [|reflexivity]. elim NQ. unfold wait_bit in WB.
          pose proof (r_ne _ _ _ _ _ _ _ _ _ HR) as NE. pose proof (r_nf _ _ _ _ _ _ _ _ _ HR) as NFl. cbn beta in NE, NFl.
          exists (if is_send c then 1 else 0). unfold has. rewrite (pat_bits V) by (destruct (is_send c); lia). rewrite Z.eqb_refl.
          split; [destruct (is_send c); lia|]. split; [reflexivity|]. destruct (is_send c); congruence.
  Qed.
  Theorem stack_blocked ls s es : (forall l, In l ls -> lab_ok l) -> exec cstep (c_init m0 e0) ls = Some (s, es) ->
    (forall l, cprog l -> cstep s l = None) ->
    exists evs f (m : list V), history evs = es /\ lin_run (qspec V (Z.to_nat maxSize)) (fun _ => Out) [] evs f m /\
      forall t, c_idle s t \/ exists c, c_running s t = Some c /\
        match c with QSend _ _ => length m = Z.to_nat maxSize | QRecv _ _ => m = [] | _ => False end.
  Proof.
    intros OK E ST. destruct (stack_refines ls s es OK E) as (qls & q & qes & A & Hh & _ & [HR HM HE HT] & I).
    pose proof (stack_still s q qes (Build_Sm _ _ HR HM HE HT) I ST) as QS.
    assert (H0 := I). destruct (qi_q _ _ _ _ H0) as (m & RR & _ & _ & f & L & _). exists qes, f, m. split; [exact Hh|]. split; [exact L|].
    destruct (queue_bounds V maxSize Hmax qls q qes A) as (_ & QB & _ & _). rewrite (queued_ok V maxSize q qes m f RR L) in QB.
    pose proof (queued_ok V maxSize q qes m f RR L) as QL.
    intros t.
    pose proof (r_thr _ _ _ _ _ _ _ _ _ HR t) as Qt.
    assert (RN : q_running q t = c_running s t).
    { unfold q_running, c_running. rewrite Qt. destruct (c_thr s t) as [|g c p|g c p]; cbn; try reflexivity.
      destruct (uses g c p) as [[o x|x]|]; [destruct (mph (c_mtx s o) t)|destruct (eph (c_ev s) t)|]; reflexivity. }
    destruct (queue_blocked V maxSize Hmax qls q qes A QS t) as [X|(c & X & W)].
    - left. unfold c_idle. unfold q_idle in X. unfold q_running, c_running in RN. rewrite X in RN. destruct (c_thr s t); congruence.
    - right. exists c. split; [congruence|]. unfold waits_for in W. destruct c; try contradiction; [lia|]. destruct m; [reflexivity|cbn in QL; lia].
  Qed.

  (** ** calls in progress come to an end *)
  Variable eown : EL -> Prop.
  Variable mm : nat -> MS -> nat.
  Variable em : nat -> ES -> nat.
  Variables (n : nat) (K Bm Be : nat).
  Hypothesis m_meas : forall s l s' es, (forall t, (n <= t)%nat -> mph s t = Out) -> mstep s l = Some (s', es) ->
    (exists t c, es = [Call t c] /\ ((t < n)%nat -> (mm n s' <= mm n s + K)%nat)) \/ (forall t c, ~ In (Call t c) es) /\ (mm n s' < mm n s)%nat.
  Hypothesis e_meas : forall s l s' es, (forall t, (n <= t)%nat -> eph s t = Out) -> eown l -> estep s l = Some (s', es) ->
    (exists t c, es = [Call t c] /\ ((t < n)%nat -> (em n s' <= em n s + K)%nat)) \/ (forall t c, ~ In (Call t c) es) /\ (em n s' < em n s)%nat.
  Hypothesis m_bound : forall s, (mm n s <= Bm)%nat.
  Hypothesis e_bound : forall s, (em n s <= Be)%nat.
  Definition cown (l : clab V ML EL) : Prop := match l with CCall _ _ => False | CEvt l => eown l | _ => True end.
  Definition rank (x : cpc V) : nat :=
    match x with CIdle => 0%nat | CBefore _ c p => qw V (QAt c p) | CIn _ c p => (qw V (QAt c p) - 1)%nat end.
  Definition cmeas (s : cst V MS ES) : nat :=
    ((K + 1) * sumn (fun t => rank (c_thr s t)) n + mm n (c_mtx s OSnd) + mm n (c_mtx s ORcv) + mm n (c_mtx s ORB) + em n (c_ev s))%nat.
  Definition sound (s : cst V MS ES) : Prop := (exists q qe, Sm s q /\ qinv q qe) /\ forall t, (n <= t)%nat -> c_idle s t.

  Lemma rank_upd thr t x : (t < n)%nat -> (rank x < rank (thr t))%nat ->
    (sumn (fun u => rank (fupd thr t x u)) n + 1 <= sumn (fun u => rank (thr u)) n)%nat.
  Proof.
    intros L R0. pose proof (sumn_change n (fun u => rank (thr u)) (fun u => rank (fupd thr t x u)) t L) as Y. cbn beta in Y.
    rewrite fupd_same in Y. specialize (Y ltac:(intros u Nu; now rewrite fupd_other)). clear Hmax. lia.
  Qed.
  Lemma hear_m_rank o : forall es thr thr', (forall t c, ~ In (Call t c) es) -> hear V (hear_mutex V o) thr es = Some thr' -> forall t, (rank (thr' t) <= rank (thr t))%nat.
  Proof.
    induction es as [|e es IH]; intros thr thr' NC H t; cbn [hear] in H; [injection H as <-; lia|].
    destruct (hear_mutex V o thr e) as [thr1|] eqn:E; [|discriminate]. etransitivity; [apply (IH thr1 thr'); [intros u c X; apply (NC u c); now right|exact H]|].
    destruct e as [u c|u c r|u r]; cbn [hear_mutex] in E.
    - elim (NC u c). now left.
    - now injection E as <-.
    - destruct (thr u) as [|g c' p|g c' p] eqn:T; try discriminate. destruct (uses g c' p) as [[o' m'|e]|] eqn:U; try discriminate.
      destruct (which_eqb o o'); [|discriminate]. injection E as <-.
      rewrite fupd_eq. destruct (Nat.eqb_spec t u) as [->|]; [|lia]. rewrite T.
      destruct p as [| | | |b| | | |x|x|x|x]; cbn [uses] in U; try discriminate; cbn; try lia; [destruct r; cbn; lia|destruct b; cbn; lia|destruct c'; cbn; lia].
  Qed.
  Lemma hear_e_rank : forall es thr thr', (forall t c, ~ In (Call t c) es) -> hear V (hear_event V) thr es = Some thr' -> forall t, (rank (thr' t) <= rank (thr t))%nat.
  Proof.
    induction es as [|e es IH]; intros thr thr' NC H t; cbn [hear] in H; [injection H as <-; lia|].
    destruct (hear_event V thr e) as [thr1|] eqn:E; [|discriminate]. etransitivity; [apply (IH thr1 thr'); [intros u c X; apply (NC u c); now right|exact H]|].
    destruct e as [u c|u c r|u r]; cbn [hear_event] in E.
    - elim (NC u c). now left.
    - now injection E as <-.
    - destruct (thr u) as [|g c' p|g c' p] eqn:T; try discriminate. destruct (uses g c' p) as [[o' m'|e]|] eqn:U; try discriminate.
      injection E as <-. rewrite fupd_eq. destruct (Nat.eqb_spec t u) as [->|]; [|lia]. rewrite T.
      destruct p as [| | | |b| | | |x|x|x|x]; cbn [uses] in U; try destruct g; try discriminate; cbn; try lia. all: destruct r as [[]|]; cbn; lia.
  Qed.
  Lemma cmeas_step s l s' es : sound s -> lab_ok l /\ cown l -> cstep s l = Some (s', es) -> sound s' /\ (cmeas s' < cmeas s)%nat.
  Proof.
    intros ((q & qe & HS & I) & ID) (OK & OW) E.
    assert (SD : exists q' qe', Sm s' q' /\ qinv q' qe').
    { destruct (S_step s q qe l s' es HS I OK E) as (qls & q' & qes & A & _ & _ & B). exists q', (qe ++ qes). split; [exact B|exact (qinv_exec V maxSize Hmax _ _ _ _ _ I A)]. }
    assert (LT : forall t, c_thr s t <> CIdle -> (t < n)%nat).
    { intros t N. destruct (le_lt_dec n t) as [G|]; [|assumption]. elim N. now apply ID. }
    destruct HS as [HR HM HE HT].
    assert (IM : forall o t, (n <= t)%nat -> mph (c_mtx s o) t = Out).
    { intros o t G. pose proof (r_m _ _ _ _ _ _ _ _ _ HR o t) as X. rewrite (ID t G) in X. exact X. }
    assert (IE : forall t, (n <= t)%nat -> eph (c_ev s) t = Out).
    { intros t G. pose proof (r_e _ _ _ _ _ _ _ _ _ HR t) as X. rewrite (ID t G) in X. exact X. }
    assert (OWN : forall t x, c_thr s t <> CIdle -> (rank x < rank (c_thr s t))%nat -> c_thr s' = fupd (c_thr s) t x -> c_mtx s' = c_mtx s -> c_ev s' = c_ev s ->
              sound s' /\ (cmeas s' < cmeas s)%nat).
    { intros t x NI RK E1 E2 E3. pose proof (LT t NI) as Lt. split; [split; [exact SD|]|].
      - intros u G. unfold c_idle. rewrite E1, fupd_other by lia. now apply ID.
      - unfold cmeas. rewrite E1, E2, E3. pose proof (rank_upd (c_thr s) t x Lt RK). clear Hmax. nia. }
    assert (RU : forall thr', (forall t, runs_of (thr' t) = runs_of (c_thr s t)) -> forall t, (n <= t)%nat -> thr' t = CIdle).
    { intros thr' RN t G. specialize (RN t). rewrite (ID t G) in RN. destruct (thr' t); [reflexivity|discriminate|discriminate]. }
    destruct l as [t c|t|o l|l|t fl]; [contradiction| | | |]; cbn [c_step] in E.
    - destruct (c_thr s t) as [|g c p|g c p] eqn:T; try discriminate.
      pose proof (r_on _ _ _ _ _ _ _ _ _ HR t) as On. rewrite T in On. cbn in On. subst g.
      pose proof (r_ub _ _ _ _ _ _ _ _ _ HR) as Ub. 
      destruct p as [| | | |b| | | |x|x|x|x]; try discriminate; injection E as <- <-.
      + eapply (OWN t); [rewrite T; discriminate| |reflexivity|reflexivity|reflexivity]. rewrite T. match goal with |- context[if ?b then PResetEv else _] => destruct b end; cbn; lia.
      + assert (NU : c_ub (c_op V maxSize MS ES s t true c) = false).
        { destruct SD as (q' & qe' & A & B). rewrite <- (r_ub _ _ _ _ _ _ _ _ _ (s_r _ _ A)). apply (qi_ub _ _ _ _ B). }
        unfold c_op in *. destruct c as [v ms|st ms| |].
        * destruct (ring_push V (rbBufSize maxSize) (c_ring s) v); [|discriminate]. eapply (OWN t); [rewrite T; discriminate| |reflexivity|reflexivity|reflexivity]. rewrite T; cbn; lia.
        * destruct (ring_pop V (rbBufSize maxSize) (c_ring s)) as [[v rg]|]; [|discriminate]. eapply (OWN t); [rewrite T; discriminate| |reflexivity|reflexivity|reflexivity]. rewrite T; cbn; lia.
        * eapply (OWN t); [rewrite T; discriminate| |reflexivity|reflexivity|reflexivity]. rewrite T; cbn; lia.
        * eapply (OWN t); [rewrite T; discriminate| |reflexivity|reflexivity|reflexivity]. rewrite T; cbn; lia.
      + eapply (OWN t); [rewrite T; discriminate| |reflexivity|reflexivity|reflexivity]. rewrite T; cbn; lia.
    - destruct (mstep (c_mtx s o) l) as [[m' mes]|] eqn:Em; [|discriminate].
      destruct (hear V (hear_mutex V o) (c_thr s) mes) as [thr'|] eqn:Eh; [|discriminate]. injection E as <- <-.
      split; [split; [exact SD|]; unfold c_idle; cbn [c_thr]; apply RU; exact (hear_m_runs o _ _ _ Eh)|].
      assert (SUM : forall d, ((K + 1) * sumn (fun t => rank (thr' t)) n + mm n m' < (K + 1) * sumn (fun t => rank (c_thr s t)) n + d)%nat -> d = mm n (c_mtx s o) ->
         (cmeas (mkC (c_ring s) (c_ub s) (wupd (c_mtx s) o m') (c_ev s) thr') < cmeas s)%nat).
      { intros d Lt ->. unfold cmeas. cbn [c_thr c_mtx c_ev]. rewrite !wupd_eq. clear Hmax. destruct o; cbn [which_eqb]; lia. }
      destruct (m_meas _ _ _ _ (IM o) Em) as [(t & c & -> & INC)|(NC & DEC)].
      + cbn [hear] in Eh. destruct (hear_mutex V o (c_thr s) (Call t c)) as [thr1|] eqn:Ec; [|discriminate]. injection Eh as ->.
        cbn [hear_mutex] in Ec. destruct (c_thr s t) as [|g c' p|g c' p] eqn:T; try discriminate. destruct (uses g c' p) as [[o' mc|e]|] eqn:U; try discriminate.
        destruct (which_eqb o o'); [|discriminate]. destruct (mcall_dec c mc); [|discriminate]. injection Ec as <-.
        assert (Lt : (t < n)%nat) by (apply LT; rewrite T; discriminate). specialize (INC Lt).
        eapply SUM; [|reflexivity]. pose proof (rank_upd (c_thr s) t (CIn g c' p) Lt) as X.
        assert (RK : (rank (CIn g c' p) < rank (c_thr s t))%nat) by (rewrite T; destruct p; cbn; lia). specialize (X RK). clear Hmax. nia.
      + eapply SUM; [|reflexivity]. pose proof (sumn_le n (fun t => rank (thr' t)) (fun t => rank (c_thr s t)) (fun k _ => hear_m_rank o _ _ _ NC Eh k)) as X. clear Hmax. nia.
    - destruct (estep (c_ev s) l) as [[e' ees]|] eqn:Em; [|discriminate].
      destruct (hear V (hear_event V) (c_thr s) ees) as [thr'|] eqn:Eh; [|discriminate]. injection E as <- <-.
      split; [split; [exact SD|]; unfold c_idle; cbn [c_thr]; apply RU; exact (hear_e_runs _ _ _ Eh)|].
      assert (SUM : ((K + 1) * sumn (fun t => rank (thr' t)) n + em n e' < (K + 1) * sumn (fun t => rank (c_thr s t)) n + em n (c_ev s))%nat ->
         (cmeas (mkC (c_ring s) (c_ub s) (c_mtx s) e' thr') < cmeas s)%nat).
      { intros Lt. unfold cmeas. cbn [c_thr c_mtx c_ev]. clear Hmax. lia. }
      apply SUM. destruct (e_meas _ _ _ _ IE OW Em) as [(t & c & -> & INC)|(NC & DEC)].
      + cbn [hear] in Eh. destruct (hear_event V (c_thr s) (Call t c)) as [thr1|] eqn:Ec; [|discriminate]. injection Eh as ->.
        cbn [hear_event] in Ec. destruct (c_thr s t) as [|g c' p|g c' p] eqn:T; try discriminate. destruct (uses g c' p) as [[o' mc|mc]|] eqn:U; try discriminate.
        destruct (ecall_dec c mc); [|discriminate]. injection Ec as <-.
        assert (Lt : (t < n)%nat) by (apply LT; rewrite T; discriminate). specialize (INC Lt).
        pose proof (rank_upd (c_thr s) t (CIn g c' p) Lt) as X.
        assert (RK : (rank (CIn g c' p) < rank (c_thr s t))%nat) by (rewrite T; destruct p; cbn; lia). specialize (X RK). clear Hmax. nia.
      + pose proof (sumn_le n (fun t => rank (thr' t)) (fun t => rank (c_thr s t)) (fun k _ => hear_e_rank _ _ _ NC Eh k)) as X. clear Hmax. nia.
    - destruct (c_thr s t) as [|g c p|g c p] eqn:T; try discriminate.
      destruct c as [v ms|[|] ms| |]; destruct p; try discriminate; injection E as <- <-;
        (eapply (OWN t); [rewrite T; discriminate| |reflexivity|reflexivity|reflexivity]; rewrite T; cbn; lia).
  Qed.
  Theorem stack_calls_end ls0 s0 es0 ls s es : (forall l, In l ls0 -> lab_ok l) -> exec cstep (c_init m0 e0) ls0 = Some (s0, es0) ->
    (forall t, (n <= t)%nat -> c_idle s0 t) -> (forall l, In l ls -> lab_ok l /\ cown l) -> exec cstep s0 ls = Some (s, es) ->
    (length ls <= 12 * n * (K + 1) + 3 * Bm + Be)%nat.
  Proof.
    intros OK0 E0 ID OK E. destruct (stack_refines ls0 s0 es0 OK0 E0) as (qls & q & qes & _ & _ & _ & HS & I).
    pose proof (exec_measure _ _ _ cstep sound (fun l => lab_ok l /\ cown l) cmeas cmeas_step ls s0 s es) as X.
    specialize (X (conj (ex_intro _ q (ex_intro _ qes (conj HS I))) ID) OK E).
    assert (BD : (sumn (fun t => rank (c_thr s0 t)) n <= n * 12)%nat) by (apply sumn_bound; intros k _; destruct (c_thr s0 k) as [|g c p|g c p]; cbn; [|destruct p; cbn..]; lia).
    unfold cmeas in X. pose proof (m_bound (c_mtx s0 OSnd)). pose proof (m_bound (c_mtx s0 ORcv)). pose proof (m_bound (c_mtx s0 ORB)). pose proof (e_bound (c_ev s0)).
    clear Hmax. nia.
  Qed.
End Gen.
