(** The four implementations under the queue: what OS/QueueStackProofs assumes of a mutex and of an event flag, proved of
    StdCppMutex, StdCppEventFlag, ItronMutex and ItronEventFlag; and the two whole stacks. *)
From Coq Require Import List ZArith Bool Lia Arith.
Import ListNotations.
From Verif Require Import Spec.OSError Spec.Linear Spec.BitSpec Container.BitPatternModel Spec.MutexSpec Spec.EventFlagSpec Spec.MessageQueueSpec OS.Sched OS.MessageQueueModel OS.MessageQueueProofs
  OS.MutexModel OS.MutexProofs OS.EventFlagModel OS.EventFlagProofs OS.ItronMutexModel OS.ItronMutexProofs OS.ItronEventFlagModel OS.ItronEventFlagProofs
  OS.QueueStackModel OS.QueueStackProofs.
Open Scope Z_scope.

(** ** StdCppMutex *)
Section StdMutex.
  Variable M : nat.
  Hypothesis HM : (1 <= M)%nat.
  Definition sm_ph (s : mst) (t : nat) : status mcall err :=
    match x_thr s t with MIdle => Out | MAcq c => Pending c | MInc => Done OK | UCheck | MutexModel.UDec | URel => Pending MUnlock | MRet r => Done r end.
  Record sm_good (b : bool) (s : mst) : Prop := {
    sg_one : forall u n, x_owner s = Some (u, n) -> n = 1%nat;
    sg_cnt : x_count s = match x_owner s with None => 0 | Some (u, _) => 1 - adj (x_thr s u) end;
    sg_own : forall t, needs_own (x_thr s t) = true -> x_owner s = Some (t, 1%nat);
    sg_acq : forall t c, x_thr s t = MAcq c -> is_lock c = true /\ x_owner s <> Some (t, 1%nat)
  }.
  Definition sm_nofail (l : mlab) : Prop := match l with MThrow _ => False | _ => True end.
  Definition sm_prog (l : mlab) : Prop := match l with MCall _ _ | MStep _ => True | _ => False end.
  Definition sm_wt (q : mpc) : nat := match q with MIdle => 0 | MAcq _ => 3 | MInc => 2 | UCheck => 4 | MutexModel.UDec => 3 | URel => 2 | MRet _ => 1 end.
  Definition sm_meas (n : nat) (s : mst) : nat := sumn (fun t => sm_wt (x_thr s t)) n.

  Lemma sm_start : (forall b, sm_good b m_init) /\ x_owner m_init = None /\ forall t, sm_ph m_init t = Out.
  Proof. split; [|split; reflexivity]. intros b. constructor; cbn; try discriminate; reflexivity. Qed.
  (** the shape of a step *)
  Lemma sm_events s l s' es : m_step M s l = Some (s', es) -> es = [] \/ exists e, es = [e].
  Proof.
    intros E. destruct l as [t c|t|t|t]; cbn [m_step] in E;
      repeat match type of E with context[match ?x with _ => _ end] => destruct x eqn:?; try discriminate end; injection E as <- <-; eauto.
  Qed.
  Lemma one_event {X} (es : list X) e : (es = [] \/ exists e, es = [e]) -> In e es -> es = [e].
  Proof. intros [-> | (x & ->)]; [intros []|]. intros [->|[]]. reflexivity. Qed.
  Lemma sm_call_one s l s' es t c : m_step M s l = Some (s', es) -> In (Call t c) es -> es = [Call t c].
  Proof. intros E. apply one_event. exact (sm_events _ _ _ _ E). Qed.
  Lemma sm_ret_one s l s' es t r : m_step M s l = Some (s', es) -> In (Ret t r) es -> es = [Ret t r].
  Proof. intros E. apply one_event. exact (sm_events _ _ _ _ E). Qed.

  (** the position of thread [t] becomes [q], and the owner and the count change *)
  Lemma sm_mk b s t q o k ub :
    sm_good b s ->
    (o = x_owner s \/ (x_owner s = None /\ o = Some (t, 1%nat)) \/ (x_owner s = Some (t, 1%nat) /\ o = None)) ->
    k = match o with None => 0 | Some (u, _) => 1 - adj (fupd (x_thr s) t q u) end ->
    (needs_own q = true -> o = Some (t, 1%nat)) ->
    (forall c, q = MAcq c -> is_lock c = true /\ o <> Some (t, 1%nat)) ->
    sm_good b (mkM o k ub (fupd (x_thr s) t q)).
  Proof.
    intros [G1 G2 G3 G4] CH K N A. constructor; cbn [x_owner x_count x_thr].
    - intros u n ->. destruct CH as [X|[(_ & X)|(_ & X)]]; [exact (G1 u n (eq_sym X))|congruence|discriminate].
    - exact K.
    - intros u. rewrite fupd_eq. destruct (Nat.eqb_spec u t) as [->|Nu]; [exact N|]. intros X. specialize (G3 u X).
      destruct CH as [->|[(Y & _)|(Y & _)]]; [exact G3|congruence|congruence].
    - intros u c. rewrite fupd_eq. destruct (Nat.eqb_spec u t) as [->|Nu]; [apply A|]. intros X. destruct (G4 u c X) as (L & Y).
      split; [exact L|]. destruct CH as [->|[(_ & ->)|(_ & ->)]]; [exact Y|congruence|discriminate].
  Qed.
  Lemma sm_same_count b s t q : sm_good b s -> adj q = adj (x_thr s t) ->
    x_count s = match x_owner s with None => 0 | Some (u, _) => 1 - adj (fupd (x_thr s) t q u) end.
  Proof.
    intros G A. rewrite (sg_cnt _ _ G). destruct (x_owner s) as [[u n]|]; [|reflexivity]. rewrite fupd_eq. destruct (Nat.eqb_spec u t) as [->|]; congruence.
  Qed.
  Definition evs_ok (s : mst) (es : list (event mcall err)) (s' : mst) : Prop :=
    exists f f', (forall t, f t = sm_ph s t) /\ lin_run (mspec M) f (x_owner s) es f' (x_owner s') /\ forall t, f' t = sm_ph s' t.
  Lemma sm_ph_upd s t q o k ub u : sm_ph (mkM o k ub (fupd (x_thr s) t q)) u = if Nat.eqb u t then sm_ph (mkM o k ub (fun _ => q)) t else sm_ph s u.
  Proof. unfold sm_ph. cbn [x_thr]. rewrite fupd_eq. destruct (Nat.eqb u t); reflexivity. Qed.
  Lemma ev_none s t q k ub : sm_ph (mkM (x_owner s) k ub (fun _ => q)) t = sm_ph s t -> evs_ok s [] (mkM (x_owner s) k ub (fupd (x_thr s) t q)).
  Proof.
    intros H. exists (sm_ph s), (sm_ph s). split; [reflexivity|]. split; [constructor|]. intros u. rewrite sm_ph_upd. destruct (Nat.eqb_spec u t) as [->|]; [now rewrite H|reflexivity].
  Qed.
  Lemma ev_eff s t q o k ub c r : sm_ph s t = Pending c -> mspec M (x_owner s) t c r o -> sm_ph (mkM o k ub (fun _ => q)) t = Done r ->
    evs_ok s [Eff t c r] (mkM o k ub (fupd (x_thr s) t q)).
  Proof.
    intros P S H. exists (sm_ph s), (set_st (sm_ph s) t (Done r)). split; [reflexivity|]. split; [eapply lr_eff; [exact P|exact S|constructor]|].
    intros u. rewrite sm_ph_upd, set_st_eq, H. reflexivity.
  Qed.
  Lemma sm_ok b s l s' es : sm_good b s -> m_step M s l = Some (s', es) -> (b = true -> sm_nofail l) ->
    (forall t c, In (Call t c) es -> if is_lock c then forall n, x_owner s <> Some (t, n) else x_owner s = Some (t, 1%nat)) ->
    sm_good b s' /\ (b = true -> forall t c, In (Eff t c OtherError) es -> is_lock c = false) /\ evs_ok s es s'.
  Proof.
    intros G E NF CA. destruct l as [t c|t|t|t]; cbn [m_step] in E.
    - destruct (x_thr s t) eqn:T; try discriminate. injection E as <- <-. specialize (CA t c (or_introl eq_refl)).
      split; [|split].
      + apply sm_mk; [exact G|now left| | |].
        * apply (sm_same_count b); [exact G|]. rewrite T. now destruct c.
        * destruct (is_lock c); [discriminate|intros _; exact CA].
        * intros c' X. destruct (is_lock c) eqn:L; [|discriminate]. injection X as <-. split; [exact L|apply CA].
      + intros _ u d [X|[]]. discriminate.
      + exists (sm_ph s), (set_st (sm_ph s) t (Pending c)). split; [reflexivity|]. split; [apply lr_call; [unfold sm_ph; now rewrite T|constructor]|].
        intros u. unfold m_go. rewrite sm_ph_upd, set_st_eq. destruct (Nat.eqb u t); [|reflexivity]. destruct c; reflexivity.
    - destruct (x_thr s t) as [|c| | | | |r] eqn:T; try discriminate.
      + destruct (sg_acq _ _ G t c T) as (L & NO). destruct (x_owner s) as [[u n]|] eqn:O.
        { rewrite (sg_one _ _ G u n O) in *. destruct (Nat.eqb_spec u t) as [->|]; [congruence|discriminate]. }
        injection E as <- <-. split; [|split].
        * apply sm_mk; [exact G|right; left; auto| | |].
          -- rewrite (sg_cnt _ _ G), O, fupd_same. reflexivity.
          -- intros _. reflexivity.
          -- discriminate.
        * intros _ u d [X|[]]. discriminate.
        * apply ev_eff; [unfold sm_ph; now rewrite T| |reflexivity]. unfold mspec. rewrite L. left. auto.
      + (* MInc *)
        injection E as <- <-. pose proof (sg_own _ _ G t ltac:(now rewrite T)) as O. pose proof (sg_cnt _ _ G) as C. rewrite O, T in C. cbn in C.
        split; [|split].
        * apply sm_mk; [exact G|now left| |discriminate|discriminate]. rewrite O, fupd_same, C. reflexivity.
        * intros _ u d [].
        * apply ev_none. unfold sm_ph. now rewrite T.
      + (* UCheck *)
        pose proof (sg_own _ _ G t ltac:(now rewrite T)) as O. pose proof (sg_cnt _ _ G) as C. rewrite O, T in C. cbn in C. rewrite C in E. cbn in E.
        injection E as <- <-. split; [|split].
        * apply sm_mk; [exact G|now left| |intros _; exact O|discriminate]. rewrite O, fupd_same. exact C.
        * intros _ u d [].
        * apply ev_none. unfold sm_ph. now rewrite T.
      + (* UDec *)
        injection E as <- <-. pose proof (sg_own _ _ G t ltac:(now rewrite T)) as O. pose proof (sg_cnt _ _ G) as C. rewrite O, T in C. cbn in C.
        split; [|split].
        * apply sm_mk; [exact G|now left| |intros _; exact O|discriminate]. rewrite O, fupd_same, C. reflexivity.
        * intros _ u d [].
        * apply ev_none. unfold sm_ph. now rewrite T.
      + (* URel *)
        pose proof (sg_own _ _ G t ltac:(now rewrite T)) as O. pose proof (sg_cnt _ _ G) as C. rewrite O, T in C. cbn in C.
        rewrite O, Nat.eqb_refl in E. cbn [Nat.eqb] in E. injection E as <- <-. split; [|split].
        * apply sm_mk; [exact G|right; right; auto|exact C|discriminate|discriminate].
        * intros _ u d [X|[]]. discriminate.
        * apply ev_eff; [unfold sm_ph; now rewrite T| |reflexivity]. unfold mspec. cbn [is_lock]. rewrite O, Nat.eqb_refl. auto.
      + (* MRet *)
        injection E as <- <-. split; [|split].
        * apply sm_mk; [exact G|now left| |discriminate|discriminate]. apply (sm_same_count b); [exact G|now rewrite T].
        * intros _ u d [X|[]]. discriminate.
        * exists (sm_ph s), (set_st (sm_ph s) t Out). split; [reflexivity|]. split; [apply lr_ret; [unfold sm_ph; now rewrite T|constructor]|].
          intros u. unfold m_go. rewrite sm_ph_upd, set_st_eq. reflexivity.
    - destruct (x_thr s t) as [|c| | | | |r] eqn:T; try discriminate. destruct (x_owner s) as [[u n]|] eqn:O; [|discriminate].
      destruct (waits_forever c) eqn:WF; [discriminate|]. destruct (Nat.eqb_spec u t) as [|Nu]; [discriminate|]. cbn in E. injection E as <- <-.
      destruct (sg_acq _ _ G t c T) as (L & NO). split; [|split].
      + unfold m_go. apply sm_mk; [exact G|now left| |discriminate|discriminate]. apply (sm_same_count b); [exact G|now rewrite T].
      + intros _ v d [X|[]]. discriminate.
      + unfold m_go. apply ev_eff; [unfold sm_ph; now rewrite T| |reflexivity]. unfold mspec. rewrite L, O. split; [|split; [reflexivity|eauto]].
        destruct c; cbn in *; try discriminate; [tauto|]. apply Z.eqb_neq. exact WF.
    - destruct (x_thr s t) as [|c| | | | |r] eqn:T; try discriminate. injection E as <- <-. destruct (sg_acq _ _ G t c T) as (L & NO). split; [|split].
      + apply sm_mk; [exact G|now left| |discriminate|discriminate]. apply (sm_same_count b); [exact G|now rewrite T].
      + intros Hb. elim (NF Hb).
      + unfold m_go. apply ev_eff; [unfold sm_ph; now rewrite T| |reflexivity]. unfold mspec. now rewrite L.
  Qed.
  Lemma sm_can_call s t c : sm_ph s t = Out -> exists l s', sm_prog l /\ m_step M s l = Some (s', [Call t c]).
  Proof.
    intros P. exists (MCall t c). unfold sm_ph in P. cbn [m_step]. destruct (x_thr s t); try discriminate. eexists. split; [exact Logic.I|reflexivity].
  Qed.
  Lemma sm_stuck b s : sm_good b s -> (forall l s' es, sm_prog l -> m_step M s l = Some (s', es) -> exists t c, es = [Call t c]) ->
    forall t, sm_ph s t = Out \/ exists c u n, sm_ph s t = Pending c /\ is_lock c = true /\ x_owner s = Some (u, n) /\ u <> t.
  Proof.
    intros G ST t. unfold sm_ph.
    assert (NO : forall s' es, m_step M s (MStep t) = Some (s', es) -> False).
    { intros s' es E. destruct (ST (MStep t) s' es Logic.I E) as (u & c & ->). cbn [m_step] in E.
      repeat match type of E with context[match ?x with _ => _ end] => destruct x eqn:?; try discriminate end. }
    cbn [m_step] in NO. destruct (x_thr s t) as [|c| | | | |r] eqn:T; [now left|right|exfalso..].
    - destruct (sg_acq _ _ G t c T) as (L & NX). destruct (x_owner s) as [[u n]|] eqn:O; [|elim (NO _ _ eq_refl)].
      exists c, u, n. split; [reflexivity|]. split; [exact L|]. split; [reflexivity|]. intros ->. rewrite (sg_one _ _ G t n O) in NX. congruence.
    - elim (NO _ _ eq_refl).
    - destruct (x_count s =? 0); elim (NO _ _ eq_refl).
    - elim (NO _ _ eq_refl).
    - destruct (x_owner s) as [[u n]|]; [destruct (Nat.eqb u t)|]; elim (NO _ _ eq_refl).
    - elim (NO _ _ eq_refl).
  Qed.
  Lemma sm_meas_step n K s l s' es : (4 <= K)%nat -> (forall t, (n <= t)%nat -> sm_ph s t = Out) -> m_step M s l = Some (s', es) ->
    (exists t c, es = [Call t c] /\ ((t < n)%nat -> (sm_meas n s' <= sm_meas n s + K)%nat)) \/ (forall t c, ~ In (Call t c) es) /\ (sm_meas n s' < sm_meas n s)%nat.
  Proof.
    intros HK ID E.
    assert (U : forall t q o k ub, (t < n)%nat -> (sm_meas n (mkM o k ub (fupd (x_thr s) t q)) + sm_wt (x_thr s t) = sm_meas n s + sm_wt q)%nat).
    { intros t q o k ub Lt. unfold sm_meas. cbn [x_thr].
      pose proof (sumn_change n (fun u => sm_wt (x_thr s u)) (fun u => sm_wt (fupd (x_thr s) t q u)) t Lt) as Y. cbn beta in Y. rewrite fupd_same in Y.
      specialize (Y ltac:(intros u Nu; now rewrite fupd_other)). lia. }
    assert (LT : forall t, x_thr s t <> MIdle -> (t < n)%nat).
    { intros t N. destruct (le_lt_dec n t) as [G|]; [|assumption]. specialize (ID t G). unfold sm_ph in ID. destruct (x_thr s t); congruence. }
    destruct l as [t c|t|t|t]; cbn [m_step] in E.
    - left. exists t, c. destruct (x_thr s t) eqn:T; try discriminate. injection E as <- <-. split; [reflexivity|]. intros Lt.
      pose proof (U t (if is_lock c then MAcq c else UCheck) (x_owner s) (x_count s) (x_ub s) Lt) as X. rewrite T in X. unfold m_go. destruct (is_lock c); cbn [sm_wt] in X; lia.
    - right. specialize (LT t).
      repeat match type of E with context[match ?x with _ => _ end] => destruct x eqn:?; try discriminate end; injection E as <- <-;
        (split; [intros ? ? X; cbn in X; intuition discriminate|]); specialize (LT ltac:(discriminate)); unfold m_go;
        match goal with |- (sm_meas n (mkM ?o ?k ?b (fupd _ t ?q)) < _)%nat => pose proof (U t q o k b LT) as X end;
        repeat match goal with h : x_thr s t = _ |- _ => rewrite h in X end; cbn [sm_wt] in X; lia.
    - right. specialize (LT t).
      repeat match type of E with context[match ?x with _ => _ end] => destruct x eqn:?; try discriminate end; injection E as <- <-;
        (split; [intros ? ? X; cbn in X; intuition discriminate|]); specialize (LT ltac:(discriminate)); unfold m_go;
        match goal with |- (sm_meas n (mkM ?o ?k ?b (fupd _ t ?q)) < _)%nat => pose proof (U t q o k b LT) as X end;
        repeat match goal with h : x_thr s t = _ |- _ => rewrite h in X end; cbn [sm_wt] in X; lia.
    - right. specialize (LT t).
      repeat match type of E with context[match ?x with _ => _ end] => destruct x eqn:?; try discriminate end; injection E as <- <-;
        (split; [intros ? ? X; cbn in X; intuition discriminate|]); specialize (LT ltac:(discriminate)); unfold m_go;
        match goal with |- (sm_meas n (mkM ?o ?k ?b (fupd _ t ?q)) < _)%nat => pose proof (U t q o k b LT) as X end;
        repeat match goal with h : x_thr s t = _ |- _ => rewrite h in X end; cbn [sm_wt] in X; lia.
  Qed.
  Lemma sm_bound n s : (sm_meas n s <= n * 4)%nat.
  Proof. apply sumn_bound. intros k _. destruct (x_thr s k); cbn; lia. Qed.
End StdMutex.

(** ** event flags: one step of a run that has taken effect so far as [es] *)
Lemma lin_det {C R Sp} (sp : Sp -> nat -> C -> R -> Sp -> Prop) (D : forall s t c r s1 s2, sp s t c r s1 -> sp s t c r s2 -> s1 = s2) :
  forall es f s f1 s1, lin_run sp f s es f1 s1 -> forall f2 s2, lin_run sp f s es f2 s2 -> f1 = f2 /\ s1 = s2.
Proof.
  induction 1 as [f s|f s t c es f' s' Ft L IH|f s t c r s1 es f' s' Ft Sp1 L IH|f s t r es f' s' Ft L IH]; intros f2 s2 H2; inversion H2; subst.
  - auto.
  - now apply IH.
  - match goal with h : sp s t c r ?x |- _ => assert (x = s1) as -> by (eapply D; eassumption) end. now apply IH.
  - now apply IH.
Qed.
Lemma espec_det w : 0 < w -> forall p t c r p1 p2, espec w false p t c r p1 -> espec w false p t c r p2 -> p1 = p2.
Proof.
  intros Hw p t c r p1 p2 (H1 & A) (H2 & B).
  assert (W : forall Q, (Q p /\ r = ERes OK (if wants_released c then Some p else None) /\ p1 = (if false then 0 else p)) \/ (~ Q p /\ ~ EventFlagSpec.forever c /\ r = ERes TimedOut None /\ p1 = p) ->
     (Q p /\ r = ERes OK (if wants_released c then Some p else None) /\ p2 = (if false then 0 else p)) \/ (~ Q p /\ ~ EventFlagSpec.forever c /\ r = ERes TimedOut None /\ p2 = p) -> p1 = p2).
  { intros Q [(_ & _ & ->)|(_ & _ & _ & ->)] [(_ & _ & ->)|(_ & _ & _ & ->)]; reflexivity. }
  destruct c as [k|pos k|P m rel k| |pos|P| |pos|P|]; cbn beta iota in A, B.
  - exact (W _ A B).
  - destruct (econd w (EWaitOne pos k)); [exact (W _ A B)|]. destruct A as (_ & ->), B as (_ & ->). reflexivity.
  - destruct (econd w (EWait P m rel k)); [exact (W _ A B)|]. destruct A as (_ & ->), B as (_ & ->). reflexivity.
  - destruct A as (_ & A), B as (_ & B). apply Z.bits_inj'. intros i Hi. destruct (Z.lt_ge_cases i w) as [L|G].
    + unfold has in A, B. now rewrite A, B by lia.
    + rewrite !(high_bit w) by (unfold inw; assumption). reflexivity.
  - destruct (pos <? w); [|destruct A as (_ & ->), B as (_ & ->); reflexivity]. destruct A as (_ & A), B as (_ & B). apply Z.bits_inj'. intros i Hi. now rewrite A, B.
  - destruct A as (_ & A), B as (_ & B). apply Z.bits_inj'. intros i Hi. now rewrite A, B.
  - destruct A as (_ & ->), B as (_ & ->). reflexivity.
  - destruct (pos <? w); [|destruct A as (_ & ->), B as (_ & ->); reflexivity]. destruct A as (_ & A), B as (_ & B). apply Z.bits_inj'. intros i Hi. now rewrite A, B.
  - destruct A as (_ & A), B as (_ & B). apply Z.bits_inj'. intros i Hi. now rewrite A, B.
  - destruct A as (_ & ->), B as (_ & ->). reflexivity.
Qed.
Lemma lin_last w es es' f p f' p' : 0 < w -> lin_run (espec w false) (fun _ => Out) 0 es f p -> lin_run (espec w false) (fun _ => Out) 0 (es ++ es') f' p' ->
  lin_run (espec w false) f p es' f' p'.
Proof.
  intros Hw L1 L2. destruct (lin_run_app_inv _ _ _ _ _ _ _ _ _ _ L2) as (f1 & p1 & A & B).
  destruct (lin_det _ (espec_det w Hw) _ _ _ _ _ L1 _ _ A) as (-> & ->). exact B.
Qed.

Section StdEvent.
  Variable w : Z.
  Hypothesis Hw : 0 < w.
  Variable dbg : bool.
  Notation stp := (e_step w dbg false).
  Definition se_ph (s : est) (t : nat) : status ecall eres := st_of (e_thr s t).
  Definition se_good (s : est) : Prop := exists es, einv w false s es.
  Definition se_prog (l : elab) : Prop := match l with LCall _ _ | LStep _ => True | _ => False end.
  Definition se_own (l : elab) : Prop := match l with LSpurious _ => False | _ => True end.
  Lemma se_start : se_good e_init /\ e_pat e_init = 0 /\ forall t, se_ph e_init t = Out.
  Proof. split; [exists []; exact (einv_init w Hw false)|split; reflexivity]. Qed.
  Lemma se_events s l s' es : stp s l = Some (s', es) -> es = [] \/ exists e, es = [e].
  Proof.
    intros E. unfold e_step, wait_success in E. destruct l as [t c|t|t|t];
      repeat match type of E with context[match ?x with _ => _ end] => destruct x eqn:?; try discriminate end; injection E as <- <-; eauto.
  Qed.
  Lemma se_call_one s l s' es t c : stp s l = Some (s', es) -> In (Call t c) es -> es = [Call t c].
  Proof. intros E. apply one_event. exact (se_events _ _ _ _ E). Qed.
  Lemma se_ret_one s l s' es t r : stp s l = Some (s', es) -> In (Ret t r) es -> es = [Ret t r].
  Proof. intros E. apply one_event. exact (se_events _ _ _ _ E). Qed.
  Lemma se_ok s l s' es : se_good s -> stp s l = Some (s', es) ->
    (forall t c, In (Call t c) es -> ecall_ok w c) ->
    se_good s' /\ exists f f', (forall t, f t = se_ph s t) /\ lin_run (espec w false) f (e_pat s) es f' (e_pat s') /\ forall t, f' t = se_ph s' t.
  Proof.
    intros (es0 & I) E CA.
    assert (LO : label_ok w l).
    { destruct l as [t c| | |]; cbn; auto. apply (CA t). cbn [e_step] in E. destruct (e_thr s t); try discriminate. injection E as <- <-. now left. }
    pose proof (einv_step w Hw dbg false s es0 l s' es LO I E) as I'. split; [exists (es0 ++ es); exact I'|].
    destruct (ei_lin _ _ _ _ I) as (f & L & F). destruct (ei_lin _ _ _ _ I') as (f' & L' & F').
    exists f, f'. split; [exact F|]. split; [exact (lin_last w _ _ _ _ _ _ Hw L L')|exact F'].
  Qed.
  Lemma se_can_call s t c : se_ph s t = Out -> exists l s', se_prog l /\ stp s l = Some (s', [Call t c]).
  Proof.
    intros P. exists (LCall t c). unfold se_ph in P. cbn [e_step]. destruct (e_thr s t); try discriminate. eexists. split; [exact Logic.I|reflexivity].
  Qed.
  Lemma se_stuck s : se_good s -> (forall l s' es, se_prog l -> stp s l = Some (s', es) -> exists t c, es = [Call t c]) ->
    forall t, se_ph s t = Out \/ exists c Q, se_ph s t = Pending c /\ econd w c = Some Q /\ ~ Q (e_pat s).
  Proof.
    intros (es & I) ST t.
    assert (NO : forall t, stp s (LStep t) = None).
    { intros u. destruct (stp s (LStep u)) as [[s' es']|] eqn:E; [|reflexivity]. destruct (ST (LStep u) s' es' Logic.I E) as (v & c & ->).
      exfalso. unfold e_step, wait_success in E. repeat match type of E with context[match ?x with _ => _ end] => destruct x eqn:?; try discriminate end. }
    destruct (ef_stuck_shape w Hw dbg false s es I NO t) as [D|(c & P & m & rel & tm & A & B & D)].
    - left. unfold se_ph. now rewrite D.
    - right. destruct (pred_false_cond w false c P m rel tm (e_pat s) B (ei_pat _ _ _ _ I) D) as (Q & X & Y). exists c, Q. unfold se_ph. rewrite A. auto.
  Qed.
  Lemma se_meas_step n K s l s' es : (8 + 2 * n <= K)%nat -> (forall t, (n <= t)%nat -> se_ph s t = Out) -> se_own l -> stp s l = Some (s', es) ->
    (exists t c, es = [Call t c] /\ ((t < n)%nat -> (measure n s' <= measure n s + K)%nat)) \/ (forall t c, ~ In (Call t c) es) /\ (measure n s' < measure n s)%nat.
  Proof.
    intros HK ID OW E.
    assert (ID' : forall t, (n <= t)%nat -> e_idle s t) by (intros t G; specialize (ID t G); unfold se_ph in ID; unfold e_idle; destruct (e_thr s t); try discriminate; reflexivity).
    destruct l as [t c|t|t|t]; [left|right|right|contradiction].
    - exists t, c. cbn [e_step] in E. destruct (e_thr s t) eqn:T; try discriminate. injection E as <- <-. split; [reflexivity|]. intros Lt.
      unfold measure. cbn [e_thr].
      pose proof (sumn_change n (fun u => wt n (e_thr s u)) (fun u => wt n (fupd (e_thr s) t (EEntry c) u)) t Lt) as Y. cbn beta in Y. rewrite fupd_same, T in Y.
      specialize (Y ltac:(intros u Nu; now rewrite fupd_other)). cbn [wt] in Y. lia.
    - split; [|exact (proj2 (measure_step w dbg false n s (LStep t) s' es ID' Logic.I E))].
      intros u c X. pose proof (se_call_one _ _ _ _ _ _ E X) as ->. unfold e_step, wait_success in E.
      repeat match type of E with context[match ?x with _ => _ end] => destruct x eqn:?; try discriminate end.
    - split; [|exact (proj2 (measure_step w dbg false n s (LTimeout t) s' es ID' Logic.I E))].
      intros u c X. pose proof (se_call_one _ _ _ _ _ _ E X) as ->. unfold e_step in E.
      repeat match type of E with context[match ?x with _ => _ end] => destruct x eqn:?; try discriminate end.
  Qed.
End StdEvent.

(** ** ItronMutex *)
Section ItrMutex.
  Variable M : nat.
  Definition im_ph (s : ist) (t : nat) : status mcall err := ist_of (i_thr s t).
  Definition im_pc (b : bool) (o : option nat) (t : nat) (q : ipc) : Prop :=
    match q with
    | IAcq c => is_lock c = true /\ o <> Some t
    | IMine c => is_lock c = true /\ o <> Some t /\ b = false
    | IInc _ | ItronMutexModel.UDec => False
    | UAsk | UCnt | UUnl => o = Some t
    | _ => True
    end.
  Record im_good (b : bool) (s : ist) : Prop := {
    ig_cnt : i_count s = 0;
    ig_pc : forall t, im_pc b (i_owner s) t (i_thr s t)
  }.
  Definition im_nofail (l : ilab) : Prop := match l with KRefuse _ => False | _ => True end.
  Definition im_prog (l : ilab) : Prop := match l with KCall _ _ | KStep _ => True | _ => False end.
  Definition im_meas (n : nat) (s : ist) : nat := sumn (fun t => iw (i_thr s t)) n.
  Lemma im_start : (forall b, im_good b i_init) /\ iabs i_init = None /\ forall t, im_ph i_init t = Out.
  Proof. split; [|split; reflexivity]. intros b. constructor; cbn; auto. Qed.
  Lemma im_events s l s' es : i_step s l = Some (s', es) -> es = [] \/ exists e, es = [e].
  Proof.
    intros E. unfold i_step in E. destruct l as [t c|t|t|t];
      repeat match type of E with context[match ?x with _ => _ end] => destruct x eqn:?; try discriminate end; injection E as <- <-; eauto.
  Qed.
  Lemma im_call_one s l s' es t c : i_step s l = Some (s', es) -> In (Call t c) es -> es = [Call t c].
  Proof. intros E. apply one_event. exact (im_events _ _ _ _ E). Qed.
  Lemma im_ret_one s l s' es t r : i_step s l = Some (s', es) -> In (Ret t r) es -> es = [Ret t r].
  Proof. intros E. apply one_event. exact (im_events _ _ _ _ E). Qed.
  Lemma im_mk b s t q o : im_good b s ->
    (o = i_owner s \/ (i_owner s = None /\ o = Some t) \/ (i_owner s = Some t /\ o = None)) -> im_pc b o t q ->
    im_good b (mkI o (i_count s) (fupd (i_thr s) t q)).
  Proof.
    intros [G1 G2] CH K. constructor; cbn [i_count i_owner i_thr]; [exact G1|]. intros u. rewrite fupd_eq. destruct (Nat.eqb_spec u t) as [->|N]; [exact K|].
    specialize (G2 u). destruct CH as [->|[(E & ->)|(E & ->)]]; [exact G2| |]; rewrite E in G2; destruct (i_thr s u); cbn in *; auto; try congruence;
      try (destruct G2 as (A & B & C)); try (destruct G2 as (A & B)); repeat split; try assumption; congruence.
  Qed.
  Lemma im_ph_upd s t q o k u : im_ph (mkI o k (fupd (i_thr s) t q)) u = if Nat.eqb u t then ist_of q else im_ph s u.
  Proof. unfold im_ph. cbn [i_thr]. rewrite fupd_eq. destruct (Nat.eqb u t); reflexivity. Qed.
  Definition ievs_ok (s : ist) (es : list (event mcall err)) (s' : ist) : Prop :=
    exists f f', (forall t, f t = im_ph s t) /\ lin_run (mspec M) f (iabs s) es f' (iabs s') /\ forall t, f' t = im_ph s' t.
  Lemma iev_none s t q : ist_of q = im_ph s t -> ievs_ok s [] (mkI (i_owner s) (i_count s) (fupd (i_thr s) t q)).
  Proof.
    intros H. exists (im_ph s), (im_ph s). split; [reflexivity|]. split; [constructor|]. intros u. rewrite im_ph_upd. destruct (Nat.eqb_spec u t) as [->|]; [now rewrite H|reflexivity].
  Qed.
  Lemma iev_eff s t r o k c : im_ph s t = Pending c -> mspec M (iabs s) t c r (iabs (mkI o k (i_thr s))) ->
    ievs_ok s [Eff t c r] (mkI o k (fupd (i_thr s) t (IRet r))).
  Proof.
    intros P S. exists (im_ph s), (set_st (im_ph s) t (Done r)). split; [reflexivity|]. split; [eapply lr_eff; [exact P|exact S|constructor]|].
    intros u. rewrite im_ph_upd, set_st_eq. reflexivity.
  Qed.
  Lemma im_ok b s l s' es : im_good b s -> i_step s l = Some (s', es) -> (b = true -> im_nofail l) ->
    (forall t c, In (Call t c) es -> if is_lock c then forall n, iabs s <> Some (t, n) else iabs s = Some (t, 1%nat)) ->
    im_good b s' /\ (b = true -> forall t c, In (Eff t c OtherError) es -> is_lock c = false) /\ ievs_ok s es s'.
  Proof.
    intros G E NF CA. pose proof (ig_cnt _ _ G) as C0. destruct l as [t c|t|t|t]; cbn [i_step] in E.
    - destruct (i_thr s t) eqn:T; try discriminate. injection E as <- <-. specialize (CA t c (or_introl eq_refl)).
      split; [|split].
      + apply im_mk; [exact G|now left|]. unfold iabs in CA. destruct (is_lock c) eqn:L; cbn.
        * split; [exact L|]. intros X. rewrite X in CA. now apply (CA (S (Z.to_nat (i_count s)))).
        * destruct (i_owner s); congruence.
      + intros _ u d [X|[]]. discriminate.
      + exists (im_ph s), (set_st (im_ph s) t (Pending c)). split; [reflexivity|]. split; [apply lr_call; [unfold im_ph; now rewrite T|constructor]|].
        intros u. unfold i_go. rewrite im_ph_upd, set_st_eq. destruct (Nat.eqb u t); [|reflexivity]. destruct c; reflexivity.
    - pose proof (ig_pc _ _ G t) as PC. destruct (i_thr s t) as [|c|c|c| | | | |r] eqn:T; try discriminate; cbn in PC; try contradiction.
      + destruct PC as (L & NO). destruct (i_owner s) as [u|] eqn:O.
        { destruct (Nat.eqb_spec u t) as [->|]; [congruence|discriminate]. }
        injection E as <- <-. split; [|split].
        * apply im_mk; [exact G|right; left; auto|exact Logic.I].
        * intros _ u d [X|[]]. discriminate.
        * apply iev_eff; [unfold im_ph; now rewrite T|]. unfold mspec, iabs. rewrite L, O. cbn [i_owner i_count]. rewrite C0. left. auto.
      + destruct PC as (L & NO & ->). destruct (owns s t) eqn:OW; [apply owns_true in OW; congruence|]. injection E as <- <-. split; [|split].
        * apply im_mk; [exact G|now left|exact Logic.I].
        * discriminate.
        * apply iev_eff; [unfold im_ph; now rewrite T|]. unfold mspec. rewrite L. reflexivity.
      + assert (OW : owns s t = true) by now apply owns_true. rewrite OW in E. injection E as <- <-. split; [|split].
        * apply im_mk; [exact G|now left|exact PC].
        * intros _ u d [].
        * apply iev_none. unfold im_ph. now rewrite T.
      + rewrite C0 in E. cbn in E. injection E as <- <-. split; [|split].
        * apply im_mk; [exact G|now left|exact PC].
        * intros _ u d [].
        * apply iev_none. unfold im_ph. now rewrite T.
      + assert (OW : owns s t = true) by now apply owns_true. rewrite OW in E. injection E as <- <-. split; [|split].
        * apply im_mk; [exact G|right; right; auto|exact Logic.I].
        * intros _ u d [X|[]]. discriminate.
        * apply iev_eff; [unfold im_ph; now rewrite T|]. unfold mspec, iabs. cbn [is_lock i_owner]. rewrite PC, C0, Nat.eqb_refl. auto.
      + injection E as <- <-. split; [|split].
        * apply im_mk; [exact G|now left|exact Logic.I].
        * intros _ u d [X|[]]. discriminate.
        * exists (im_ph s), (set_st (im_ph s) t Out). split; [reflexivity|]. split; [apply lr_ret; [unfold im_ph; now rewrite T|constructor]|].
          intros u. unfold i_go. rewrite im_ph_upd, set_st_eq. reflexivity.
    - pose proof (ig_pc _ _ G t) as PC. destruct (i_thr s t) as [|c|c|c| | | | |r] eqn:T; try discriminate. destruct (i_owner s) as [u|] eqn:O; [|discriminate].
      destruct (ItronMutexModel.forever c) eqn:WF; [discriminate|]. destruct (Nat.eqb_spec u t) as [|Nu]; [discriminate|]. cbn in E. injection E as <- <-.
      destruct PC as (L & NO). split; [|split].
      + apply im_mk; [exact G|now left|exact Logic.I].
      + intros _ v d [X|[]]. discriminate.
      + apply iev_eff; [unfold im_ph; now rewrite T|]. unfold mspec, iabs. rewrite L. cbn [i_owner i_count]. rewrite O. split; [|split; [reflexivity|eauto]].
        destruct c; cbn in *; try discriminate; [tauto|]. apply Z.eqb_neq. exact WF.
    - pose proof (ig_pc _ _ G t) as PC. destruct (i_thr s t) as [|c|c|c| | | | |r] eqn:T; try discriminate. injection E as <- <-. destruct PC as (L & NO).
      assert (b = false) as -> by (destruct b; [elim (NF eq_refl)|reflexivity]). split; [|split].
      + apply im_mk; [exact G|now left|]. cbn. auto.
      + discriminate.
      + apply iev_none. unfold im_ph. now rewrite T.
  Qed.
  Lemma im_can_call s t c : im_ph s t = Out -> exists l s', im_prog l /\ i_step s l = Some (s', [Call t c]).
  Proof.
    intros P. exists (KCall t c). unfold im_ph in P. cbn [i_step]. destruct (i_thr s t); try discriminate. eexists. split; [exact Logic.I|reflexivity].
  Qed.
  Lemma im_stuck b s : im_good b s -> (forall l s' es, im_prog l -> i_step s l = Some (s', es) -> exists t c, es = [Call t c]) ->
    forall t, im_ph s t = Out \/ exists c u n, im_ph s t = Pending c /\ is_lock c = true /\ iabs s = Some (u, n) /\ u <> t.
  Proof.
    intros G ST.
    assert (NO : forall t, i_step s (KStep t) = None).
    { intros t. destruct (i_step s (KStep t)) as [[s' es']|] eqn:E; [|reflexivity]. destruct (ST (KStep t) s' es' Logic.I E) as (v & c & ->).
      exfalso. unfold i_step in E. repeat match type of E with context[match ?x with _ => _ end] => destruct x eqn:?; try discriminate end. }
    intros t. destruct (itron_blocked s NO t) as [D|(c & u & R0 & O & N & _)]; unfold im_ph.
    - left. now rewrite D.
    - right. exists c, u, (S (Z.to_nat (i_count s))). unfold i_running in R0. pose proof (ig_pc _ _ G t) as PC. destruct (i_thr s t); try discriminate. injection R0 as ->.
      split; [reflexivity|]. split; [exact (proj1 PC)|]. split; [|exact N]. unfold iabs. now rewrite O.
  Qed.
  Lemma im_meas_step n K s l s' es : (4 <= K)%nat -> (forall t, (n <= t)%nat -> im_ph s t = Out) -> i_step s l = Some (s', es) ->
    (exists t c, es = [Call t c] /\ ((t < n)%nat -> (im_meas n s' <= im_meas n s + K)%nat)) \/ (forall t c, ~ In (Call t c) es) /\ (im_meas n s' < im_meas n s)%nat.
  Proof.
    intros HK ID E.
    assert (U : forall t q o k, (t < n)%nat -> (im_meas n (mkI o k (fupd (i_thr s) t q)) + iw (i_thr s t) = im_meas n s + iw q)%nat).
    { intros t q o k Lt. unfold im_meas. cbn [i_thr].
      pose proof (sumn_change n (fun u => iw (i_thr s u)) (fun u => iw (fupd (i_thr s) t q u)) t Lt) as Y. cbn beta in Y. rewrite fupd_same in Y.
      specialize (Y ltac:(intros u Nu; now rewrite fupd_other)). lia. }
    assert (LT : forall t, i_thr s t <> IIdle -> (t < n)%nat).
    { intros t N. destruct (le_lt_dec n t) as [G|]; [|assumption]. specialize (ID t G). unfold im_ph in ID. destruct (i_thr s t); cbn in ID; congruence. }
    destruct l as [t c|t|t|t]; cbn [i_step] in E.
    - left. exists t, c. destruct (i_thr s t) eqn:T; try discriminate. injection E as <- <-. split; [reflexivity|]. intros Lt.
      pose proof (U t (if is_lock c then IAcq c else UAsk) (i_owner s) (i_count s) Lt) as X. rewrite T in X. unfold i_go. destruct (is_lock c); cbn [iw] in X; lia.
    - right. specialize (LT t).
      repeat match type of E with context[match ?x with _ => _ end] => destruct x eqn:?; try discriminate end; injection E as <- <-;
        (split; [intros ? ? X; cbn in X; intuition discriminate|]); specialize (LT ltac:(discriminate)); unfold i_go;
        match goal with |- (im_meas n (mkI ?o ?k (fupd _ t ?q)) < _)%nat => pose proof (U t q o k LT) as X end;
        repeat match goal with h : i_thr s t = _ |- _ => rewrite h in X end; cbn [iw] in X; lia.
    - right. specialize (LT t).
      repeat match type of E with context[match ?x with _ => _ end] => destruct x eqn:?; try discriminate end; injection E as <- <-;
        (split; [intros ? ? X; cbn in X; intuition discriminate|]); specialize (LT ltac:(discriminate)); unfold i_go;
        match goal with |- (im_meas n (mkI ?o ?k (fupd _ t ?q)) < _)%nat => pose proof (U t q o k LT) as X end;
        repeat match goal with h : i_thr s t = _ |- _ => rewrite h in X end; cbn [iw] in X; lia.
    - right. specialize (LT t).
      repeat match type of E with context[match ?x with _ => _ end] => destruct x eqn:?; try discriminate end; injection E as <- <-;
        (split; [intros ? ? X; cbn in X; intuition discriminate|]); specialize (LT ltac:(discriminate)); unfold i_go;
        match goal with |- (im_meas n (mkI ?o ?k (fupd _ t ?q)) < _)%nat => pose proof (U t q o k LT) as X end;
        repeat match goal with h : i_thr s t = _ |- _ => rewrite h in X end; cbn [iw] in X; lia.
  Qed.
  Lemma im_bound n s : (im_meas n s <= n * 4)%nat.
  Proof. apply sumn_bound. intros k _. destruct (i_thr s k); cbn; lia. Qed.
End ItrMutex.

(** ** ItronEventFlag *)
Section ItrEvent.
  Variables w wf : Z.
  Hypothesis Hw : 0 < w.
  Hypothesis Hwf : w <= wf.
  Variable dbg : bool.
  Notation stp := (f_step w wf dbg false).
  Definition ie_ph (s : ifst) (t : nat) : status ecall eres := fst_of (f_thr s t).
  Definition ie_good (s : ifst) : Prop := exists es, finv w false s es.
  Definition ie_prog (l : iflab) : Prop := match l with FCall _ _ | FStep _ _ => True | _ => False end.
  Lemma ie_start : ie_good f_init /\ f_ptn f_init = 0 /\ forall t, ie_ph f_init t = Out.
  Proof. split; [exists []; exact (finv_init w Hw false)|split; reflexivity]. Qed.
  Lemma release_effs : forall q p thr p' thr' q' es', k_release w wf false p thr q = (p', thr', q', es') -> forall e, In e es' -> exists t c r, e = Eff t c r.
  Proof.
    induction q as [|t q IH]; intros p thr p' thr' q' es' E e; cbn [k_release] in E.
    - injection E as <- <- <- <-. intros [].
    - destruct (f_thr {| f_ptn := p; f_queue := q; f_thr := thr |} t) eqn:X; cbn in X; rewrite X in E;
        repeat match type of E with context [match ?o with OWait _ _ _ _ => _ | _ => _ end] => destruct o end;
        repeat match type of E with context [if ?b then _ else _] => destruct b end;
        match type of E with context [k_release ?a ?b ?d ?x ?y q] =>
             destruct (k_release a b d x y q) as [[[p2 thr2] q2] es2] eqn:E2; injection E as <- <- <- <- end;
        try (exact (IH _ _ _ _ _ _ E2 e)).
      intros [<-|H]; [eauto|exact (IH _ _ _ _ _ _ E2 e H)].
  Qed.
  Lemma ie_events s l s' es : stp s l = Some (s', es) -> (exists e, es = [e]) \/ forall e, In e es -> exists t c r, e = Eff t c r.
  Proof.
    intros E. unfold f_step, f_done in E. destruct l as [t c|t k|t].
    - destruct (f_thr s t); try discriminate. injection E as <- <-. eauto.
    - destruct (f_thr s t) as [|c|c o|c o|r]; try discriminate.
      + destruct (if_entry w dbg c); try discriminate; injection E as <- <-; [right; intros e []|eauto].
      + destruct o as [P m rel tm|P|P|].
        * repeat match type of E with context[if ?x then _ else _] => destruct x eqn:?; try discriminate end; injection E as <- <-; eauto. right. intros e [].
        * destruct (k_release w wf false (Z.lor (f_ptn s) (flgptn wf P)) (f_thr s) (f_queue s)) as [[[p' thr'] q'] es1] eqn:ER.
          injection E as <- <-. right. intros e [<-|H]; [eauto|exact (release_effs _ _ _ _ _ _ _ ER e H)].
        * destruct (b_step w dbg P BFlipAll) as [[? ?]| |]; try discriminate. injection E as <- <-. eauto.
        * injection E as <- <-. eauto.
      + injection E as <- <-. eauto.
    - destruct (f_thr s t) as [|c|c o|c o|r]; try discriminate. destruct o as [P m rel tm|P|P|]; try discriminate. destruct (tm =? -1); [discriminate|]. injection E as <- <-. eauto.
  Qed.
  Lemma ie_call_one s l s' es t c : stp s l = Some (s', es) -> In (Call t c) es -> es = [Call t c].
  Proof.
    intros E H. destruct (ie_events _ _ _ _ E) as [(e & ->)|X]; [destruct H as [->|[]]; reflexivity|]. destruct (X _ H) as (? & ? & ? & ?). discriminate.
  Qed.
  Lemma ie_ret_one s l s' es t r : stp s l = Some (s', es) -> In (Ret t r) es -> es = [Ret t r].
  Proof.
    intros E H. destruct (ie_events _ _ _ _ E) as [(e & ->)|X]; [destruct H as [->|[]]; reflexivity|]. destruct (X _ H) as (? & ? & ? & ?). discriminate.
  Qed.
  Lemma ie_ok s l s' es : ie_good s -> stp s l = Some (s', es) ->
    (forall t c, In (Call t c) es -> ecall_ok w c /\ tmout_ok c) ->
    ie_good s' /\ exists f f', (forall t, f t = ie_ph s t) /\ lin_run (espec w false) f (f_ptn s) es f' (f_ptn s') /\ forall t, f' t = ie_ph s' t.
  Proof.
    intros (es0 & I) E CA.
    assert (LO : f_label_ok w l).
    { destruct l as [t c| |]; cbn; auto. apply (CA t). cbn [f_step] in E. destruct (f_thr s t); try discriminate. injection E as <- <-. now left. }
    pose proof (finv_step w wf Hw Hwf dbg false s es0 l s' es I LO E) as I'. split; [exists (es0 ++ es); exact I'|].
    destruct (fi_lin _ _ _ _ I) as (f & L & F). destruct (fi_lin _ _ _ _ I') as (f' & L' & F').
    exists f, f'. split; [exact F|]. split; [exact (lin_last w _ _ _ _ _ _ Hw L L')|exact F'].
  Qed.
  Lemma ie_can_call s t c : ie_ph s t = Out -> exists l s', ie_prog l /\ stp s l = Some (s', [Call t c]).
  Proof.
    intros P. exists (FCall t c). unfold ie_ph in P. cbn [f_step]. destruct (f_thr s t); try discriminate. eexists. split; [exact Logic.I|reflexivity].
  Qed.
  Lemma ie_no_call s t k s' es : stp s (FStep t k) = Some (s', es) -> forall u c, ~ In (Call u c) es.
  Proof.
    intros E u c H. pose proof (ie_call_one _ _ _ _ _ _ E H) as ->. unfold f_step, f_done in E.
    destruct (f_thr s t) as [|c1|c1 o|c1 o|r]; try discriminate.
    - destruct (if_entry w dbg c1); discriminate.
    - destruct o as [P m rel tm|P|P|].
      + repeat match type of E with context[if ?x then _ else _] => destruct x eqn:?; try discriminate end.
      + destruct (k_release w wf false (Z.lor (f_ptn s) (flgptn wf P)) (f_thr s) (f_queue s)) as [[[p' thr'] q'] es1]. discriminate.
      + destruct (b_step w dbg P BFlipAll) as [[? ?]| |]; discriminate.
      + discriminate.
  Qed.
  Lemma ie_stuck s : ie_good s -> (forall l s' es, ie_prog l -> stp s l = Some (s', es) -> exists t c, es = [Call t c]) ->
    forall t, ie_ph s t = Out \/ exists c Q, ie_ph s t = Pending c /\ econd w c = Some Q /\ ~ Q (f_ptn s).
  Proof.
    intros (es & [I1 I2 I3 I4 _]) ST t.
    assert (NO : forall k, stp s (FStep t k) = None).
    { intros k. destruct (stp s (FStep t k)) as [[s' es']|] eqn:E; [|reflexivity]. destruct (ST (FStep t k) s' es' Logic.I E) as (v & c & ->).
      elim (ie_no_call _ _ _ _ _ E v c). now left. }
    specialize (NO 0%nat). pose proof (I4 t) as K. unfold ie_ph. cbn [f_step] in NO. destruct (f_thr s t) as [|c|c o|c o|r] eqn:Ht.
    - now left.
    - exfalso. rewrite if_entry_eq in NO. pose proof (entry_ok w Hw dbg false c (proj1 K)). destruct (ef_entry w dbg c); [discriminate|discriminate|contradiction].
    - exfalso. destruct o as [P m rel tm|P|P|]; try discriminate.
      + destruct (flgptn wf P =? 0); [discriminate|]. destruct (k_cond (flgptn wf P) m (f_ptn s)); [discriminate|]. destruct (tm =? 0); discriminate.
      + destruct (k_release w wf false (Z.lor (f_ptn s) (flgptn wf P)) (f_thr s) (f_queue s)) as [[[? ?] ?] ?]. discriminate.
    - right. destruct K as (c' & P & m & rel & tm & EQ & O & NZ & N0 & C). injection EQ as -> ->.
      destruct (pred_false_cond w false c' P m rel tm (f_ptn s) O I1 C) as (Q & EQ & NQ). exists c', Q. split; [reflexivity|]. auto.
    - discriminate.
  Qed.
  Lemma ie_meas_step n K s l s' es : (4 <= K)%nat -> (forall t, (n <= t)%nat -> ie_ph s t = Out) -> stp s l = Some (s', es) ->
    (exists t c, es = [Call t c] /\ ((t < n)%nat -> (fmeasure n s' <= fmeasure n s + K)%nat)) \/ (forall t c, ~ In (Call t c) es) /\ (fmeasure n s' < fmeasure n s)%nat.
  Proof.
    intros HK ID E.
    assert (ID' : forall t, (n <= t)%nat -> f_idle s t) by (intros t G; specialize (ID t G); unfold ie_ph in ID; unfold f_idle; destruct (f_thr s t); try discriminate; reflexivity).
    destruct l as [t c|t k|t]; [left|right|right].
    - exists t, c. cbn [f_step] in E. destruct (f_thr s t) eqn:T; try discriminate. injection E as <- <-. split; [reflexivity|]. intros Lt.
      unfold fmeasure. cbn [f_go f_thr].
      pose proof (sumn_change n (fun u => fweight (f_thr s u)) (fun u => fweight (fupd (f_thr s) t (FEntry c) u)) t Lt) as Y. cbn beta in Y. rewrite fupd_same, T in Y.
      specialize (Y ltac:(intros u Nu; now rewrite fupd_other)). cbn [fweight] in Y. lia.
    - split; [exact (ie_no_call _ _ _ _ _ E)|exact (proj2 (fmeasure_step w wf dbg false n s (FStep t k) s' es ID' Logic.I E))].
    - split; [|exact (proj2 (fmeasure_step w wf dbg false n s (FTimeout t) s' es ID' Logic.I E))].
      intros u c X. pose proof (ie_call_one _ _ _ _ _ _ E X) as ->. unfold f_step in E.
      repeat match type of E with context[match ?x with _ => _ end] => destruct x eqn:?; try discriminate end.
  Qed.
  Lemma ie_bound n s : (fmeasure n s <= n * 4)%nat.
  Proof. apply sumn_bound. intros k _. destruct (f_thr s k); cbn; lia. Qed.
End ItrEvent.

(** ** MessageQueue over StdCppMutex and StdCppEventFlag *)
Section StdStack.
  Variable V : Type.
  Variable maxSize : Z.
  Hypothesis Hmax : 0 <= maxSize < 2 ^ 64 - 1.
  Variable M : nat.
  Hypothesis HM : (1 <= M)%nat.
  Variable w : Z.
  Hypothesis Hw : 2 <= w.
  Variable dbg : bool.
  Notation sstep := (std_step V maxSize M w dbg).
  Let w0 : 0 < w.
  Proof. lia. Qed.
  Lemma std_e_ok s l s' es : se_good w s -> e_step w dbg false s l = Some (s', es) ->
    (forall t c, In (Call t c) es -> ecall_ok w c /\ match c with EWait _ _ _ (Within ms) => (fun _ : Z => True) ms | EWait _ _ _ _ | EWaitAny _ | EWaitOne _ _ => False | _ => True end) ->
    se_good w s' /\ exists f f', (forall t, f t = se_ph s t) /\ lin_run (espec w false) f (e_pat s) es f' (e_pat s') /\ forall t, f' t = se_ph s' t.
  Proof. intros G E C. apply (se_ok w w0 dbg s l s' es G E). intros t c Hc. exact (proj1 (C t c Hc)). Qed.
  Lemma std_lab_ok l : std_ok V l -> lab_ok V mlab elab sm_nofail (fun _ => True) false l.
  Proof. destruct l as [t c|t|[| |] [ | | |]|l|t b]; cbn; auto; discriminate. Qed.

  Theorem std_linearizable ls s es : (forall l, In l ls -> std_ok V l) -> exec sstep (std_init V) ls = Some (s, es) ->
    linearizable (qspec V (Z.to_nat maxSize)) [] es /\ c_ub s = false.
  Proof.
    intros OK E.
    exact (stack_linearizable V maxSize Hmax M w Hw _ _ _ _ _ _ _ _ sm_good sm_ph x_owner sm_nofail (se_good w) se_ph e_pat (fun _ => True) false
      sm_start (se_start w w0) (sm_call_one M) (se_call_one w dbg) (sm_ok M) std_e_ok ls s es (fun l hl => std_lab_ok l (OK l hl)) E).
  Qed.
  Lemma std_lab_calm l : std_calm V l -> lab_ok V mlab elab sm_nofail (fun _ => True) true l.
  Proof. destruct l as [t c|t|[| |] [ | | |]|l|t b]; cbn; auto; contradiction. Qed.
  Theorem std_no_failure ls s es t r : (forall l, In l ls -> std_calm V l) -> exec sstep (std_init V) ls = Some (s, es) -> In (Ret t r) es -> is_failure V r = false.
  Proof.
    intros OK E.
    exact (stack_no_failure V maxSize Hmax M w Hw _ _ _ _ _ _ _ _ sm_good sm_ph x_owner sm_nofail (se_good w) se_ph e_pat (fun _ => True) true
      sm_start (se_start w w0) (sm_call_one M) (se_call_one w dbg) (sm_ok M) std_e_ok ls s es t r eq_refl (fun l hl => std_lab_calm l (OK l hl)) E).
  Qed.
  Theorem std_blocked ls s es : (forall l, In l ls -> std_ok V l) -> exec sstep (std_init V) ls = Some (s, es) ->
    (forall l, std_moves V l -> sstep s l = None) ->
    exists evs f (m : list V), history evs = es /\ lin_run (qspec V (Z.to_nat maxSize)) (fun _ => Out) [] evs f m /\
      forall t, c_idle s t \/ exists c, c_running s t = Some c /\
        match c with QSend _ _ => length m = Z.to_nat maxSize | QRecv _ _ => m = [] | _ => False end.
  Proof.
    intros OK E ST.
    refine (stack_blocked V maxSize Hmax M w Hw _ _ _ _ _ _ _ _ sm_good sm_ph x_owner sm_nofail (se_good w) se_ph e_pat (fun _ => True) false
      sm_start (se_start w w0) (sm_call_one M) (se_call_one w dbg) (sm_ok M) std_e_ok sm_prog se_prog (sm_ret_one M) (se_ret_one w dbg) _ (sm_can_call M)
      (se_can_call w dbg) (sm_stuck M) (se_stuck w w0 dbg) ls s es (fun l hl => std_lab_ok l (OK l hl)) E _).
    - intros [ | | |]; cbn; auto.
    - intros l P. apply ST. destruct l as [t c|t|o l|l|t b]; cbn in P; try contradiction; [exact I|destruct l; cbn in *; tauto|destruct l; cbn in *; tauto].
  Qed.
  Theorem std_calls_end n ls0 s0 es0 ls s es : (forall l, In l ls0 -> std_ok V l) -> exec sstep (std_init V) ls0 = Some (s0, es0) ->
    (forall t, (n <= t)%nat -> c_idle s0 t) -> (forall l, In l ls -> std_ok V l /\ std_own V l) -> exec sstep s0 ls = Some (s, es) ->
    (length ls <= 128 * n + 26 * n * n)%nat.
  Proof.
    intros OK0 E0 ID OK E.
    assert (X : (length ls <= 12 * n * ((8 + 2 * n) + 1) + 3 * (n * 4) + n * (8 + 2 * n))%nat).
    { refine (stack_calls_end V maxSize Hmax M w Hw _ _ _ _ _ _ _ _ sm_good sm_ph x_owner sm_nofail (se_good w) se_ph e_pat (fun _ => True) false
      sm_start (se_start w w0) (sm_call_one M) (se_call_one w dbg) (sm_ok M) std_e_ok se_own sm_meas measure n (8 + 2 * n) (n * 4) (n * (8 + 2 * n))
      (fun s l s' es => sm_meas_step M HM n _ s l s' es _) (fun s l s' es => se_meas_step w dbg n _ s l s' es _) (sm_bound M HM n) (measure_bound n)
      ls0 s0 es0 ls s es (fun l hl => std_lab_ok l (OK0 l hl)) E0 ID _ E); [clear; lia|clear; lia|].
      intros l Hl. destruct (OK l Hl) as (A & B). split; [exact (std_lab_ok l A)|]. destruct l as [t c|t|o l|[ | | | ]|t b]; cbn in *; auto. }
    clear - X. nia.
  Qed.
End StdStack.

(** ** MessageQueue over ItronMutex and ItronEventFlag *)
Section ItrStack.
  Variable V : Type.
  Variable maxSize : Z.
  Hypothesis Hmax : 0 <= maxSize < 2 ^ 64 - 1.
  Variables w wf : Z.
  Hypothesis Hw : 2 <= w.
  Hypothesis Hwf : w <= wf.
  Variable dbg : bool.
  Notation sstep := (itr_step V maxSize w wf dbg).
  Let w0 : 0 < w.
  Proof. lia. Qed.
  Lemma itr_e_ok s l s' es : ie_good w s -> f_step w wf dbg false s l = Some (s', es) ->
    (forall t c, In (Call t c) es -> ecall_ok w c /\ match c with EWait _ _ _ (Within ms) => (fun ms : Z => -1 <= ms) ms | EWait _ _ _ _ | EWaitAny _ | EWaitOne _ _ => False | _ => True end) ->
    ie_good w s' /\ exists f f', (forall t, f t = ie_ph s t) /\ lin_run (espec w false) f (f_ptn s) es f' (f_ptn s') /\ forall t, f' t = ie_ph s' t.
  Proof.
    intros G E C. apply (ie_ok w wf w0 Hwf dbg s l s' es G E). intros t c Hc. destruct (C t c Hc) as (A & B). split; [exact A|].
    destruct c; cbn in B |- *; try contradiction; auto; match goal with x : patience |- _ => destruct x end; cbn in B |- *; try contradiction; auto.
  Qed.
  Lemma itr_lab_ok l : itr_ok V l -> lab_ok V ilab iflab im_nofail (fun ms => -1 <= ms) false l.
  Proof. destruct l as [t c|t|[| |] [ | | |]|l|t b]; cbn; auto; discriminate. Qed.

  Theorem itr_linearizable ls s es : (forall l, In l ls -> itr_ok V l) -> exec sstep (itr_init V) ls = Some (s, es) ->
    linearizable (qspec V (Z.to_nat maxSize)) [] es /\ c_ub s = false.
  Proof.
    intros OK E.
    exact (stack_linearizable V maxSize Hmax 1 w Hw _ _ _ _ _ _ _ _ im_good im_ph iabs im_nofail (ie_good w) ie_ph f_ptn (fun ms => -1 <= ms) false
      im_start (ie_start w w0) im_call_one (ie_call_one w wf dbg) (im_ok 1) itr_e_ok ls s es (fun l hl => itr_lab_ok l (OK l hl)) E).
  Qed.
  Lemma itr_lab_calm l : itr_calm V l -> lab_ok V ilab iflab im_nofail (fun ms => -1 <= ms) true l.
  Proof. destruct l as [t c|t|[| |] [ | | |]|l|t b]; cbn; auto; contradiction. Qed.
  Theorem itr_no_failure ls s es t r : (forall l, In l ls -> itr_calm V l) -> exec sstep (itr_init V) ls = Some (s, es) -> In (Ret t r) es -> is_failure V r = false.
  Proof.
    intros OK E.
    exact (stack_no_failure V maxSize Hmax 1 w Hw _ _ _ _ _ _ _ _ im_good im_ph iabs im_nofail (ie_good w) ie_ph f_ptn (fun ms => -1 <= ms) true
      im_start (ie_start w w0) im_call_one (ie_call_one w wf dbg) (im_ok 1) itr_e_ok ls s es t r eq_refl (fun l hl => itr_lab_calm l (OK l hl)) E).
  Qed.
  Theorem itr_blocked ls s es : (forall l, In l ls -> itr_ok V l) -> exec sstep (itr_init V) ls = Some (s, es) ->
    (forall l, itr_moves V l -> sstep s l = None) ->
    exists evs f (m : list V), history evs = es /\ lin_run (qspec V (Z.to_nat maxSize)) (fun _ => Out) [] evs f m /\
      forall t, c_idle s t \/ exists c, c_running s t = Some c /\
        match c with QSend _ _ => length m = Z.to_nat maxSize | QRecv _ _ => m = [] | _ => False end.
  Proof.
    intros OK E ST.
    refine (stack_blocked V maxSize Hmax 1 w Hw _ _ _ _ _ _ _ _ im_good im_ph iabs im_nofail (ie_good w) ie_ph f_ptn (fun ms => -1 <= ms) false
      im_start (ie_start w w0) im_call_one (ie_call_one w wf dbg) (im_ok 1) itr_e_ok im_prog ie_prog im_ret_one (ie_ret_one w wf dbg) _ im_can_call
      (ie_can_call w wf dbg) im_stuck (ie_stuck w wf w0 dbg) ls s es (fun l hl => itr_lab_ok l (OK l hl)) E _).
    - intros [ | | |]; cbn; auto.
    - intros l P. apply ST. destruct l as [t c|t|o l|l|t b]; cbn in P; try contradiction; [exact I|destruct l; cbn in *; tauto|destruct l; cbn in *; tauto].
  Qed.
  Theorem itr_calls_end n ls0 s0 es0 ls s es : (forall l, In l ls0 -> itr_ok V l) -> exec sstep (itr_init V) ls0 = Some (s0, es0) ->
    (forall t, (n <= t)%nat -> c_idle s0 t) -> (forall l, In l ls -> itr_ok V l /\ itr_own V l) -> exec sstep s0 ls = Some (s, es) ->
    (length ls <= 76 * n)%nat.
  Proof.
    intros OK0 E0 ID OK E.
    assert (X : (length ls <= 12 * n * (4 + 1) + 3 * (n * 4) + n * 4)%nat).
    { refine (stack_calls_end V maxSize Hmax 1 w Hw _ _ _ _ _ _ _ _ im_good im_ph iabs im_nofail (ie_good w) ie_ph f_ptn (fun ms => -1 <= ms) false
      im_start (ie_start w w0) im_call_one (ie_call_one w wf dbg) (im_ok 1) itr_e_ok (fun _ => True) im_meas fmeasure n 4 (n * 4) (n * 4)
      (fun s l s' es => im_meas_step n _ s l s' es _) (fun s l s' es A _ => ie_meas_step w wf dbg n _ s l s' es _ A) (im_bound n) (ie_bound n)
      ls0 s0 es0 ls s es (fun l hl => itr_lab_ok l (OK0 l hl)) E0 ID _ E); [clear; lia|clear; lia|].
      intros l Hl. destruct (OK l Hl) as (A & B). split; [exact (itr_lab_ok l A)|]. destruct l as [t c|t|o l|l|t b]; cbn in *; auto. }
    clear - X. nia.
  Qed.
End ItrStack.
