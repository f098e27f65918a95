(** ThreadPool over the real MessageQueue refines ThreadPool over an atomic queue: every execution of OS/PoolStackModel has the trace of an
    execution of OS/ThreadPoolModel. *)
From Coq Require Import List ZArith Bool Lia Arith.
Import ListNotations.
From Verif Require Import Spec.OSError Spec.Linear Spec.MessageQueueSpec OS.Sched OS.MessageQueueModel OS.MessageQueueProofs Spec.ThreadPoolSpec OS.ThreadPoolModel
  OS.ThreadPoolProofs OS.ThreadPoolLiveness OS.PoolStackModel.
Local Open Scope nat_scope.

(** the ring holds one list only *)
Lemma ring_rep_unique (V : Type) (B : Z) (r : ring V) (q q' : list V) : ring_rep V B r q -> ring_rep V B r q' -> q = q'.
Proof.
  intros R R'. pose proof (rr_b _ _ _ _ R) as Hb. pose proof (rr_len _ _ _ _ R) as L. pose proof (rr_len _ _ _ _ R') as L'.
  assert (NE : forall i, nth_error q i = nth_error q' i).
  { intros i. destruct (Z_lt_le_dec (Z.of_nat i) B) as [LT|GE].
    - set (j := ((r_begin r + Z.of_nat i) mod B)%Z). assert (Hj : (0 <= j < B)%Z) by (apply Z.mod_pos_bound; lia).
      pose proof (rr_buf _ _ _ _ R j Hj) as X. pose proof (rr_buf _ _ _ _ R' j Hj) as Y. rewrite X in Y.
      assert (E : Z.to_nat ((j - r_begin r) mod B) = i).
      { unfold j. rewrite Zminus_mod_idemp_l. replace (r_begin r + Z.of_nat i - r_begin r)%Z with (Z.of_nat i) by lia. rewrite Z.mod_small by lia. apply Nat2Z.id. }
      rewrite E in Y. exact Y.
    - rewrite (proj2 (nth_error_None q i)), (proj2 (nth_error_None q' i)) by lia. reflexivity. }
  clear - NE. revert q' NE. induction q as [|v q IH]; intros [|v' q'] NE; [reflexivity|discriminate (NE 0)|discriminate (NE 0)|].
  pose proof (NE 0) as E. injection E as ->. f_equal. apply IH. intros i. exact (NE (S i)).
Qed.

Section P.
  Variable N : nat.
  Hypothesis HN : (Z.of_nat N < 2 ^ 64 - 1)%Z.
  Variable dflt : Z.
  Variable ext_prio : nat -> Z.
  Notation size := (Z.of_nat N).
  Let HM : (0 <= size < 2 ^ 64 - 1)%Z.
  Proof. lia. Qed.
  Notation B := (rbBufSize size).
  Let HB : (1 <= B < 2 ^ 64)%Z.
  Proof. exact (B_ok size HM). Qed.
  Let BE : B = (size + 1)%Z.
  Proof. exact (B_eq size HM). Qed.
  Notation pstep := (p_step N dflt ext_prio).
  Notation tstep := (t_step N dflt ext_prio).
  Notation qstep := (q_step nat size).
  Notation qok := (qinv nat size).
  Notation rep := (ring_rep nat B).

  Definition done_of (pt : point nat) : option (qres nat) :=
    match pt with PSetEv r | PUnlockOp r | PUnlockOuter r | MessageQueueModel.PRet r => Some r | _ => None end.
  Definition after_set (pt : point nat) : bool := match pt with PUnlockOp _ | PUnlockOuter _ | MessageQueueModel.PRet _ => true | _ => false end.
  (** a runner in the ring that has not been signalled yet *)
  Definition sig_of (x : qpc nat) : list nat := match x with QAt (QSend r _) (PSetEv _) => [r] | _ => [] end.
  Definition unsig (Q : qst nat) : list nat := match q_mrb Q with Some u => sig_of (q_thr Q u) | None => [] end.
  Definition recv_ok (x : task) (ms : Z) (g : option nat) (p : option Z) (pt : point nat) (pa : ppc) : Prop :=
    match done_of pt with
    | None => pa = PAt (PStart x ms g p)
    | Some (RRecv OK (Some k)) => pa = PHold SJoin k x ms g p
    | Some (RRecv TimedOut None) => pa = PRet (PErr TimedOut)
    | Some _ => False
    end.
  (** thread [t]: its place in the queue, its place in the stacked pool ([ps], [ws], [gs]) and in the atomic pool ([pa], [wa], [ga]) *)
  Definition thr_ok (t : nat) (x : qpc nat) (ps : ppc) (ws : wpc) (gs : nat -> option nat) (pa : ppc) (wa : wpc) (ga : nat -> option nat) : Prop :=
    match x with
    | QIdle => pa = ps /\ wa = ws /\ forall g, ga g = gs g
    | QAt c pt =>
        match ps with
        | PAt (PStart x ms g p) => x <> 0 /\ c = QRecv true ms /\ wa = ws /\ (forall g, ga g = gs g) /\ recv_ok x ms g p pt pa
        | PRel true r g => c = QSend r (-1)%Z /\ wa = ws /\
            if after_set pt then pa = PRet PVoid /\ (forall g', ga g' = if g' =? g then None else gs g') else pa = PRel true r g /\ forall g, ga g = gs g
        | PIdle => t < N /\ c = QSend t (-1)%Z /\ pa = PIdle /\ (forall g, ga g = gs g) /\
            exists th, ws = WAfter ASend th /\ wa = if after_set pt then WEnd else WAfter ASend th
        | _ => False
        end
    end.
  Record sim (s : tst) (a : pst) : Prop := mkSim {
    sm_q : exists es, qok (t_queue s) es;
    sm_ring : rep (q_ring (t_queue s)) (p_q a ++ unsig (t_queue s));
    sm_ne : p_q a <> [] -> q_ne (t_queue s) = true;
    sm_task : forall r, p_task a r = p_task (t_pool s) r;
    sm_needs : forall r, p_needs a r = p_needs (t_pool s) r;
    sm_prio : forall r, p_prio a r = p_prio (t_pool s) r;
    sm_ev : forall r, p_ev a r = p_ev (t_pool s) r;
    sm_pq : p_q (t_pool s) = [];
    sm_thr : forall t, thr_ok t (q_thr (t_queue s) t) (p_thr (t_pool s) t) (p_run (t_pool s) t) (p_guard (t_pool s) t) (p_thr a t) (p_run a t) (p_guard a t) }.

  (** ** what the stacked pool and the atomic one agree on *)
  Lemma agree_idle s a t : sim s a -> (p_thr (t_pool s) t = PIdle <-> p_thr a t = PIdle).
  Proof.
    intros S. pose proof (sm_thr _ _ S t) as X. unfold thr_ok in X. destruct (q_thr (t_queue s) t) as [|c pt]; [destruct X as (-> & _); tauto|].
    destruct (p_thr (t_pool s) t) as [|[x ms g p|g ms|g|g|x q|x th]|k r x ms g p|[|] r g|r]; try contradiction; [| |].
    - destruct X as (_ & _ & -> & _). tauto.
    - destruct X as (_ & _ & _ & _ & X). unfold recv_ok in X. split; [discriminate|]. intros Y. rewrite Y in X.
      destruct (done_of pt) as [[e|[] [k|]|n|]|]; try discriminate; contradiction.
    - destruct X as (_ & _ & X). destruct (after_set pt); destruct X as (-> & _); split; discriminate.
  Qed.
  Lemma agree_run s a r w : sim s a -> w = WOff \/ w = WIn -> (p_run (t_pool s) r = w <-> p_run a r = w).
  Proof.
    intros S W. pose proof (sm_thr _ _ S r) as X. unfold thr_ok in X. destruct (q_thr (t_queue s) r) as [|c pt]; [destruct X as (_ & -> & _); tauto|].
    destruct (p_thr (t_pool s) r) as [|[x ms g p|g ms|g|g|x q|x th]|k r' x ms g p|[|] r' g|r']; try contradiction; [| |].
    - destruct X as (_ & _ & _ & _ & th & -> & ->). destruct W as [-> | ->]; destruct (after_set pt); split; discriminate.
    - destruct X as (_ & _ & -> & _). tauto.
    - destruct X as (_ & -> & _). tauto.
  Qed.
  Lemma agree_thr s a t : sim s a -> q_thr (t_queue s) t = QIdle -> p_thr a t = p_thr (t_pool s) t /\ p_run a t = p_run (t_pool s) t /\ forall g, p_guard a t g = p_guard (t_pool s) t g.
  Proof. intros S Q. pose proof (sm_thr _ _ S t) as X. now rewrite Q in X. Qed.
  (** a thread inside the queue is at a call of the queue *)
  Lemma busy_wants s a t c pt : sim s a -> q_thr (t_queue s) t = QAt c pt -> wants N (t_pool s) t = Some c.
  Proof.
    intros S Q. pose proof (sm_thr _ _ S t) as X. rewrite Q in X. unfold wants. cbn in X.
    destruct (p_thr (t_pool s) t) as [|[x ms g p|g ms|g|g|x q|x th]|k r' x ms g p|[|] r' g|r']; try contradiction; [| |].
    - destruct X as (L & -> & _ & _ & th & -> & _). apply Nat.ltb_lt in L. now rewrite L.
    - destruct X as (NX & -> & _). apply Nat.eqb_neq in NX. now rewrite NX.
    - now destruct X as (-> & _).
  Qed.
  (** in both worlds thread [r] changes from [w] to [v] *)
  Lemma thr_ok_run t x ps ws gs pa wa ga v : thr_ok t x ps ws gs pa wa ga -> (forall th, ws <> WAfter ASend th) -> thr_ok t x ps v gs pa v ga.
  Proof.
    intros X NA. destruct x as [|c pt]; cbn in *; [destruct X as (X1 & _ & X2); exact (conj X1 (conj eq_refl X2))|].
    destruct ps as [|[y ms g p|g ms|g|g|y q|y th]|k r' y ms g p|[|] r' g|r']; try contradiction; [| |].
    - destruct X as (_ & _ & _ & _ & th & W & _). now elim (NA th).
    - destruct X as (A & A1 & A2 & A3 & A4). exact (conj A (conj A1 (conj eq_refl (conj A3 A4)))).
    - destruct X as (A & _ & A2). exact (conj A (conj eq_refl A2)).
  Qed.
  Lemma run_eq s a r : sim s a -> (forall th, p_run (t_pool s) r <> WAfter ASend th) -> p_run a r = p_run (t_pool s) r.
  Proof.
    intros S NA. pose proof (sm_thr _ _ S r) as X. unfold thr_ok in X. destruct (q_thr (t_queue s) r) as [|c pt]; [now destruct X as (_ & -> & _)|].
    destruct (p_thr (t_pool s) r) as [|[x ms g p|g ms|g|g|x q|x th]|k r' x ms g p|[|] r' g|r']; try contradiction; [| |].
    - destruct X as (_ & _ & _ & _ & th & E & _). now elim (NA th).
    - now destruct X as (_ & _ & -> & _).
    - now destruct X as (_ & -> & _).
  Qed.
  (** Thread::start *)
  Lemma thr_ok_start t x ps ws gs pa wa ga : thr_ok t x ps ws gs pa wa ga ->
    thr_ok t x ps (match ws with WOff => WStarted | w => w end) gs pa (match wa with WOff => WStarted | w => w end) ga.
  Proof.
    intros X. destruct x as [|c pt]; cbn in *; [destruct X as (X1 & -> & X2); exact (conj X1 (conj eq_refl X2))|].
    destruct ps as [|[y ms g p|g ms|g|g|y q|y th]|k r' y ms g p|[|] r' g|r']; try contradiction; [| |].
    - destruct X as (A & A1 & A2 & A3 & th & -> & ->). refine (conj A (conj A1 (conj A2 (conj A3 _)))). exists th. split; [reflexivity|]. now destruct (after_set pt).
    - destruct X as (A & A1 & -> & A3 & A4). exact (conj A (conj A1 (conj eq_refl (conj A3 A4)))).
    - destruct X as (A & -> & A2). exact (conj A (conj eq_refl A2)).
  Qed.
  Lemma agree_callable s a t c : sim s a -> callable N (t_pool s) t c = true -> p_thr (t_pool s) t = PIdle -> q_thr (t_queue s) t = QIdle.
  Proof.
    intros S C I. pose proof (sm_thr _ _ S t) as X. destruct (q_thr (t_queue s) t) as [|d pt]; [reflexivity|]. cbn in X. rewrite I in X.
    destruct X as (L & _ & _ & _ & th & W & _). unfold callable in C. apply Nat.ltb_lt in L. rewrite L, W in C. discriminate.
  Qed.

  (** ** the pool's own steps are the same in both *)
  Ltac fnat := unfold fupd, set_guard; repeat match goal with |- context [Nat.eqb ?x ?y] => destruct (Nat.eqb x y) eqn:? end; auto.
  Lemma pool_step s a l P' es : sim s a -> on_queue (t_pool s) l = false -> pstep (t_pool s) l = Some (P', es) ->
    exists a', pstep a l = Some (a', es) /\ sim (mkT P' (t_queue s)) a'.
  Proof.
    intros S OQ E. pose proof S as [SQ SR SN ST SE SP SV SPQ SH].
    (* agent [t], not in the queue, goes to [q] *)
    assert (GO : forall t q, q_thr (t_queue s) t = QIdle -> sim (mkT (p_go (t_pool s) t q) (t_queue s)) (p_go a t q)).
    { intros t q Q. constructor; cbn; auto. intros u. destruct (Nat.eq_dec u t) as [->|NE]; [|rewrite !fupd_other by auto; apply SH].
      rewrite !fupd_same, Q. cbn. pose proof (SH t) as X. rewrite Q in X. destruct X as (_ & X). exact (conj eq_refl X). }
    (* in general *)
    assert (UP : forall t q P1 a1, q_thr (t_queue s) t = QIdle -> p_q P1 = [] -> p_q a1 = p_q a ->
        (forall r, p_task a1 r = p_task P1 r) -> (forall r, p_needs a1 r = p_needs P1 r) -> (forall r, p_prio a1 r = p_prio P1 r) -> (forall r, p_ev a1 r = p_ev P1 r) ->
        p_run P1 = p_run (t_pool s) -> p_run a1 = p_run a -> p_guard P1 = p_guard (t_pool s) -> p_guard a1 = p_guard a ->
        p_thr P1 = fupd (p_thr (t_pool s)) t q -> p_thr a1 = fupd (p_thr a) t q -> sim (mkT P1 (t_queue s)) a1).
    { intros t q P1 a1 Q Q1 Q2 T1 T2 T3 T4 R1 R2 G1 G2 H1 H2. constructor; cbn; auto; rewrite ?Q2; auto.
      intros u. rewrite R1, R2, G1, G2, H1, H2. destruct (Nat.eq_dec u t) as [->|NE]; [|rewrite !fupd_other by auto; apply SH].
      rewrite !fupd_same, Q. cbn. pose proof (SH t) as X. rewrite Q in X. destruct X as (_ & X). exact (conj eq_refl X). }
    (* an agent at a point of the pool is not in the queue *)
    assert (BUSY : forall t, on_queue (t_pool s) (XStep t) = false -> p_thr (t_pool s) t <> PIdle -> q_thr (t_queue s) t = QIdle).
    { intros t OQ1 NI. pose proof (SH t) as X. destruct (q_thr (t_queue s) t) as [|c pt]; [reflexivity|exfalso]. cbn in X, OQ1.
      destruct (p_thr (t_pool s) t) as [|[y ms g p|g ms|g|g|y q|y th]|k r' y ms g p|[|] r' g|r']; try contradiction; [|discriminate].
      destruct X as (NX & _). apply Nat.eqb_neq in NX. rewrite NX in OQ1. discriminate. }
    destruct l as [t c|t|t o|r|r th].
    - (* XCall *) cbn [p_step] in E |- *. destruct (p_thr (t_pool s) t) eqn:I; try discriminate. destruct (callable N (t_pool s) t c) eqn:C; [|discriminate].
      injection E as <- <-. pose proof (agree_callable s a t c S C I) as Q. destruct (agree_thr s a t S Q) as (E1 & E2 & E3). rewrite E1, I.
      replace (callable N a t c) with true; [eexists; split; [reflexivity|]; now apply GO|]. symmetry. rewrite <- C. unfold callable. rewrite E2.
      f_equal. destruct c as [x ms [g|] p|g ms|g|g|x q|x th]; auto. now rewrite E3.
    - (* XStep *)
      assert (Q : q_thr (t_queue s) t = QIdle) by (apply BUSY; [exact OQ|intros I; cbn in E; rewrite I in E; discriminate]).
      destruct (agree_thr s a t S Q) as (E1 & E2 & E3). cbn [p_step on_queue] in E, OQ |- *. rewrite E1.
      destruct (p_thr (t_pool s) t) as [|[x ms g p|g ms|g|g|x q|x th]|[| | | |] r x ms g p|[|] r g|r] eqn:I; try discriminate.
      + destruct (x =? 0) eqn:X0; [|discriminate]. injection E as <- <-. eexists. split; [reflexivity|]. now apply GO.
      + rewrite E3. destruct (p_guard (t_pool s) t g) as [r|]; [rewrite SV; destruct (p_ev (t_pool s) r); [|discriminate]|]; injection E as <- <-;
          (eexists; split; [reflexivity|]; now apply GO).
      + rewrite E3. destruct (p_guard (t_pool s) t g) as [r|]; [rewrite SV; destruct (p_ev (t_pool s) r); [|discriminate]|]; injection E as <- <-;
          (eexists; split; [reflexivity|]; now apply GO).
      + rewrite E3. injection E as <- <-. eexists; split; [reflexivity|]; now apply GO.
      + destruct (p_run (t_pool s) r) eqn:W; try discriminate. injection E as <- <-. rewrite (proj1 (agree_run s a r WOff S (or_introl eq_refl)) W).
        eexists; split; [reflexivity|]; now apply GO.
      + injection E as <- <-. eexists; split; [reflexivity|]. eapply (UP t); try exact Q; try reflexivity; cbn; auto. intros k. fnat.
      + injection E as <- <-. eexists; split; [reflexivity|]. eapply (UP t); try exact Q; try reflexivity; cbn; auto. intros k. fnat.
      + injection E as <- <-. eexists; split; [reflexivity|]. eapply (UP t); try exact Q; try reflexivity; cbn; auto. intros k.
        replace (resolve N ext_prio a t p) with (resolve N ext_prio (t_pool s) t p) by (unfold resolve; destruct p; [reflexivity|]; destruct (t <? N); [now rewrite SP|reflexivity]). fnat.
      + (* SGo *) injection E as <- <-. eexists; split; [reflexivity|]. constructor; cbn; auto. intros u.
        pose proof (SH u) as X. destruct (Nat.eq_dec u t) as [->|NE].
        * rewrite !fupd_same, Q. rewrite Q in X. cbn. destruct X as (_ & X1 & X2). refine (conj eq_refl (conj _ _)).
          -- unfold fupd. destruct (t =? r) eqn:TR; [|exact X1]. apply Nat.eqb_eq in TR. subst r. now rewrite X1.
          -- destruct g as [i|]; [|exact X2]. intros g'. unfold set_guard. rewrite !fupd_same. unfold fupd. destruct (g' =? i); auto.
        * rewrite !(fupd_other (p_thr _) t) by auto. replace ((match g with Some i => set_guard (p_guard (t_pool s)) t i (Some r) | None => p_guard (t_pool s) end) u) with (p_guard (t_pool s) u) by (destruct g; [unfold set_guard; now rewrite fupd_other|reflexivity]).
          replace ((match g with Some i => set_guard (p_guard a) t i (Some r) | None => p_guard a end) u) with (p_guard a u) by (destruct g; [unfold set_guard; now rewrite fupd_other|reflexivity]).
          unfold fupd. destruct (u =? r) eqn:UR; [|exact X]. apply Nat.eqb_eq in UR. subst u. pose proof (thr_ok_start _ _ _ _ _ _ _ _ X) as X'. destruct (p_run (t_pool s) r), (p_run a r); exact X'.
      + injection E as <- <-. eexists; split; [reflexivity|]. eapply (UP t); try exact Q; try reflexivity; cbn; auto. intros k. fnat.
      + injection E as <- <-. eexists; split; [reflexivity|]. now apply GO.
    - (* XTimeout *)
      assert (Q : q_thr (t_queue s) t = QIdle).
      { apply BUSY; [|intros I; cbn in E; rewrite I in E; discriminate]. cbn in OQ, E |- *. destruct (p_thr (t_pool s) t) as [|[x ms g p|g ms|g|g|x q|x th]|k r x ms g p|[|] r g|r]; try discriminate; auto. }
      destruct (agree_thr s a t S Q) as (E1 & E2 & E3). cbn [p_step on_queue] in E, OQ |- *. rewrite E1.
      destruct (p_thr (t_pool s) t) as [|[x ms g p|g ms|g|g|x q|x th]|[| | | |] r x ms g p|[|] r g|r] eqn:I; try discriminate.
      + rewrite E3. destruct (p_guard (t_pool s) t g) as [r|]; [|discriminate]. rewrite SV. destruct ((ms =? -1)%Z || p_ev (t_pool s) r); [discriminate|].
        injection E as <- <-. eexists; split; [reflexivity|]; now apply GO.
      + destruct (ms =? -1)%Z; [discriminate|]. pose proof (agree_run s a r WOff S (or_introl eq_refl)) as AR.
        assert (NW : p_run a r <> WOff) by (intros Y; apply AR in Y; rewrite Y in E; discriminate).
        assert (E' : (P', es) = (p_go (t_pool s) t (PRet (PErr TimedOut)), [Eff t (PStart x ms g p) (PErr TimedOut)])) by (destruct (p_run (t_pool s) r); [discriminate|injection E as <- <-; reflexivity ..]).
        injection E' as -> ->. exists (p_go a t (PRet (PErr TimedOut))). split; [destruct (p_run a r); [congruence|reflexivity ..]|]. now apply GO.
    - (* XRun *) cbn [p_step on_queue] in E, OQ |- *.
      assert (NA : forall th, p_run (t_pool s) r <> WAfter ASend th) by (intros th W; rewrite W in OQ; discriminate).
      rewrite (run_eq s a r S NA).
      assert (RUN : forall P1 a1 v, p_q P1 = [] -> p_q a1 = p_q a ->
        (forall r, p_task a1 r = p_task P1 r) -> (forall r, p_needs a1 r = p_needs P1 r) -> (forall r, p_prio a1 r = p_prio P1 r) -> (forall r, p_ev a1 r = p_ev P1 r) ->
        p_run P1 = fupd (p_run (t_pool s)) r v -> p_run a1 = fupd (p_run a) r v -> p_guard P1 = p_guard (t_pool s) -> p_guard a1 = p_guard a ->
        p_thr P1 = p_thr (t_pool s) -> p_thr a1 = p_thr a -> sim (mkT P1 (t_queue s)) a1).
      { intros P1 a1 v Q1 Q2 T1 T2 T3 T4 R1 R2 G1 G2 H1 H2. constructor; cbn; auto; rewrite ?Q2; auto.
        intros u. rewrite R1, R2, G1, G2, H1, H2. destruct (Nat.eq_dec u r) as [->|NE]; [|rewrite !fupd_other by auto; apply SH].
        rewrite !fupd_same. exact (thr_ok_run _ _ _ _ _ _ _ _ v (SH r) NA). }
      destruct (p_run (t_pool s) r) as [| | | |[| | | |] th|] eqn:W; try discriminate.
      + injection E as <- <-. eexists; split; [reflexivity|]. eapply RUN; reflexivity || (cbn; auto).
      + rewrite ST, SP. destruct (p_task (t_pool s) r =? 0); injection E as <- <-; (eexists; split; [reflexivity|]; eapply RUN; reflexivity || (cbn; auto)).
      + injection E as <- <-. eexists; split; [reflexivity|]. eapply RUN; reflexivity || (cbn; auto). intros k. fnat.
      + rewrite SE. injection E as <- <-. eexists; split; [reflexivity|]. eapply RUN; reflexivity || (cbn; auto).
      + rewrite ST. injection E as <- <-. eexists; split; [reflexivity|]. eapply RUN; reflexivity || (cbn; auto). intros k. fnat.
      + injection E as <- <-. eexists; split; [reflexivity|]. eapply RUN; reflexivity || (cbn; auto). intros k. fnat.
      + injection E as <- <-. eexists; split; [reflexivity|]. eapply RUN; reflexivity || (cbn; auto).
    - (* XTaskEnd *) cbn [p_step] in E |- *. destruct (p_run (t_pool s) r) eqn:W; try discriminate. destruct (p_thr (t_pool s) r) eqn:I; try discriminate. injection E as <- <-.
      rewrite (proj1 (agree_run s a r WIn S (or_intror eq_refl)) W), (proj1 (agree_idle s a r S) I), ST. eexists; split; [reflexivity|].
      constructor; cbn; auto. intros u. destruct (Nat.eq_dec u r) as [->|NE]; [|rewrite !fupd_other by auto; apply SH]. rewrite !fupd_same. apply (thr_ok_run _ _ _ _ _ _ _ _ _ (SH r)).
      intros th'. rewrite W. discriminate.
  Qed.

  (** ** the queue's steps *)
  (** the queue moves on, the atomic pool stays *)
  Lemma stutter s a t x Q' : sim s a -> (exists es, qok Q' es) -> q_thr Q' = fupd (q_thr (t_queue s)) t x -> rep (q_ring Q') (p_q a ++ unsig Q') ->
    (p_q a <> [] -> q_ne Q' = true) ->
    thr_ok t x (p_thr (t_pool s) t) (p_run (t_pool s) t) (p_guard (t_pool s) t) (p_thr a t) (p_run a t) (p_guard a t) -> sim (mkT (t_pool s) Q') a.
  Proof.
    intros [SQ SR SN ST SE SP SV SPQ SH] QO TH R NE X. constructor; cbn; auto. intros u. rewrite TH. destruct (Nat.eq_dec u t) as [->|NT]; [rewrite fupd_same; exact X|].
    rewrite fupd_other by auto. apply SH.
  Qed.
  (** nothing unsignalled appears or disappears *)
  Lemma unsig_keep Q Q' t x es : qok Q es -> q_thr Q' = fupd (q_thr Q) t x -> sig_of (q_thr Q t) = [] -> sig_of x = [] ->
    q_mrb Q' = q_mrb Q \/ (q_mrb Q = None /\ q_mrb Q' = Some t) \/ (q_mrb Q = Some t /\ q_mrb Q' = None) -> unsig Q' = unsig Q.
  Proof.
    intros I TH S1 S2 M. unfold unsig. rewrite TH. destruct M as [->|[(-> & ->)|(-> & ->)]].
    - destruct (q_mrb Q) as [u|]; [|reflexivity]. destruct (Nat.eq_dec u t) as [->|NE]; [rewrite fupd_same; congruence|now rewrite fupd_other].
    - now rewrite fupd_same.
    - now rewrite S1.
  Qed.
  Lemma thr_ok_pt t c pt pt' ps ws gs pa wa ga : thr_ok t (QAt c pt) ps ws gs pa wa ga -> done_of pt' = done_of pt -> after_set pt' = after_set pt ->
    thr_ok t (QAt c pt') ps ws gs pa wa ga.
  Proof.
    intros X D A. cbn in *. destruct ps as [|[y ms g p|g ms|g|g|y q|y th]|k r' y ms g p|[|] r' g|r']; try contradiction; [| |].
    - rewrite A. exact X.
    - unfold recv_ok in *. rewrite D. exact X.
    - rewrite A. exact X.
  Qed.
  Lemma thr_ok_recv t st ms pt pt' ps ws gs pa wa ga : thr_ok t (QAt (QRecv st ms) pt) ps ws gs pa wa ga -> done_of pt' = done_of pt ->
    thr_ok t (QAt (QRecv st ms) pt') ps ws gs pa wa ga.
  Proof.
    intros X D. cbn in *. destruct ps as [|[y ms' g p|g ms'|g|g|y q|y th]|k r' y ms' g p|[|] r' g|r']; try contradiction; [| |].
    - destruct X as (_ & X & _). discriminate.
    - unfold recv_ok in *. rewrite D. exact X.
    - destruct X as (X & _). discriminate.
  Qed.
  Lemma thr_ok_send t v ms pt pt' ps ws gs pa wa ga : thr_ok t (QAt (QSend v ms) pt) ps ws gs pa wa ga -> after_set pt' = after_set pt ->
    thr_ok t (QAt (QSend v ms) pt') ps ws gs pa wa ga.
  Proof.
    intros X D. cbn in *. destruct ps as [|[y ms' g p|g ms'|g|g|y q|y th]|k r' y ms' g p|[|] r' g|r']; try contradiction; [| |].
    - rewrite D. exact X.
    - destruct X as (_ & X & _). discriminate.
    - rewrite D. exact X.
  Qed.
  Lemma calls_sr t c pt ps ws gs pa wa ga : thr_ok t (QAt c pt) ps ws gs pa wa ga -> (exists r, c = QSend r (-1)%Z) \/ exists ms, c = QRecv true ms.
  Proof.
    cbn. destruct ps as [|[y ms g p|g ms|g|g|y q|y th]|k r' y ms g p|[|] r' g|r']; try contradiction; intros X; [left|right|left]; decompose [and] X; eauto.
  Qed.
  Lemma at_recv t ms pt ps ws gs pa wa ga : thr_ok t (QAt (QRecv true ms) pt) ps ws gs pa wa ga ->
    exists x g p, ps = PAt (PStart x ms g p) /\ x <> 0 /\ wa = ws /\ (forall g, ga g = gs g) /\ recv_ok x ms g p pt pa.
  Proof.
    cbn. destruct ps as [|[y ms' g p|g ms'|g|g|y q|y th]|k r' y ms' g p|[|] r' g|r']; try contradiction; intros X.
    - destruct X as (_ & X & _). discriminate.
    - destruct X as (NX & E & X). injection E as <-. exists y, g, p. auto.
    - destruct X as (X & _). discriminate.
  Qed.
  Lemma owner_unsig Q es t : qok Q es -> h_rb nat (q_thr Q t) = true -> unsig Q = sig_of (q_thr Q t).
  Proof. intros I H. unfold unsig. now rewrite (proj1 (qi_rb _ _ _ _ I t) H). Qed.

  Lemma enter_sim s a t c Q' es : sim s a -> wants N (t_pool s) t = Some c -> qstep (t_queue s) (QCall t c) = Some (Q', es) -> sim (mkT (t_pool s) Q') a.
  Proof.
    intros S W E. pose proof S as [[qe SQ] SR SN ST SE SP SV SPQ SH]. pose proof (qinv_step nat size HM _ _ _ _ _ SQ E) as I'.
    cbn in E. destruct (q_thr (t_queue s) t) as [|d pt] eqn:Q; [|discriminate]. injection E as <- <-.
    assert (C : c = match c with QSend v ms => QSend v ms | c => c end /\ sr nat c).
    { unfold wants in W. split; [now destruct c|]. destruct (p_thr (t_pool s) t) as [|[x ms g p|g ms|g|g|x q|x th]|k r x ms g p|[|] r g|r]; try discriminate.
      - destruct (t <? N); [|discriminate]. destruct (p_run (t_pool s) t) as [| | | |[| | | |] th|]; try discriminate. now injection W as <-.
      - destruct (x =? 0); [discriminate|]. now injection W as <-.
      - now injection W as <-. }
    destruct C as (_ & SC).
    replace (match c with QSend _ _ | QRecv _ _ => PLockOuter | _ => PLockOp end) with (@PLockOuter nat) in * by (destruct c; [reflexivity|reflexivity|contradiction|contradiction]).
    eapply (stutter s a t _ _ S).
    - eexists. exact I'.
    - reflexivity.
    - cbn [q_ring q_go]. erewrite unsig_keep; [exact SR|exact SQ|reflexivity|now rewrite Q| |left; reflexivity]. now destruct c.
    - exact SN.
    - pose proof (SH t) as X. rewrite Q in X. cbn in X. destruct X as (X1 & X2 & X3). unfold wants in W. cbn.
      destruct (p_thr (t_pool s) t) as [|[x ms g p|g ms|g|g|x q|x th]|k r x ms g p|[|] r g|r] eqn:PT; try discriminate.
      + destruct (t <? N) eqn:L; [|discriminate]. apply Nat.ltb_lt in L. destruct (p_run (t_pool s) t) as [| | | |[| | | |] th|] eqn:PR; try discriminate. injection W as <-.
        refine (conj L (conj eq_refl (conj X1 (conj X3 _)))). exists th. now split.
      + destruct (x =? 0) eqn:X0; [discriminate|]. apply Nat.eqb_neq in X0. injection W as <-. exact (conj X0 (conj eq_refl (conj X2 (conj X3 X1)))).
      + injection W as <-. exact (conj eq_refl (conj X2 (conj X1 X3))).
  Qed.

  Lemma queue_step s a t s' es : sim s a -> tstep s (TQueue t) = Some (s', es) ->
    exists a', ((a' = a /\ es = []) \/ exists l, p_own_step l /\ pstep a l = Some (a', es)) /\ sim s' a'.
  Proof.
    intros S E. pose proof S as [[qe SQ] SR SN ST SE SP SV SPQ SH]. cbn [t_step] in E.
    destruct (qstep (t_queue s) (QStep t)) as [[Q' qes]|] eqn:EQ; [|discriminate]. injection E as <- <-.
    pose proof (qinv_step nat size HM _ _ _ _ _ SQ EQ) as I'. pose proof (SH t) as X. cbn [q_step] in EQ.
    destruct (qi_q _ _ _ _ SQ) as (q & R & PC & _). pose proof (ring_rep_unique _ _ _ _ _ R SR) as ->. specialize (PC t).
    destruct (q_thr (t_queue s) t) as [|c pt] eqn:Q; [discriminate|]. destruct (calls_sr _ _ _ _ _ _ _ _ _ X) as [(r & C)|(ms & C)].
    - (* send *) subst c.
      destruct pt as [| | | |b| | | |res|res|res|res]; cbn [is_send outer set_outer wait_bit reset_bit set_bit] in EQ.
      + destruct (free (q_msend (t_queue s))); [|discriminate]. injection EQ as <- <-. exists a. split; [left; split; reflexivity|].
        eapply (stutter s a t _ _ S); [eexists; exact I'|reflexivity| |exact SN|now apply (thr_ok_send _ _ _ _ _ _ _ _ _ _ _ X)].
        erewrite unsig_keep; [exact SR|exact SQ|reflexivity|now rewrite Q|reflexivity|left; reflexivity].
      + destruct (q_mrb (t_queue s)) eqn:M; [discriminate|]. injection EQ as <- <-. exists a. split; [left; split; reflexivity|].
        eapply (stutter s a t _ _ S); [eexists; exact I'|reflexivity| |exact SN|now apply (thr_ok_send _ _ _ _ _ _ _ _ _ _ _ X)].
        erewrite unsig_keep; [exact SR|exact SQ|reflexivity|now rewrite Q|reflexivity|right; left; split; [exact M|reflexivity]].
      + injection EQ as <- <-. exists a. split; [left; split; reflexivity|].
        eapply (stutter s a t _ _ S); [eexists; exact I'|reflexivity| |exact SN|apply (thr_ok_send _ _ _ _ _ _ _ _ _ _ _ X); now destruct (blocked nat size (t_queue s) (QSend r (-1)%Z))].
        erewrite unsig_keep; [exact SR|exact SQ|reflexivity|now rewrite Q|now destruct (blocked nat size (t_queue s) (QSend r (-1)%Z))|left; reflexivity].
      + injection EQ as <- <-. exists a. split; [left; split; reflexivity|].
        eapply (stutter s a t _ _ S); [eexists; exact I'|reflexivity| |exact SN|now apply (thr_ok_send _ _ _ _ _ _ _ _ _ _ _ X)].
        erewrite unsig_keep; [exact SR|exact SQ|reflexivity|now rewrite Q|reflexivity|left; reflexivity].
      + injection EQ as <- <-. exists a. split; [left; split; reflexivity|].
        assert (M : q_mrb (t_queue s) = Some t) by (apply (qi_rb _ _ _ _ SQ); now rewrite Q).
        eapply (stutter s a t _ _ S); [eexists; exact I'|reflexivity| |exact SN|apply (thr_ok_send _ _ _ _ _ _ _ _ _ _ _ X); now destruct b].
        erewrite unsig_keep; [exact SR|exact SQ|reflexivity|now rewrite Q|now destruct b|right; right; split; [exact M|reflexivity]].
      + destruct (q_nf (t_queue s)); [|discriminate]. injection EQ as <- <-. exists a. split; [left; split; reflexivity|].
        eapply (stutter s a t _ _ S); [eexists; exact I'|reflexivity| |exact SN|now apply (thr_ok_send _ _ _ _ _ _ _ _ _ _ _ X)].
        erewrite unsig_keep; [exact SR|exact SQ|reflexivity|now rewrite Q|reflexivity|left; reflexivity].
      + destruct (q_mrb (t_queue s)) eqn:M; [discriminate|]. injection EQ as <- <-. exists a. split; [left; split; reflexivity|].
        eapply (stutter s a t _ _ S); [eexists; exact I'|reflexivity| |exact SN|now apply (thr_ok_send _ _ _ _ _ _ _ _ _ _ _ X)].
        erewrite unsig_keep; [exact SR|exact SQ|reflexivity|now rewrite Q|reflexivity|right; left; split; [exact M|reflexivity]].
      + (* push: not signalled yet *)
        pose proof (owner_unsig _ _ t SQ) as U. rewrite Q in U. specialize (U eq_refl). cbn in U.
        assert (M : q_mrb (t_queue s) = Some t) by (apply (qi_rb _ _ _ _ SQ); now rewrite Q).
        rewrite U, app_nil_r in SR, PC. cbn in PC.
        destruct (ring_push_ok nat B HB (q_ring (t_queue s)) (p_q a) r SR) as (rg & EP & RP); [lia|]. unfold q_op in EQ. rewrite EP in EQ. injection EQ as <- <-.
        exists a. split; [left; split; reflexivity|].
        eapply (stutter s a t _ _ S); [eexists; exact I'|reflexivity| |exact SN|now apply (thr_ok_send _ _ _ _ _ _ _ _ _ _ _ X)].
        unfold unsig. cbn. rewrite M, fupd_same. exact RP.
      + (* EV_NOT_EMPTY *)
        pose proof (owner_unsig _ _ t SQ) as U. rewrite Q in U. specialize (U eq_refl). cbn in U.
        assert (M : q_mrb (t_queue s) = Some t) by (apply (qi_rb _ _ _ _ SQ); now rewrite Q).
        rewrite U in SR. injection EQ as <- <-.
        assert (LT : (length (p_q a) <? N) = true) by (apply Nat.ltb_lt; pose proof (rr_len _ _ _ _ SR) as L; rewrite app_length in L; cbn in L; lia).
        pose proof X as X0. cbn in X. destruct (p_thr (t_pool s) t) as [|[y ms g p|g ms|g|g|y q|y th]|k r' y ms g p|[|] r' g|r'] eqn:PT; try contradiction; [| |].
        * (* the end of a task *) destruct X as (LN & RT & PA & G & th & WS & WA). injection RT as ->.
          eexists. split.
          -- right. exists (XRun t). split; [exact I|]. cbn [p_step]. rewrite WA, LT. unfold note_push. rewrite PT, WS, <- ST. reflexivity.
          -- constructor; cbn; auto.
             ++ eexists; exact I'.
             ++ unfold unsig. cbn. rewrite M, fupd_same. cbn. rewrite app_nil_r. exact SR.
             ++ intros u. destruct (Nat.eq_dec u t) as [->|NE]; [|rewrite !fupd_other by auto; apply SH]. rewrite !fupd_same. cbn. rewrite PT.
                refine (conj LN (conj eq_refl (conj PA (conj G _)))). exists th. now split.
        * destruct X as (_ & X & _). discriminate.
        * (* release *) destruct X as (RT & WA & PA & G). injection RT as ->.
          eexists. split.
          -- right. exists (XStep t). split; [exact I|]. cbn [p_step]. rewrite PA, LT. unfold note_push. rewrite PT. reflexivity.
          -- constructor; cbn; auto.
             ++ eexists; exact I'.
             ++ unfold unsig. cbn. rewrite M, fupd_same. cbn. rewrite app_nil_r. exact SR.
             ++ intros u. destruct (Nat.eq_dec u t) as [->|NE].
                ** unfold set_guard. rewrite !fupd_same. cbn. rewrite PT. refine (conj eq_refl (conj WA (conj eq_refl _))). intros g'. unfold fupd. destruct (g' =? g); auto.
                ** unfold set_guard. rewrite !fupd_other by auto. apply SH.
      + injection EQ as <- <-. exists a. split; [left; split; reflexivity|].
        assert (M : q_mrb (t_queue s) = Some t) by (apply (qi_rb _ _ _ _ SQ); now rewrite Q).
        eapply (stutter s a t _ _ S); [eexists; exact I'|reflexivity| |exact SN|now apply (thr_ok_send _ _ _ _ _ _ _ _ _ _ _ X)].
        erewrite unsig_keep; [exact SR|exact SQ|reflexivity|now rewrite Q|reflexivity|right; right; split; [exact M|reflexivity]].
      + injection EQ as <- <-. exists a. split; [left; split; reflexivity|].
        eapply (stutter s a t _ _ S); [eexists; exact I'|reflexivity| |exact SN|now apply (thr_ok_send _ _ _ _ _ _ _ _ _ _ _ X)].
        erewrite unsig_keep; [exact SR|exact SQ|reflexivity|now rewrite Q|reflexivity|left; reflexivity].
      + (* the call returns *) injection EQ as <- <-. exists a. split; [left; split; reflexivity|]. cbn in X. unfold resume.
        destruct (p_thr (t_pool s) t) as [|[y ms g p|g ms|g|g|y q|y th]|k r' y ms g p|[|] r' g|r'] eqn:PT; try contradiction; [| |].
        * destruct X as (LN & RT & PA & G & th & WS & WA).
          constructor; cbn; auto; [eexists; exact I'|erewrite unsig_keep; [exact SR|exact SQ|reflexivity|now rewrite Q|reflexivity|left; reflexivity]|].
          intros u. destruct (Nat.eq_dec u t) as [->|NE]; [|rewrite !fupd_other by auto; apply SH]. rewrite !fupd_same. cbn. rewrite PT. auto.
        * destruct X as (_ & X & _). discriminate.
        * destruct X as (RT & WA & PA & G). injection RT as ->.
          constructor; cbn; auto; [eexists; exact I'|erewrite unsig_keep; [exact SR|exact SQ|reflexivity|now rewrite Q|reflexivity|left; reflexivity]|].
          intros u. unfold set_guard. destruct (Nat.eq_dec u t) as [->|NE]; [|rewrite !fupd_other by auto; apply SH]. rewrite !fupd_same. cbn. rewrite PA. refine (conj eq_refl (conj WA _)).
          intros g'. rewrite G. unfold fupd. reflexivity.
    - (* receive *) subst c.
      destruct pt as [| | | |b| | | |res|res|res|res]; cbn [is_send outer set_outer wait_bit reset_bit set_bit] in EQ.
      + destruct (free (q_mrecv (t_queue s))); [|discriminate]. injection EQ as <- <-. exists a. split; [left; split; reflexivity|].
        eapply (stutter s a t _ _ S); [eexists; exact I'|reflexivity| |exact SN|now apply (thr_ok_recv _ _ _ _ _ _ _ _ _ _ _ X)].
        erewrite unsig_keep; [exact SR|exact SQ|reflexivity|now rewrite Q|reflexivity|left; reflexivity].
      + destruct (q_mrb (t_queue s)) eqn:M; [discriminate|]. injection EQ as <- <-. exists a. split; [left; split; reflexivity|].
        eapply (stutter s a t _ _ S); [eexists; exact I'|reflexivity| |exact SN|now apply (thr_ok_recv _ _ _ _ _ _ _ _ _ _ _ X)].
        erewrite unsig_keep; [exact SR|exact SQ|reflexivity|now rewrite Q|reflexivity|right; left; split; [exact M|reflexivity]].
      + injection EQ as <- <-. exists a. split; [left; split; reflexivity|].
        eapply (stutter s a t _ _ S); [eexists; exact I'|reflexivity| |exact SN|apply (thr_ok_recv _ _ _ _ _ _ _ _ _ _ _ X); now destruct (blocked nat size (t_queue s) (QRecv true ms))].
        erewrite unsig_keep; [exact SR|exact SQ|reflexivity|now rewrite Q|now destruct (blocked nat size (t_queue s) (QRecv true ms))|left; reflexivity].
      + (* EV_NOT_EMPTY is switched off: the queue is empty *)
        destruct PC as (_ & NB). cbn in NB. injection EQ as <- <-. exists a. split; [left; split; reflexivity|].
        assert (EMP : p_q a = []). { destruct (p_q a); [reflexivity|]. elim NB. discriminate. }
        eapply (stutter s a t _ _ S); [eexists; exact I'|reflexivity| |intros Y; contradiction|now apply (thr_ok_recv _ _ _ _ _ _ _ _ _ _ _ X)].
        erewrite unsig_keep; [exact SR|exact SQ|reflexivity|now rewrite Q|reflexivity|left; reflexivity].
      + injection EQ as <- <-. exists a. split; [left; split; reflexivity|].
        assert (M : q_mrb (t_queue s) = Some t) by (apply (qi_rb _ _ _ _ SQ); now rewrite Q).
        eapply (stutter s a t _ _ S); [eexists; exact I'|reflexivity| |exact SN|apply (thr_ok_recv _ _ _ _ _ _ _ _ _ _ _ X); now destruct b].
        erewrite unsig_keep; [exact SR|exact SQ|reflexivity|now rewrite Q|now destruct b|right; right; split; [exact M|reflexivity]].
      + destruct (q_ne (t_queue s)) eqn:NE; [|discriminate]. injection EQ as <- <-. exists a. split; [left; split; reflexivity|].
        eapply (stutter s a t _ _ S); [eexists; exact I'|reflexivity| |exact (fun _ => NE)|now apply (thr_ok_recv _ _ _ _ _ _ _ _ _ _ _ X)].
        erewrite unsig_keep; [exact SR|exact SQ|reflexivity|now rewrite Q|reflexivity|left; reflexivity].
      + destruct (q_mrb (t_queue s)) eqn:M; [discriminate|]. injection EQ as <- <-. exists a. split; [left; split; reflexivity|].
        eapply (stutter s a t _ _ S); [eexists; exact I'|reflexivity| |exact SN|now apply (thr_ok_recv _ _ _ _ _ _ _ _ _ _ _ X)].
        erewrite unsig_keep; [exact SR|exact SQ|reflexivity|now rewrite Q|reflexivity|right; left; split; [exact M|reflexivity]].
      + (* pop *)
        pose proof (owner_unsig _ _ t SQ) as U. rewrite Q in U. specialize (U eq_refl). cbn in U.
        assert (M : q_mrb (t_queue s) = Some t) by (apply (qi_rb _ _ _ _ SQ); now rewrite Q).
        rewrite U, app_nil_r in SR, PC. cbn in PC. destruct (p_q a) as [|k qa] eqn:PQ; [congruence|].
        destruct (ring_pop_ok nat B HB (q_ring (t_queue s)) k qa SR) as (rg & EP & RP). unfold q_op in EQ. rewrite EP in EQ. injection EQ as <- <-.
        destruct (at_recv _ _ _ _ _ _ _ _ _ X) as (x & g & p & PT & NX & WA & G & RO). cbn in RO. apply Nat.eqb_neq in NX as NXb.
        eexists. split.
        * right. exists (XStep t). split; [exact I|]. cbn [p_step]. rewrite RO, NXb, PQ. reflexivity.
        * constructor; cbn; auto.
          -- eexists; exact I'.
          -- unfold unsig. cbn. rewrite M, fupd_same. cbn. rewrite app_nil_r. exact RP.
          -- intros u. destruct (Nat.eq_dec u t) as [->|NE]; [|rewrite !fupd_other by auto; apply SH]. rewrite !fupd_same. cbn. rewrite PT.
             exact (conj NX (conj eq_refl (conj WA (conj G eq_refl)))).
      + injection EQ as <- <-. exists a. split; [left; split; reflexivity|].
        eapply (stutter s a t _ _ S); [eexists; exact I'|reflexivity| |exact SN|now apply (thr_ok_recv _ _ _ _ _ _ _ _ _ _ _ X)].
        erewrite unsig_keep; [exact SR|exact SQ|reflexivity|now rewrite Q|reflexivity|left; reflexivity].
      + injection EQ as <- <-. exists a. split; [left; split; reflexivity|].
        assert (M : q_mrb (t_queue s) = Some t) by (apply (qi_rb _ _ _ _ SQ); now rewrite Q).
        eapply (stutter s a t _ _ S); [eexists; exact I'|reflexivity| |exact SN|now apply (thr_ok_recv _ _ _ _ _ _ _ _ _ _ _ X)].
        erewrite unsig_keep; [exact SR|exact SQ|reflexivity|now rewrite Q|reflexivity|right; right; split; [exact M|reflexivity]].
      + injection EQ as <- <-. exists a. split; [left; split; reflexivity|].
        eapply (stutter s a t _ _ S); [eexists; exact I'|reflexivity| |exact SN|now apply (thr_ok_recv _ _ _ _ _ _ _ _ _ _ _ X)].
        erewrite unsig_keep; [exact SR|exact SQ|reflexivity|now rewrite Q|reflexivity|left; reflexivity].
      + (* the call returns *) injection EQ as <- <-. exists a. split; [left; split; reflexivity|]. unfold resume.
        destruct (at_recv _ _ _ _ _ _ _ _ _ X) as (x & g & p & PT & NX & WA & G & RO). rewrite PT. unfold recv_ok in RO. cbn [done_of] in RO.
        assert (RET : sim (mkT (p_go (t_pool s) t (p_thr a t)) (q_go (t_queue s) t QIdle)) a).
        { constructor; cbn; auto; [eexists; exact I'|erewrite unsig_keep; [exact SR|exact SQ|reflexivity|now rewrite Q|reflexivity|left; reflexivity]|].
          intros u. destruct (Nat.eq_dec u t) as [->|NE]; [|rewrite !fupd_other by auto; apply SH]. rewrite !fupd_same. cbn. auto. }
        destruct res as [e|[] [k|]|n|]; try contradiction; rewrite RO in RET; exact RET.
  Qed.

  Lemma give_up s a t s' es : sim s a -> tstep s (TGiveUp t) = Some (s', es) ->
    exists a' l, p_own_step l /\ pstep a l = Some (a', es) /\ sim s' a'.
  Proof.
    intros S E. pose proof S as [[qe SQ] SR SN ST SE SP SV SPQ SH]. cbn [t_step] in E.
    destruct (qstep (t_queue s) (QTimeout t)) as [[Q' qes]|] eqn:EQ; [|discriminate]. injection E as <- <-.
    pose proof (qinv_step nat size HM _ _ _ _ _ SQ EQ) as I'. pose proof (SH t) as X. cbn [q_step] in EQ.
    destruct (q_thr (t_queue s) t) as [|c pt] eqn:Q; [discriminate|]. destruct (calls_sr _ _ _ _ _ _ _ _ _ X) as [(r & ->)|(ms & ->)].
    { exfalso. cbn [tmout] in EQ. destruct pt as [| | | |b| | | |res|res|res|res]; try discriminate; rewrite orb_true_r in EQ; discriminate. }
    destruct (at_recv _ _ _ _ _ _ _ _ _ X) as (x & g & p & PT & NX & WA & G & RO). apply Nat.eqb_neq in NX as NXb.
    assert (FIN : forall pt', (Q' = q_go (t_queue s) t (QAt (QRecv true ms) pt')) -> done_of pt' = Some (RRecv TimedOut None) -> sim (mkT (t_pool s) Q') (p_go a t (PRet (PErr TimedOut)))).
    { intros pt' -> D. constructor; cbn; auto; [eexists; exact I'|erewrite unsig_keep; [exact SR|exact SQ|reflexivity|now rewrite Q|reflexivity|left; reflexivity]|].
      intros u. destruct (Nat.eq_dec u t) as [->|NE]; [|rewrite !fupd_other by auto; apply SH]. rewrite !fupd_same. cbn. rewrite PT.
      refine (conj NX (conj eq_refl (conj WA (conj G _)))). unfold recv_ok. now rewrite D. }
    cbn [tmout outer wait_bit is_send fail_res] in EQ. unfold note_give_up. rewrite PT.
    destruct pt as [| | | |b| | | |res|res|res|res]; try discriminate; cbn in RO.
    - (* timedLock: another receive is in progress *)
      destruct (q_mrecv (t_queue s)) as [u|] eqn:MR; [|discriminate]. destruct (ms =? -1)%Z eqn:MS; [discriminate|]. injection EQ as EQ EQ'.
      assert (NU : (u =? t) = false). { apply Nat.eqb_neq. intros ->. pose proof (proj2 (qi_recv _ _ _ _ SQ t) MR) as H. rewrite Q in H. discriminate. }
      exists (p_go a t (PRet (PErr TimedOut))), (XTimeout t (Some u)). split; [exact I|]. split; [|exact (FIN _ (eq_sym EQ) eq_refl)].
      cbn [p_step]. rewrite RO, MS, NXb, NU. cbn [orb andb negb].
      replace (match p_thr a u with PAt (PStart y _ _ _) => negb (y =? 0) | PHold SJoin _ _ _ _ _ | PRet (PErr TimedOut) => true | _ => false end) with true; [now rewrite orb_true_r|].
      pose proof (proj2 (qi_recv _ _ _ _ SQ u) MR) as H. pose proof (SH u) as XU. destruct (q_thr (t_queue s) u) as [|[v m|st m| |] pt]; try discriminate.
      destruct (calls_sr _ _ _ _ _ _ _ _ _ XU) as [(r & C)|(m' & C)]; [discriminate|]. injection C as -> ->.
      destruct (at_recv _ _ _ _ _ _ _ _ _ XU) as (x' & g' & p' & _ & NX' & _ & _ & RO'). unfold recv_ok in RO'. apply Nat.eqb_neq in NX'.
      destruct (done_of pt) as [[e|[] [k|]|n|]|]; try contradiction; rewrite RO'; [reflexivity ..|]. now rewrite NX'.
    - (* timedWait: EV_NOT_EMPTY is off *)
      destruct (q_ne (t_queue s)) eqn:NE; [discriminate|]. destruct (ms =? -1)%Z eqn:MS; [discriminate|]. injection EQ as EQ EQ'.
      assert (EMP : p_q a = []). { destruct (p_q a); [reflexivity|]. discriminate SN. discriminate. }
      exists (p_go a t (PRet (PErr TimedOut))), (XTimeout t None). split; [exact I|]. split; [|exact (FIN _ (eq_sym EQ) eq_refl)].
      cbn [p_step]. rewrite RO, MS, NXb, EMP. reflexivity.
  Qed.

  (** ** the refinement *)
  Lemma sim_step s a l s' es : sim s a -> tstep s l = Some (s', es) ->
    exists a', ((a' = a /\ es = []) \/ exists l', (t_own_step l -> p_own_step l') /\ pstep a l' = Some (a', es)) /\ sim s' a'.
  Proof.
    intros S E. destruct l as [l|t|t|t].
    - cbn [t_step] in E. destruct (on_queue (t_pool s) l) eqn:OQ; [discriminate|]. destruct (pstep (t_pool s) l) as [[P' pes]|] eqn:EP; [|discriminate]. injection E as <- <-.
      destruct (pool_step s a l P' pes S OQ EP) as (a' & E' & S'). exists a'. split; [right; exists l; auto|exact S'].
    - cbn [t_step] in E. destruct (wants N (t_pool s) t) as [c|] eqn:W; [|discriminate]. destruct (qstep (t_queue s) (QCall t c)) as [[Q' qes]|] eqn:EQ; [|discriminate]. injection E as <- <-.
      exists a. split; [left; split; reflexivity|]. eapply enter_sim; eauto.
    - destruct (queue_step s a t s' es S E) as (a' & [X|(l & O & X)] & S'); exists a'; (split; [|exact S']); [left; exact X|right; exists l; auto].
    - destruct (give_up s a t s' es S E) as (a' & l & O & X & S'). exists a'. split; [right; exists l; auto|exact S'].
  Qed.
  Lemma sim_exec ls : forall s a s' es, sim s a -> exec tstep s ls = Some (s', es) -> exists ls' a', exec pstep a ls' = Some (a', es) /\ sim s' a'.
  Proof.
    induction ls as [|l ls IH]; intros s a s' es S E; cbn in E; [injection E as <- <-; exists [], a; auto|].
    destruct (tstep s l) as [[s1 e1]|] eqn:E1; [|discriminate]. destruct (exec tstep s1 ls) as [[s2 e2]|] eqn:E2; [|discriminate]. injection E as <- <-.
    destruct (sim_step s a l s1 e1 S E1) as (a1 & C & S1). destruct (IH s1 a1 s2 e2 S1 E2) as (ls' & a2 & X & S2).
    destruct C as [(-> & ->)|(l' & _ & E')]; [exists ls', a2; auto|]. exists (l' :: ls'), a2. split; [|exact S2]. cbn. rewrite E', X. reflexivity.
  Qed.

  (** ** the filled queue *)
  Definition signalled (Q : qst nat) : Prop := exists q, rep (q_ring Q) q /\
    (q = [] \/ q_ne Q = true \/ exists u v ms r, q_thr Q u = QAt (QSend v ms) (PSetEv r)).
  Lemma signalled_step Q es l Q' e : qok Q es -> signalled Q -> qstep Q l = Some (Q', e) -> signalled Q'.
  Proof.
    intros I (q & R & J) E.
    destruct (qi_q _ _ _ _ I) as (q1 & R1 & PC & _). pose proof (ring_rep_unique _ _ _ _ _ R1 R) as ->.
    assert (KEEP : forall t x, q_ring Q' = q_ring Q -> q_ne Q' = q_ne Q -> q_thr Q' = fupd (q_thr Q) t x -> (forall v ms r, q_thr Q t <> QAt (QSend v ms) (PSetEv r)) -> signalled Q').
    { intros t x E1 E2 E3 NS. exists q. rewrite E1, E2, E3. split; [exact R|]. destruct J as [J|[J|(u & v & ms & r & J)]]; [auto|auto|].
      right; right. exists u, v, ms, r. rewrite fupd_other; [exact J|]. intros ->. now apply NS in J. }
    destruct l as [t c|t|t|t|t fl]; cbn [q_step] in E; destruct (q_thr Q t) as [|c' pt] eqn:QT; try discriminate.
    - injection E as <- <-. eapply (KEEP t); try reflexivity. intros; rewrite QT; discriminate.
    - specialize (PC t). rewrite QT in PC. destruct pt as [| | | |b| | | |res|res|res|res].
      + destruct (free (outer Q c')); [|discriminate]. injection E as <- <-. eapply (KEEP t); [unfold set_outer; now destruct (is_send c')|unfold set_outer; now destruct (is_send c')|unfold set_outer; destruct (is_send c'); reflexivity|rewrite QT; discriminate].
      + destruct (free (q_mrb Q)); [|discriminate]. injection E as <- <-. eapply (KEEP t); try reflexivity. rewrite QT; discriminate.
      + injection E as <- <-. eapply (KEEP t); try reflexivity. rewrite QT; discriminate.
      + destruct c' as [v ms|st ms| |]; destruct PC as (PC1 & PC); try contradiction; injection E as <- <-.
        * eapply (KEEP t); try reflexivity. rewrite QT; discriminate.
        * exists q. split; [exact R|]. left. cbn in PC. destruct q; [reflexivity|]. elim PC. discriminate.
      + injection E as <- <-. eapply (KEEP t); try reflexivity. rewrite QT; discriminate.
      + destruct (wait_bit Q c'); [|discriminate]. injection E as <- <-. eapply (KEEP t); try reflexivity. rewrite QT; discriminate.
      + destruct (free (q_mrb Q)); [|discriminate]. injection E as <- <-. eapply (KEEP t); try reflexivity. rewrite QT; discriminate.
      + injection E as E. cbn in PC. destruct c' as [v ms|st ms| |]; cbn [nb] in PC; unfold q_op in E.
        * destruct (ring_push_ok nat B HB (q_ring Q) q v R) as (rg & EP & RP); [lia|]. rewrite EP in E. injection E as <- <-.
          exists (q ++ [v]). split; [exact RP|]. right; right. exists t, v, ms, (RSend OK). cbn. apply fupd_same.
        * destruct q as [|v q]; [congruence|]. destruct (ring_pop_ok nat B HB (q_ring Q) v q R) as (rg & EP & RP). rewrite EP in E. injection E as <- <-.
          exists q. split; [exact RP|]. destruct J as [J|[J|(u & w & m & r & J)]]; [discriminate|auto|]. right; right. exists u, w, m, r. cbn. rewrite fupd_other; [exact J|].
          intros ->. rewrite QT in J. discriminate.
        * injection E as <- <-. eapply (KEEP t); try reflexivity. rewrite QT; discriminate.
        * injection E as <- <-. eapply (KEEP t); try reflexivity. rewrite QT; discriminate.
      + injection E as <- <-. destruct c' as [v ms|st ms| |].
        * exists q. split; [exact R|]. right; left. reflexivity.
        * eapply (KEEP t); try reflexivity. rewrite QT; discriminate.
        * eapply (KEEP t); try reflexivity. rewrite QT; discriminate.
        * eapply (KEEP t); try reflexivity. rewrite QT; discriminate.
      + injection E as <- <-. eapply (KEEP t); try reflexivity. rewrite QT; discriminate.
      + injection E as <- <-. eapply (KEEP t); [unfold set_outer; now destruct (is_send c')|unfold set_outer; now destruct (is_send c')|unfold set_outer; destruct (is_send c'); reflexivity|rewrite QT; discriminate].
      + injection E as <- <-. eapply (KEEP t); try reflexivity. rewrite QT; discriminate.
    - destruct pt as [| | | |b| | | |res|res|res|res]; try discriminate.
      + destruct (free (outer Q c') || (tmout c' =? -1)%Z); [discriminate|]. injection E as <- <-. eapply (KEEP t); try reflexivity. rewrite QT; discriminate.
      + destruct (wait_bit Q c' || (tmout c' =? -1)%Z); [discriminate|]. injection E as <- <-. eapply (KEEP t); try reflexivity. rewrite QT; discriminate.
    - destruct pt as [| | | |b| | | |res|res|res|res]; try discriminate. injection E as <- <-. eapply (KEEP t); try reflexivity. rewrite QT; discriminate.
    - destruct c' as [v ms|[|] ms| |]; try discriminate; destruct pt as [| | | |b| | | |res|res|res|res]; try discriminate; injection E as <- <-;
        (eapply (KEEP t); try reflexivity; rewrite QT; discriminate).
  Qed.
  Lemma sends_fill c l : forall q q', sp_run (qspec nat N) q (map (fun r => (c, QSend r (-1)%Z, RSend OK)) l) q' -> q' = q ++ l.
  Proof.
    induction l as [|r l IH]; intros q q' R; inversion R; subst; [now rewrite app_nil_r|]. cbn in *.
    match goal with H : _ \/ _ |- _ => destruct H as [(_ & _ & ->)|[(X & _)|([X|X] & _)]] end; try discriminate.
    match goal with H : sp_run _ _ _ _ |- _ => apply IH in H; rewrite H end. now rewrite <- app_assoc.
  Qed.
  Lemma filled_sim q0 : filled N q0 -> sim (t_init dflt q0) (p_init N dflt).
  Proof.
    intros (c & ls & es & E & EF & ID).
    assert (IJ : qok q0 es /\ signalled q0).
    { assert (I0 : qok (q_init nat) [] /\ signalled (q_init nat)).
      { split; [exact (qinv_init nat size HM)|]. exists []. split; [exact (ring_rep_init nat B HB)|now left]. }
      pose proof (exec_inv _ _ _ qstep (fun s es => qok s es /\ signalled s)) as X. specialize (X ltac:(intros s e l s' e' (A & A') ST; split; [exact (qinv_step nat size HM _ _ _ _ _ A ST)|exact (signalled_step _ _ _ _ _ A A' ST)])).
      exact (X ls _ _ _ _ I0 E). }
    destruct IJ as (I & q1 & R1 & J). destruct (qi_q _ _ _ _ I) as (q & R & _ & _ & f & L & _). pose proof (ring_rep_unique _ _ _ _ _ R1 R) as ->.
    apply lin_run_effects in L. rewrite EF, Nat2Z.id in L. apply sends_fill in L. cbn in L. subst q.
    assert (M : unsig q0 = []). { unfold unsig. destruct (q_mrb q0) as [u|] eqn:M; [|reflexivity]. now rewrite ID. }
    constructor; cbn; auto.
    - now exists es.
    - rewrite M, app_nil_r. exact R.
    - intros NE. destruct J as [J|[J|(u & v & ms & r & J)]]; [contradiction|exact J|]. rewrite ID in J. discriminate.
    - intros t. rewrite ID. cbn. auto.
  Qed.
  Theorem refines q0 ls s es : filled N q0 -> exec tstep (t_init dflt q0) ls = Some (s, es) ->
    exists ls' a, exec pstep (p_init N dflt) ls' = Some (a, es) /\ sim s a.
  Proof. intros F E. exact (sim_exec ls _ _ s es (filled_sim q0 F) E). Qed.

  (** ** when nothing moves *)
  Notation pinv := (Inv N dflt ext_prio).
  Lemma idle_back s a t : sim s a -> q_thr (t_queue s) t = QIdle -> on_queue (t_pool s) (XStep t) = false -> pstep (t_pool s) (XStep t) = None -> pstep a (XStep t) = None.
  Proof.
    intros S Q OQ E. destruct (agree_thr s a t S Q) as (E1 & E2 & E3). cbn [p_step on_queue] in E, OQ |- *. rewrite E1.
    destruct (p_thr (t_pool s) t) as [|[x ms g p|g ms|g|g|x q|x th]|[| | | |] r x ms g p|[|] r g|r] eqn:I; try discriminate; try reflexivity.
    - destruct (x =? 0); discriminate.
    - rewrite E3. destruct (p_guard (t_pool s) t g) as [r|]; [|discriminate]. rewrite (sm_ev _ _ S). destruct (p_ev (t_pool s) r); [discriminate|reflexivity].
    - rewrite E3. destruct (p_guard (t_pool s) t g) as [r|]; [|discriminate]. rewrite (sm_ev _ _ S). destruct (p_ev (t_pool s) r); [discriminate|reflexivity].
    - pose proof (agree_run s a r WOff S (or_introl eq_refl)) as AR. destruct (p_run a r) eqn:WA; try reflexivity. rewrite (proj2 AR eq_refl) in E. discriminate.
  Qed.
  Lemma idle_back_timeout s a t o : sim s a -> q_thr (t_queue s) t = QIdle -> on_queue (t_pool s) (XTimeout t o) = false -> pstep (t_pool s) (XTimeout t o) = None -> pstep a (XTimeout t o) = None.
  Proof.
    intros S Q OQ E. destruct (agree_thr s a t S Q) as (E1 & E2 & E3). cbn [p_step on_queue] in E, OQ |- *. rewrite E1.
    destruct (p_thr (t_pool s) t) as [|[x ms g p|g ms|g|g|x q|x th]|[| | | |] r x ms g p|[|] r g|r] eqn:I; try discriminate; try reflexivity.
    - rewrite E3. destruct (p_guard (t_pool s) t g) as [r|]; [|reflexivity]. rewrite (sm_ev _ _ S). destruct ((ms =? -1)%Z || p_ev (t_pool s) r); [reflexivity|discriminate].
    - destruct (ms =? -1)%Z; [reflexivity|]. pose proof (agree_run s a r WOff S (or_introl eq_refl)) as AR.
      assert (WO : p_run (t_pool s) r = WOff) by (destruct (p_run (t_pool s) r); [reflexivity|discriminate ..]). now rewrite (proj1 AR WO).
  Qed.
  Lemma thread_back s a r : sim s a -> (forall th, p_run (t_pool s) r <> WAfter ASend th) -> pstep (t_pool s) (XRun r) = None -> pstep a (XRun r) = None.
  Proof.
    intros S NA E. cbn [p_step] in E |- *. rewrite (run_eq s a r S NA). destruct (p_run (t_pool s) r) as [| | | |[| | | |] th|]; try discriminate; try reflexivity.
    - destruct (p_task (t_pool s) r =? 0); discriminate.
    - now elim (NA th).
  Qed.
  Theorem stuck_same s a own : sim s a -> pinv a own -> t_stuck N dflt ext_prio s ->
    p_stuck N dflt ext_prio a /\ rep (q_ring (t_queue s)) (p_q a) /\
    forall t, p_thr a t = p_thr (t_pool s) t /\ p_run a t = p_run (t_pool s) t /\ (forall g, p_guard a t g = p_guard (t_pool s) t g) /\
              (q_thr (t_queue s) t <> QIdle -> exists x g p, p_thr (t_pool s) t = PAt (PStart x (-1)%Z g p)).
  Proof.
    intros S H ST. pose proof S as [[qe SQ] SR SN STK SE SP SV SPQ SH].
    destruct (qi_q _ _ _ _ SQ) as (q & R & PC & W & _). pose proof (ring_rep_unique _ _ _ _ _ R SR) as ->.
    assert (QS : forall t, qstep (t_queue s) (QStep t) = None). { intros t. pose proof (ST (TQueue t) I) as X. cbn [t_step] in X. destruct (qstep (t_queue s) (QStep t)) as [[? ?]|]; [discriminate|reflexivity]. }
    assert (QT : forall t, qstep (t_queue s) (QTimeout t) = None). { intros t. pose proof (ST (TGiveUp t) I) as X. cbn [t_step] in X. destruct (qstep (t_queue s) (QTimeout t)) as [[? ?]|]; [discriminate|reflexivity]. }
    assert (RB : q_mrb (t_queue s) = None).
    { destruct (q_mrb (t_queue s)) as [u|] eqn:X; [|reflexivity]. apply (qi_rb _ _ _ _ SQ) in X. specialize (QS u). cbn in QS. destruct (q_thr (t_queue s) u) as [|c p]; [discriminate|]. destruct p; discriminate. }
    assert (US : unsig (t_queue s) = []) by (unfold unsig; now rewrite RB).
    rewrite US, app_nil_r in *.
    assert (NS : forall c, ~ signaller nat (q_thr (t_queue s)) c). { intros c (u & c' & r & X & _). specialize (QS u). cbn in QS. rewrite X in QS. discriminate. }
    assert (HH : forall t, q_thr (t_queue s) t = QIdle \/ exists c, q_thr (t_queue s) t = QAt c MessageQueueModel.PWait \/ q_thr (t_queue s) t = QAt c PLockOuter /\ outer (t_queue s) c <> None).
    { intros t. specialize (QS t). cbn in QS. destruct (q_thr (t_queue s) t) as [|c p]; [now left|right]. exists c.
      destruct p; try discriminate; try (rewrite RB in QS; discriminate).
      - right. split; [reflexivity|]. destruct (outer (t_queue s) c); discriminate.
      - now left. }
    assert (WB : forall t c, q_thr (t_queue s) t = QAt c MessageQueueModel.PWait -> wait_bit (t_queue s) c = false /\ ~ nb nat size c (p_q a)).
    { intros t c X. pose proof (W t c MessageQueueModel.PWait X eq_refl) as Wt. specialize (QS t). cbn in QS. rewrite X in QS. unfold wait_bit in *.
      destruct (if is_send c then q_nf (t_queue s) else q_ne (t_queue s)); [discriminate|]. split; [reflexivity|]. destruct Wt as [Wt|Wt]; [exact Wt|now elim (NS c)]. }
    (* a thread that is being given back finds room *)
    assert (ROOM : forall t, q_thr (t_queue s) t <> QIdle -> (forall st ms pt, q_thr (t_queue s) t <> QAt (QRecv st ms) pt) -> (forall c pt, q_thr (t_queue s) t = QAt c pt -> after_set pt = false) -> length (p_q a) < N).
    { intros t NI NR AS. pose proof (SH t) as X. destruct (q_thr (t_queue s) t) as [|c pt] eqn:Q; [congruence|]. specialize (AS c pt eq_refl). cbn in X.
      destruct (p_thr (t_pool s) t) as [|[y ms g p|g ms|g|g|y q|y th]|k r' y ms g p|[|] r' g|r'] eqn:PT; try contradiction.
      - destruct X as (LN & _ & _ & _ & th & _ & WA). rewrite AS in WA. apply Nat.ltb_lt. apply (queue_room N dflt ext_prio a own t H LN). intros O.
        pose proof (iv_run _ _ _ _ _ H t LN) as RO. rewrite O in RO. destruct RO as ([Y|Y] & _); rewrite WA in Y; discriminate.
      - destruct X as (_ & -> & _). now elim (NR true ms pt).
      - destruct X as (_ & _ & X). rewrite AS in X. destruct X as (PA & _). pose proof (iv_thr _ _ _ _ _ H t) as CO. unfold client_ok in CO. rewrite PA in CO. destruct CO as (GG & _).
        destruct (iv_guard _ _ _ _ _ H _ _ _ GG) as (Hr & j & O). apply Nat.ltb_lt. apply (queue_room N dflt ext_prio a own r' H Hr). congruence. }
    assert (SENDW : forall t v ms, q_thr (t_queue s) t <> QAt (QSend v ms) MessageQueueModel.PWait).
    { intros t v ms Q. destruct (WB t _ Q) as (_ & X). cbn in X. apply X. rewrite Nat2Z.id. apply (ROOM t); rewrite Q; try discriminate. intros c pt E. injection E as <- <-. reflexivity. }
    assert (NOSEND : forall t v ms pt, q_thr (t_queue s) t <> QAt (QSend v ms) pt).
    { intros t v ms pt Q. destruct (HH t) as [X|(c & [X|(X & O)])]; rewrite Q in X; try discriminate; injection X as <- ->; [exact (SENDW t v ms Q)|].
      cbn in O. destruct (q_msend (t_queue s)) as [u|] eqn:Y; [|congruence]. apply (qi_send _ _ _ _ SQ) in Y.
      destruct (HH u) as [Z|(d & [Z|(Z & _)])]; rewrite Z in Y; cbn in Y; try discriminate; destruct d as [v' ms'| | |]; try discriminate. exact (SENDW u v' ms' Z). }
    assert (RECV : forall t, q_thr (t_queue s) t <> QIdle -> exists x g p, x <> 0 /\ p_thr (t_pool s) t = PAt (PStart x (-1)%Z g p) /\ p_thr a t = PAt (PStart x (-1)%Z g p) /\ p_q a = [] /\ p_run a t = p_run (t_pool s) t /\ forall g, p_guard a t g = p_guard (t_pool s) t g).
    { intros t NI. pose proof (SH t) as X. pose proof (QT t) as QTt. cbn [q_step] in QTt. destruct (HH t) as [Q|(c & HQ)]; [contradiction|].
      destruct (q_thr (t_queue s) t) as [|c' pt] eqn:Q; [congruence|]. destruct (calls_sr _ _ _ _ _ _ _ _ _ X) as [(r & ->)|(ms & ->)]; [now elim (NOSEND t r (-1)%Z pt)|].
      destruct (at_recv _ _ _ _ _ _ _ _ _ X) as (x & g & p & PT & NX & WA & G & RO).
      assert (EMP : p_q a = []).
      { destruct HQ as [HQ|(HQ & O)]; injection HQ as <- ->.
        - destruct (WB t _ Q) as (_ & Y). cbn in Y. destruct (p_q a); [reflexivity|]. elim Y. discriminate.
        - cbn in O. destruct (q_mrecv (t_queue s)) as [u|] eqn:Y; [|congruence]. apply (qi_recv _ _ _ _ SQ) in Y.
          destruct (HH u) as [Z|(d & [Z|(Z & _)])]; rewrite Z in Y; cbn in Y; try discriminate; destruct d; try discriminate.
          destruct (WB u _ Z) as (_ & Y'). cbn in Y'. destruct (p_q a); [reflexivity|]. elim Y'. discriminate. }
      assert (MS : ms = (-1)%Z).
      { destruct HQ as [HQ|(HQ & O)]; injection HQ as <- ->; cbn [tmout] in QTt.
        - destruct (WB t _ Q) as (Y & _). rewrite Y in QTt. destruct (ms =? -1)%Z eqn:E; [now apply Z.eqb_eq|discriminate].
        - cbn in O. destruct (outer (t_queue s) (QRecv true ms)) eqn:OO; [|contradiction]. cbn [free orb] in QTt. destruct (ms =? -1)%Z eqn:E; [now apply Z.eqb_eq|discriminate]. }
      subst ms. exists x, g, p. refine (conj NX (conj PT (conj _ (conj EMP (conj WA G))))).
      destruct HQ as [HQ|(HQ & _)]; injection HQ as _ ->; exact RO. }
    assert (SAME : forall t, p_thr a t = p_thr (t_pool s) t /\ p_run a t = p_run (t_pool s) t /\ forall g, p_guard a t g = p_guard (t_pool s) t g).
    { intros t. destruct (q_thr (t_queue s) t) as [|c pt] eqn:Q; [now apply agree_thr|]. destruct (RECV t) as (x & g & p & _ & E1 & E2 & _ & E3 & E4); [rewrite Q; discriminate|]. rewrite E1, E2. auto. }
    assert (WANT : forall t, q_thr (t_queue s) t = QIdle -> wants N (t_pool s) t = None).
    { intros t Q. pose proof (ST (TEnter t) I) as X. cbn [t_step] in X. destruct (wants N (t_pool s) t) as [c|]; [|reflexivity]. cbn in X. rewrite Q in X. discriminate. }
    assert (TP : forall l, p_own_step l -> on_queue (t_pool s) l = false -> pstep (t_pool s) l = None).
    { intros l O OQ. pose proof (ST (TPool l) O) as X. cbn [t_step] in X. rewrite OQ in X. destruct (pstep (t_pool s) l) as [[? ?]|]; [discriminate|reflexivity]. }
    split; [|split; [exact SR|]].
    - intros l O. destruct l as [t c|t|t o|r|r th]; try contradiction.
      + destruct (q_thr (t_queue s) t) as [|c pt] eqn:Q.
        * pose proof (WANT t Q) as WT. assert (OQ : on_queue (t_pool s) (XStep t) = false).
          { cbn. unfold wants in WT. destruct (p_thr (t_pool s) t) as [|[x ms g p|g ms|g|g|x q|x th]|k r x ms g p|[|] r g|r]; try reflexivity; [|discriminate]. destruct (x =? 0); [reflexivity|discriminate]. }
          exact (idle_back s a t S Q OQ (TP _ O OQ)).
        * destruct (RECV t) as (x & g & p & NX & _ & E & EMP & _); [rewrite Q; discriminate|]. cbn [p_step]. apply Nat.eqb_neq in NX. now rewrite E, EMP, NX.
      + destruct (q_thr (t_queue s) t) as [|c pt] eqn:Q.
        * pose proof (WANT t Q) as WT. destruct (on_queue (t_pool s) (XTimeout t o)) eqn:OQ; [|exact (idle_back_timeout s a t o S Q OQ (TP _ O OQ))].
          cbn in OQ. unfold wants in WT. destruct (agree_thr s a t S Q) as (E & _). cbn [p_step]. rewrite E. destruct (p_thr (t_pool s) t) as [|[x ms g p|g ms|g|g|x q|x th]|k r x ms g p|[|] r g|r]; try discriminate.
          destruct (x =? 0); [|discriminate]. now rewrite orb_true_r.
        * destruct (RECV t) as (x & g & p & NX & _ & E & EMP & _); [rewrite Q; discriminate|]. cbn [p_step]. now rewrite E.
      + apply (thread_back s a r S).
        * intros th WA. destruct (q_thr (t_queue s) r) as [|c pt] eqn:Q.
          -- pose proof (WANT r Q) as WT. destruct (agree_thr s a r S Q) as (E1 & E2 & _).
             assert (LN : r < N). { destruct (Nat.lt_ge_cases r N) as [L|L]; [exact L|]. pose proof (iv_off _ _ _ _ _ H r L) as Y. congruence. }
             unfold wants in WT. destruct (p_thr (t_pool s) r) eqn:PT.
             ++ apply Nat.ltb_lt in LN. rewrite LN, WA in WT. discriminate.
             ++ pose proof (call_in N dflt ext_prio a own r H) as Y. rewrite E1 in Y. specialize (Y ltac:(discriminate) LN). congruence.
             ++ pose proof (call_in N dflt ext_prio a own r H) as Y. rewrite E1 in Y. specialize (Y ltac:(discriminate) LN). congruence.
             ++ pose proof (call_in N dflt ext_prio a own r H) as Y. rewrite E1 in Y. specialize (Y ltac:(discriminate) LN). congruence.
             ++ pose proof (call_in N dflt ext_prio a own r H) as Y. rewrite E1 in Y. specialize (Y ltac:(discriminate) LN). congruence.
          -- destruct (RECV r) as (x & g & p & NX & _ & E & EMP & E2 & _); [rewrite Q; discriminate|].
             assert (LN : r < N). { destruct (Nat.lt_ge_cases r N) as [L|L]; [exact L|]. pose proof (iv_off _ _ _ _ _ H r L) as Y. congruence. }
             pose proof (call_in N dflt ext_prio a own r H) as Y. rewrite E in Y. specialize (Y ltac:(discriminate) LN). congruence.
        * destruct (on_queue (t_pool s) (XRun r)) eqn:OQ; [|now apply TP]. cbn in OQ. destruct (p_run (t_pool s) r) as [| | | |[| | | |] th|] eqn:WA; try discriminate.
          exfalso. destruct (SAME r) as (E1 & E2 & _). assert (LN : r < N). { destruct (Nat.lt_ge_cases r N) as [L|L]; [exact L|]. pose proof (iv_off _ _ _ _ _ H r L) as Y. congruence. }
          destruct (q_thr (t_queue s) r) as [|c pt] eqn:Q.
          -- pose proof (WANT r Q) as WT. unfold wants in WT. apply Nat.ltb_lt in LN as LB. rewrite LB, WA in WT. pose proof (call_in N dflt ext_prio a own r H) as Y. rewrite E1 in Y.
             destruct (p_thr (t_pool s) r); [discriminate|specialize (Y ltac:(discriminate) LN); congruence ..].
          -- destruct (RECV r) as (x & g & p & NX & _ & E & EMP & E3 & _); [rewrite Q; discriminate|]. pose proof (call_in N dflt ext_prio a own r H) as Y. rewrite E in Y. specialize (Y ltac:(discriminate) LN). congruence.
    - intros t. destruct (SAME t) as (E1 & E2 & E3). repeat (split; [assumption|]). intros NI. destruct (RECV t NI) as (x & g & p & _ & E & _). eauto.
  Qed.

  (** ** bounded work *)
  Definition qm (s : tst) (t : nat) : nat :=
    match q_thr (t_queue s) t with QIdle => match wants N (t_pool s) t with Some _ => 13 | None => 0 end | x => qw nat x end.
  Lemma qm_bound s t : qm s t <= 13.
  Proof. unfold qm. destruct (q_thr (t_queue s) t) as [|c pt]; [destruct (wants N (t_pool s) t); lia|destruct pt; cbn; lia]. Qed.
  Lemma qm_same s s' u : q_thr (t_queue s') u = q_thr (t_queue s) u -> p_thr (t_pool s') u = p_thr (t_pool s) u ->
    (p_run (t_pool s') u = p_run (t_pool s) u \/ (p_run (t_pool s) u = WOff /\ p_run (t_pool s') u = WStarted)) -> qm s' u = qm s u.
  Proof.
    intros E1 E2 E3. unfold qm, wants. rewrite E1, E2. destruct E3 as [->|(-> & ->)]; reflexivity.
  Qed.
  Lemma sum_local f g M t b : (forall u, u <> t -> g u = f u) -> g t <= b -> sumn g M <= sumn f M + b.
  Proof.
    intros E L. destruct (Nat.lt_ge_cases t M) as [H|H].
    - pose proof (sumn_change M f g t H E). lia.
    - rewrite (sumn_ext M g f); [lia|]. intros k Hk. apply E. lia.
  Qed.
  (** a step of thread [t] inside the queue *)
  Lemma qm_queue s a t s' es : sim s a -> tstep s (TQueue t) = Some (s', es) -> qm s' t < qm s t /\ forall u, u <> t -> qm s' u = qm s u.
  Proof.
    intros S E. pose proof S as [[qe SQ] SR SN ST SE SP SV SPQ SH]. cbn [t_step] in E.
    destruct (qstep (t_queue s) (QStep t)) as [[Q' qes]|] eqn:EQ; [|discriminate]. injection E as <- <-.
    pose proof (qinv_step nat size HM _ _ _ _ _ SQ EQ) as I'. pose proof (qi_ub _ _ _ _ I') as UB. pose proof (SH t) as X. cbn [q_step] in EQ.
    destruct (q_thr (t_queue s) t) as [|c pt] eqn:Q; [discriminate|].
    assert (GO : forall x, q_thr Q' = fupd (q_thr (t_queue s)) t x -> (exists d pt', x = QAt d pt') -> qw nat x < qw nat (QAt c pt) ->
       qm (mkT (t_pool s) Q') t < qm s t /\ forall u, u <> t -> qm (mkT (t_pool s) Q') u = qm s u).
    { intros x E (d & pt' & ->) L. split.
      - unfold qm. cbn [t_queue]. rewrite E, fupd_same, Q. exact L.
      - intros u NU. apply qm_same; cbn; [rewrite E; now apply fupd_other|reflexivity|now left]. }
    destruct pt as [| | | |b| | | |res|res|res|res].
    - destruct (free (outer (t_queue s) c)); [|discriminate]. injection EQ as <- <-. eapply GO; [unfold set_outer; destruct (is_send c); reflexivity|eauto|cbn; lia].
    - destruct (free (q_mrb (t_queue s))); [|discriminate]. injection EQ as <- <-. eapply GO; [reflexivity|eauto|cbn; lia].
    - injection EQ as <- <-. eapply GO; [reflexivity|eauto|]. destruct (blocked nat size (t_queue s) c); cbn; lia.
    - injection EQ as <- <-. eapply GO; [unfold reset_bit; destruct (is_send c); reflexivity|eauto|cbn; lia].
    - injection EQ as <- <-. eapply GO; [reflexivity|eauto|]. destruct b; cbn; lia.
    - destruct (wait_bit (t_queue s) c); [|discriminate]. injection EQ as <- <-. eapply GO; [reflexivity|eauto|cbn; lia].
    - destruct (free (q_mrb (t_queue s))); [|discriminate]. injection EQ as <- <-. eapply GO; [reflexivity|eauto|cbn; lia].
    - injection EQ as EQ. unfold q_op in EQ. destruct c as [v ms|st ms| |].
      + destruct (ring_push nat B (q_ring (t_queue s)) v); injection EQ as <- <-; [|discriminate UB]. eapply GO; [reflexivity|eauto|cbn; lia].
      + destruct (ring_pop nat B (q_ring (t_queue s))) as [[? ?]|]; injection EQ as <- <-; [|discriminate UB]. eapply GO; [reflexivity|eauto|cbn; lia].
      + injection EQ as <- <-. eapply GO; [reflexivity|eauto|cbn; lia].
      + injection EQ as <- <-. eapply GO; [reflexivity|eauto|cbn; lia].
    - injection EQ as <- <-. eapply GO; [unfold set_bit; destruct (is_send c); reflexivity|eauto|cbn; lia].
    - injection EQ as <- <-. eapply GO; [reflexivity|eauto|]. destruct c; cbn; lia.
    - injection EQ as <- <-. eapply GO; [unfold set_outer; destruct (is_send c); reflexivity|eauto|cbn; lia].
    - injection EQ as <- <-. clear GO. cbn in X. split.
      + unfold qm. cbn [t_queue t_pool q_go q_thr]. rewrite fupd_same, Q. cbn [qw].
        replace (wants N (resume (t_pool s) t res) t) with (@None (qcall nat)); [lia|]. unfold resume.
        destruct (p_thr (t_pool s) t) as [|[y ms g p|g ms|g|g|y q|y th]|k r' y ms g p|[|] r' g|r'] eqn:PT; try contradiction; unfold wants.
        * cbn [p_wto p_thr p_run]. rewrite PT, fupd_same. now destruct (t <? N).
        * destruct X as (_ & _ & _ & _ & X). unfold recv_ok in X. cbn in X. destruct res as [e|[] [k|]|n|]; try contradiction; cbn; now rewrite fupd_same.
        * cbn. now rewrite fupd_same.
      + intros u NU. apply qm_same; cbn; [now apply fupd_other| |]; unfold resume;
          destruct (p_thr (t_pool s) t) as [|[y ms g p|g ms|g|g|y q|y th]|k r' y ms g p|[|] r' g|r'] eqn:PT; try contradiction; try (left; cbn; (reflexivity || now apply fupd_other));
          cbn; try (now apply fupd_other); try reflexivity; try (destruct res as [e|[] [k|]|n|]; cbn; (now left) || reflexivity || now apply fupd_other).
  Qed.
  (** a step of the pool *)
  Definition actor (l : plab) : nat := match l with XCall t _ | XStep t | XTimeout t _ => t | XRun r | XTaskEnd r _ => r end.
  Lemma qm_pool s l P' es : pstep (t_pool s) l = Some (P', es) -> forall u, u <> actor l -> qm (mkT P' (t_queue s)) u = qm s u.
  Proof.
    intros E u NU. apply qm_same; cbn; [reflexivity| |].
    - destruct l as [t c|t|t o|r|r th]; cbn [p_step actor] in *.
      + destruct (p_thr (t_pool s) t); try discriminate. destruct (callable N (t_pool s) t c); [|discriminate]. injection E as <- <-. now apply fupd_other.
      + destruct (p_thr (t_pool s) t) as [|[x ms g p|g ms|g|g|x q|x th]|[| | | |] r x ms g p|[|] r g|r]; try discriminate;
          repeat match type of E with (if ?b then _ else _) = _ => destruct b; try discriminate | match ?b with _ => _ end = _ => destruct b; try discriminate end;
          injection E as <- <-; now apply fupd_other.
      + destruct (p_thr (t_pool s) t) as [|[x ms g p|g ms|g|g|x q|x th]|[| | | |] r x ms g p|[|] r g|r]; try discriminate.
        * match type of E with (if ?b then _ else _) = _ => destruct b; [discriminate|] end. match type of E with (if ?b then _ else _) = _ => destruct b; [|discriminate] end. injection E as <- <-; now apply fupd_other.
        * destruct (p_guard (t_pool s) t g); [|discriminate]. match type of E with (if ?b then _ else _) = _ => destruct b; [discriminate|] end. injection E as <- <-; now apply fupd_other.
        * destruct (ms =? -1)%Z; [discriminate|]. destruct (p_run (t_pool s) r); try discriminate; injection E as <- <-; now apply fupd_other.
      + destruct (p_run (t_pool s) r) as [| | | |[| | | |] th|]; try discriminate; repeat match type of E with (if ?b then _ else _) = _ => destruct b; try discriminate end; now injection E as <- <-.
      + destruct (p_run (t_pool s) r); try discriminate. destruct (p_thr (t_pool s) r); try discriminate. now injection E as <- <-.
    - destruct l as [t c|t|t o|r|r th]; cbn [p_step actor] in *.
      + left. destruct (p_thr (t_pool s) t); try discriminate. destruct (callable N (t_pool s) t c); [|discriminate]. now injection E as <- <-.
      + destruct (p_thr (t_pool s) t) as [|[x ms g p|g ms|g|g|x q|x th]|[| | | |] r x ms g p|[|] r g|r]; try discriminate;
          try (left; repeat match type of E with (if ?b then _ else _) = _ => destruct b; try discriminate | match ?b with _ => _ end = _ => destruct b; try discriminate end;
          now injection E as <- <-).
        injection E as <- <-. cbn. unfold fupd. destruct (u =? r) eqn:UR; [|now left]. apply Nat.eqb_eq in UR. subst u. destruct (p_run (t_pool s) r); auto.
      + left. destruct (p_thr (t_pool s) t) as [|[x ms g p|g ms|g|g|x q|x th]|[| | | |] r x ms g p|[|] r g|r]; try discriminate.
        * match type of E with (if ?b then _ else _) = _ => destruct b; [discriminate|] end. match type of E with (if ?b then _ else _) = _ => destruct b; [|discriminate] end. now injection E as <- <-.
        * destruct (p_guard (t_pool s) t g); [|discriminate]. match type of E with (if ?b then _ else _) = _ => destruct b; [discriminate|] end. now injection E as <- <-.
        * destruct (ms =? -1)%Z; [discriminate|]. destruct (p_run (t_pool s) r); try discriminate; now injection E as <- <-.
      + left. destruct (p_run (t_pool s) r) as [| | | |[| | | |] th|]; try discriminate; repeat match type of E with (if ?b then _ else _) = _ => destruct b; try discriminate end; injection E as <- <-; cbn; now apply fupd_other.
      + left. destruct (p_run (t_pool s) r); try discriminate. destruct (p_thr (t_pool s) r); try discriminate. injection E as <- <-. cbn. now apply fupd_other.
  Qed.
  Definition total (n : nat) (s : tst) (a : pst) : nat := 14 * work N n a + sumn (qm s) (n + N).
  Lemma in_range n s a t c pt : sim s a -> quiet_from n a -> q_thr (t_queue s) t = QAt c pt -> t < n + N.
  Proof.
    intros S QF Q. pose proof (sm_thr _ _ S t) as X. rewrite Q in X. cbn in X. destruct (p_thr (t_pool s) t) eqn:PT.
    - destruct X as (L & _). lia.
    - destruct (Nat.lt_ge_cases t n) as [L|L]; [lia|]. apply QF in L. apply (agree_idle s a t S) in L. congruence.
    - contradiction.
    - destruct (Nat.lt_ge_cases t n) as [L|L]; [lia|]. apply QF in L. apply (agree_idle s a t S) in L. congruence.
    - contradiction.
  Qed.
  Lemma total_step n s a own l s' es : sim s a -> pinv a own -> quiet_from n a -> t_own_step l -> tstep s l = Some (s', es) ->
    exists a' own', sim s' a' /\ pinv a' own' /\ quiet_from n a' /\ total n s' a' < total n s a.
  Proof.
    intros S H QF O E. unfold total.
    (* one step of the atomic pool pays for what one thread may have to do in the queue *)
    assert (PAY : forall a' l' t, p_own_step l' -> pstep a l' = Some (a', es) -> sim s' a' -> (forall u, u <> t -> qm s' u = qm s u) ->
      exists a' own', sim s' a' /\ pinv a' own' /\ quiet_from n a' /\ 14 * work N n a' + sumn (qm s') (n + N) < 14 * work N n a + sumn (qm s) (n + N)).
    { intros a' l' t O' E' S' L. destruct (work_step N dflt ext_prio n a own l' a' es H QF O' E') as (QF' & W). exists a', (own_step a own l').
      split; [exact S'|]. split; [eapply inv_step; eassumption|]. split; [exact QF'|]. pose proof (sum_local (qm s) (qm s') (n + N) t 13 L (qm_bound s' t)). lia. }
    destruct l as [l|t|t|t].
    - pose proof E as E0. cbn [t_step] in E. destruct (on_queue (t_pool s) l) eqn:OQ; [discriminate|]. destruct (pstep (t_pool s) l) as [[P' pes]|] eqn:EP; [|discriminate]. injection E as <- <-.
      destruct (pool_step s a l P' pes S OQ EP) as (a' & E' & S'). exact (PAY a' l (actor l) O E' S' (qm_pool s l P' pes EP)).
    - cbn [t_step] in E. destruct (wants N (t_pool s) t) as [c|] eqn:W; [|discriminate]. destruct (qstep (t_queue s) (QCall t c)) as [[Q' qes]|] eqn:EQ; [|discriminate]. injection E as <- <-.
      pose proof (enter_sim s a t c Q' qes S W EQ) as S'. cbn in EQ. destruct (q_thr (t_queue s) t) as [|d pt] eqn:Q; [|discriminate]. injection EQ as <- <-. exists a, own. split; [exact S'|]. split; [exact H|]. split; [exact QF|].
      assert (LT : t < n + N) by (eapply (in_range n _ a t); [exact S'|exact QF|cbn; apply fupd_same]).
      match goal with |- _ + sumn (qm ?s1) _ < _ => pose proof (sumn_change (n + N) (qm s) (qm s1) t LT) as Z end.
      specialize (Z ltac:(intros u NU; apply qm_same; cbn; [now apply fupd_other|reflexivity|now left])).
      match type of Z with _ = _ + ?q => assert (L : q <= 12) by (unfold qm; cbn [t_queue q_go q_thr]; rewrite fupd_same; destruct c; cbn; lia) end.
      assert (QM : qm s t = 13) by (unfold qm; now rewrite Q, W). lia.
    - destruct (qm_queue s a t s' es S E) as (LT & EQ). destruct (queue_step s a t s' es S E) as (a' & [(-> & ->)|(l' & O' & E')] & S'); [|exact (PAY a' l' t O' E' S' EQ)].
      exists a, own. split; [exact S'|]. split; [exact H|]. split; [exact QF|].
      assert (LN : t < n + N). { cbn in E. destruct (q_thr (t_queue s) t) as [|c pt] eqn:Q; [discriminate|]. exact (in_range n s a t c pt S QF Q). }
      pose proof (sumn_change (n + N) (qm s) (qm s') t LN EQ). lia.
    - destruct (give_up s a t s' es S E) as (a' & l' & O' & E' & S'). apply (PAY a' l' t O' E' S'). intros u NU.
      cbn [t_step] in E. destruct (qstep (t_queue s) (QTimeout t)) as [[Q' qes]|] eqn:EQ; [|discriminate]. injection E as <- <-.
      apply qm_same; cbn; [|reflexivity|now left]. exact (proj1 (step_other nat size _ _ _ _ u EQ (not_eq_sym NU))).
  Qed.

  (** ** the theorems *)
  Lemma reach_sim q0 ls s es : filled N q0 -> exec tstep (t_init dflt q0) ls = Some (s, es) ->
    exists ls' a own, exec pstep (p_init N dflt) ls' = Some (a, es) /\ sim s a /\ pinv a own.
  Proof. intros F E. destruct (refines q0 ls s es F E) as (ls' & a & EA & S). destruct (reach N dflt ext_prio ls' a es EA) as (own & _ & _ & H & _). eauto 6. Qed.
  Theorem stack_trace q0 ls s es : filled N q0 -> exec tstep (t_init dflt q0) ls = Some (s, es) ->
    exists ls' a, exec pstep (p_init N dflt) ls' = Some (a, es).
  Proof. intros F E. destruct (refines q0 ls s es F E) as (ls' & a & EA & _). eauto. Qed.
  Theorem stack_atomic q0 ls s es : filled N q0 -> exec tstep (t_init dflt q0) ls = Some (s, es) ->
    linearizable (pspec_lossy N ext_prio) all_free (history es) /\ exists sg, sp_run (pspec_lossy N ext_prio) all_free (effects es) sg.
  Proof. intros F E. destruct (stack_trace q0 ls s es F E) as (ls' & a & EA). eapply pool_atomic; exact EA. Qed.
  Theorem stack_atomic_strict q0 ls s es : filled N q0 -> exec tstep (t_init dflt q0) ls = Some (s, es) -> no_start_timed_out es ->
    linearizable (pspec N ext_prio) all_free (history es).
  Proof. intros F E. destruct (stack_trace q0 ls s es F E) as (ls' & a & EA). eapply pool_atomic_strict; exact EA. Qed.
  Theorem stack_patient q0 ls s es : filled N q0 -> exec tstep (t_init dflt q0) ls = Some (s, es) ->
    (forall t x ms g p, In (Call t (PStart x ms g p)) es -> ms = (-1)%Z) -> no_start_timed_out es.
  Proof. intros F E. destruct (stack_trace q0 ls s es F E) as (ls' & a & EA). eapply patient_never_times_out; exact EA. Qed.
  Theorem stack_each_task_once q0 ls s es x : filled N q0 -> exec tstep (t_init dflt q0) ls = Some (s, es) ->
    count_eff (ended x) (effects es) <= count_eff (begun x) (effects es) <= count_eff (accepted x) (effects es) /\
    ((forall r, r < N -> p_run (t_pool s) r = WOff) ->
      count_eff (begun x) (effects es) = count_eff (accepted x) (effects es) /\ count_eff (ended x) (effects es) = count_eff (accepted x) (effects es)).
  Proof.
    intros F E. destruct (refines q0 ls s es F E) as (ls' & a & EA & S). destruct (each_task_once N dflt ext_prio ls' a es x EA) as (A & C). split; [exact A|].
    intros R. apply C. intros r Hr. apply (agree_run s a r WOff S (or_introl eq_refl)). now apply R.
  Qed.
  Theorem stack_guard_waits q0 ls s es l1 l2 l3 t x ms g p c res : filled N q0 -> exec tstep (t_init dflt q0) ls = Some (s, es) ->
    effects es = l1 ++ (t, PStart x ms (Some g) p, PErr OK) :: l2 ++ (t, c, res) :: l3 ->
    (exists ms', c = PWait g ms' /\ res = PErr OK) \/ c = PRelease g -> ~ In (t, PRelease g, PVoid) l2 ->
    exists r q th m1 m2 m3, r < N /\ l2 = m1 ++ (r, PBegin x q, PVoid) :: m2 ++ (r, PEnd x th, PVoid) :: m3 /\ forall v, p = Some v -> q = v.
  Proof. intros F E. destruct (stack_trace q0 ls s es F E) as (ls' & a & EA). eapply guard_waits; exact EA. Qed.
  Theorem stack_memory q0 ls s es : filled N q0 -> exec tstep (t_init dflt q0) ls = Some (s, es) -> q_ub (t_queue s) = false.
  Proof. intros F E. destruct (refines q0 ls s es F E) as (ls' & a & EA & S). destruct (sm_q _ _ S) as (qe & SQ). exact (qi_ub _ _ _ _ SQ). Qed.
  Theorem stack_who_waits q0 ls s es : filled N q0 -> exec tstep (t_init dflt q0) ls = Some (s, es) -> t_stuck N dflt ext_prio s ->
    exists lost, length lost <= count_eff timed_out (effects es) /\ forall t,
    t_idle s t \/
    (exists x g p, p_thr (t_pool s) t = PAt (PStart x (-1)%Z g p) /\
       forall r, r < N -> In r lost \/ p_run (t_pool s) r = WIn \/ exists t' g', p_guard (t_pool s) t' g' = Some r) \/
    (exists g r, (p_thr (t_pool s) t = PAt (PWait g (-1)%Z) \/ p_thr (t_pool s) t = PAt (PRelease g)) /\ r < N /\ p_guard (t_pool s) t g = Some r /\ p_run (t_pool s) r = WIn).
  Proof.
    intros F E ST. destruct (reach_sim q0 ls s es F E) as (ls' & a & own & EA & S & H). destruct (stuck_same s a own S H ST) as (SA & _ & SAME).
    destruct (who_waits_all N dflt ext_prio ls' a es EA SA) as (lost & LL & C). exists lost. split; [exact LL|]. intros t. unfold t_idle, p_idle in *.
    destruct (SAME t) as (E1 & E2 & E3 & _). rewrite <- E1. destruct (C t) as [X|[(x & g & p & X & Y)|(g & r & X & Hr & Y & Z)]]; [now left|right; left|right; right].
    - exists x, g, p. split; [exact X|]. intros r Hr. destruct (SAME r) as (_ & E4 & _). rewrite <- E4. destruct (Y r Hr) as [Y'|[Y'|(t' & g' & Y')]]; auto. right; right. exists t', g'.
      destruct (SAME t') as (_ & _ & E5 & _). now rewrite <- E5.
    - destruct (SAME r) as (_ & E4 & _). exists g, r. rewrite <- E3, <- E4. auto.
  Qed.
  Theorem stack_all_back q0 ls s es : filled N q0 -> exec tstep (t_init dflt q0) ls = Some (s, es) -> no_start_timed_out es ->
    (forall t, t_idle s t) -> (forall r, r < N -> p_run (t_pool s) r = WOff) -> (forall t g, p_guard (t_pool s) t g = None) ->
    ring_size nat B (q_ring (t_queue s)) = size /\ (0 < N -> q_ne (t_queue s) = true).
  Proof.
    intros F E NT ID RO GD. destruct (reach_sim q0 ls s es F E) as (ls' & a & own & EA & S & H). pose proof (sm_q _ _ S) as (qe & SQ).
    assert (QI : forall t, q_thr (t_queue s) t = QIdle).
    { intros t. pose proof (sm_thr _ _ S t) as X. destruct (q_thr (t_queue s) t) as [|c pt]; [reflexivity|]. cbn in X. rewrite (ID t : p_thr _ _ = _) in X.
      destruct X as (L & _ & _ & _ & th & W & _). rewrite (RO t L) in W. discriminate. }
    assert (U : unsig (t_queue s) = []). { unfold unsig. destruct (q_mrb (t_queue s)); [now rewrite QI|reflexivity]. }
    pose proof (sm_ring _ _ S) as R. rewrite U, app_nil_r in R.
    assert (REST : at_rest N a).
    { split; [intros t; exact (proj1 (agree_idle s a t S) (ID t))|]. intros r Hr. apply (agree_run s a r WOff S (or_introl eq_refl)). now apply RO. }
    assert (GA : forall t g, p_guard a t g = None). { intros t g. destruct (agree_thr s a t S (QI t)) as (_ & _ & X). now rewrite X. }
    pose proof (rest_all_back N dflt ext_prio ls' a es EA NT REST GA) as P. apply Permutation.Permutation_length in P. rewrite seq_length in P.
    split; [rewrite (ring_size_ok nat B HB _ _ R); lia|]. intros L. apply (sm_ne _ _ S). intros X. rewrite X in P. cbn in P. lia.
  Qed.
  Theorem stack_bounded_work q0 n ls0 s es0 ls s' es : filled N q0 -> exec tstep (t_init dflt q0) ls0 = Some (s, es0) ->
    (forall t, n <= t -> t_idle s t) -> (forall l, In l ls -> t_own_step l) -> exec tstep s ls = Some (s', es) -> length ls <= 293 * n + 111 * N.
  Proof.
    intros F E0 ID O E. destruct (reach_sim q0 ls0 s es0 F E0) as (ls' & a & own & EA & S & H).
    assert (QF : quiet_from n a) by (intros t Ht; apply (agree_idle s a t S), ID; exact Ht).
    assert (M : length ls <= total n s a).
    { clear E0 EA ID. revert s a own es S H QF E O. induction ls as [|l ls IH]; intros s a own es S H QF E O; [cbn; lia|]. cbn in E.
      destruct (tstep s l) as [[s1 e1]|] eqn:E1; [|discriminate]. destruct (exec tstep s1 ls) as [[s2 e2]|] eqn:E2; [|discriminate]. injection E as <- <-.
      destruct (total_step n s a own l s1 e1 S H QF (O l (or_introl eq_refl)) E1) as (a1 & own1 & S1 & H1 & QF1 & L).
      specialize (IH s1 a1 own1 e2 S1 H1 QF1 E2 (fun l' X => O l' (or_intror X))). cbn [length]. lia. }
    unfold total, work in M. pose proof (sumn_bound n (fun t => cw (p_thr a t)) 20 (fun k _ => cw_bound _)). pose proof (sumn_bound N (fun r => ww (p_run a r)) 7 (fun k _ => ww_bound _)).
    pose proof (sumn_bound (n + N) (qm s) 13 (fun k _ => qm_bound _ _)). lia.
  Qed.
End P.
