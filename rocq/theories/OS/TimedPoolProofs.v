(** How long the calls of ThreadPool, over MessageQueue, take. *)
From Coq Require Import List ZArith Bool Arith Lia.
Import ListNotations.
From Verif Require Import Spec.OSError Spec.Linear Spec.MessageQueueSpec OS.Sched OS.MessageQueueModel OS.MessageQueueProofs OS.TimedQueueProofs
  Spec.ThreadPoolSpec OS.ThreadPoolModel OS.ThreadPoolProofs OS.PoolStackModel OS.PoolStackProofs OS.TimedModel OS.TimedProofs OS.TimedCalls Spec.TimedSpec Spec.TimedMoreSpec OS.TimedPoolModel.
Open Scope Z_scope.

Section P.
  Variable N : nat.
  Hypothesis HN : Z.of_nat N < 2 ^ 64 - 1.
  Variables (dflt : Z) (ext_prio : nat -> Z) (n : nat).
  Notation size := (Z.of_nat N).
  Let HM : 0 <= size < 2 ^ 64 - 1.
  Proof. lia. Qed.
  Notation pstep := (p_step N dflt ext_prio).
  Notation step := (sstep N dflt ext_prio).
  Notation qstep := (q_step nat size).
  Notation sim := (sim N).
  Notation pinv := (Inv N dflt ext_prio).

  (** ** the moves of the agent that makes a step of the pool *)
  Inductive pmoves (t : nat) (l : plab) : ppc -> ppc -> list (event pcall pres) -> Prop :=
  | pm_call c : l = XCall t c -> pmoves t l PIdle (PAt c) [Call t c]
  | pm_ret r : l = XStep t -> pmoves t l (PRet r) PIdle [Ret t r]
  | pm_run p e : l = XRun t \/ (exists b, l = XTaskEnd t b) -> (forall v, In (Ret t v) e -> v = PVoid) -> (forall c, In (Call t c) e -> pool_limit c = None /\ p = PIdle \/ exists x q, c = PBegin x q) -> 
      seen t (filter visible e) -> pmoves t l p p e
  | pm_hold k k' r x ms g p : l = XStep t -> k' <> SJoin -> pmoves t l (PHold k r x ms g p) (PHold k' r x ms g p) []
  | pm_done p r e : l = XStep t -> r <> PErr TimedOut -> (forall q, p <> PRet q) -> p <> PIdle -> filter visible e = [] -> pmoves t l p (PRet r) e
  | pm_rel p b r g : l = XStep t -> p = PAt (PRelease g) \/ (exists b, p = PRel b r g) -> pmoves t l p (PRel b r g) []
  | pm_out p o ms e : l = XTimeout t o -> (exists r x g q, p = PHold SJoin r x ms g q) \/ (exists g, p = PAt (PWait g ms)) -> ms <> -1 -> filter visible e = [] -> pmoves t l p (PRet (PErr TimedOut)) e.
  Lemma pool_moves s l s' e : on_queue s l = false -> pstep s l = Some (s', e) -> pmoves (plab_who l) l (p_thr s (plab_who l)) (p_thr s' (plab_who l)) e.
  Proof.
    intros OQ E. destruct l as [t c|t|t o|r|r b]; cbn beta iota delta [p_step plab_who on_queue] in E, OQ |- *.
    - destruct (p_thr s t); try discriminate. destruct (callable N s t c); [|discriminate]. injection E as <- <-. cbn. rewrite fupd_same. now constructor.
    - destruct (p_thr s t) as [|c|k r x ms g p|[|] r g|r] eqn:Q; try discriminate.
      + destruct c as [x ms g p|g ms|g|g|x q|x th]; try discriminate.
        * destruct (Nat.eqb x 0); [|discriminate]. injection E as <- <-. cbn. rewrite fupd_same. now apply pm_done.
        * destruct (p_guard s t g) as [r|].
          -- destruct (p_ev s r); [|discriminate]. injection E as <- <-. cbn. rewrite fupd_same. now apply pm_done.
          -- injection E as <- <-. cbn. rewrite fupd_same. now apply pm_done.
        * destruct (p_guard s t g) as [r|].
          -- destruct (p_ev s r); [|discriminate]. injection E as <- <-. cbn. rewrite fupd_same. apply pm_rel; auto.
          -- injection E as <- <-. cbn. rewrite fupd_same. now apply pm_done.
        * injection E as <- <-. cbn. rewrite fupd_same. now apply pm_done.
      + destruct k.
        * destruct (p_run s r); try discriminate. injection E as <- <-. cbn. rewrite fupd_same. apply pm_hold; [reflexivity|discriminate].
        * injection E as <- <-. cbn. rewrite fupd_same. apply pm_hold; [reflexivity|discriminate].
        * injection E as <- <-. cbn. rewrite fupd_same. apply pm_hold; [reflexivity|discriminate].
        * injection E as <- <-. cbn. rewrite fupd_same. apply pm_hold; [reflexivity|discriminate].
        * injection E as <- <-. cbn. rewrite fupd_same. now apply pm_done.
      + injection E as <- <-. cbn. rewrite fupd_same. apply pm_rel; eauto.
      + injection E as <- <-. cbn. rewrite fupd_same. now constructor.
    - destruct (p_thr s t) as [|c|k r x ms g p|[|] r g|r] eqn:Q; try discriminate.
      + destruct c as [x ms g p|g ms|g|g|x q|x th]; try discriminate.
        destruct (p_guard s t g) as [r|]; [|discriminate]. destruct (Z.eqb_spec ms (-1)); cbn [orb] in E; [discriminate|]. destruct (p_ev s r); [discriminate|].
        injection E as <- <-. cbn. rewrite fupd_same. eapply pm_out; [reflexivity|right; eauto|assumption|reflexivity].
      + destruct k; try discriminate. destruct (Z.eqb_spec ms (-1)); [discriminate|].
        assert (X : pmoves t (XTimeout t o) (PHold SJoin r x ms g p) (PRet (PErr TimedOut)) [Eff t (PStart x ms g p) (PErr TimedOut)])
          by (eapply pm_out; [reflexivity|left; eauto 7|assumption|reflexivity]).
        destruct (p_run s r); try discriminate; injection E as <- <-; cbn; rewrite fupd_same; exact X.
    - destruct (p_run s r) as [| | | |k th|] eqn:Q; try discriminate.
      + injection E as <- <-. cbn. apply pm_run; [auto|intros v []|intros c []|constructor].
      + destruct (Nat.eqb (p_task s r) 0); injection E as <- <-; cbn.
        * apply pm_run; [auto|intros v []|intros c []|constructor].
        * apply pm_run; [auto| | |constructor].
          -- intros v [X|[X|[X|[]]]]; try discriminate. now injection X.
          -- intros c [X|[X|[X|[]]]]; try discriminate. injection X as <-. right. eauto.
      + destruct k; try discriminate.
        * injection E as <- <-. cbn. apply pm_run; [auto|intros v []|intros c []|constructor].
        * injection E as <- <-. cbn. apply pm_run; [auto|intros v []|intros c []|constructor].
        * injection E as <- <-. cbn. apply pm_run; [auto| | |constructor].
          -- intros v [X|[X|[]]]; try discriminate. now injection X.
          -- intros c [X|[X|[]]]; discriminate.
        * injection E as <- <-. cbn. apply pm_run; [auto|intros v []|intros c []|constructor].
      + injection E as <- <-. cbn. apply pm_run; [auto|intros v []|intros c []|constructor].
    - destruct (p_run s r); try discriminate. destruct (p_thr s r) eqn:Q; try discriminate. injection E as <- <-. cbn. rewrite Q. apply pm_run; [eauto| | |constructor].
      + intros v [X|[]]; discriminate.
      + intros c [X|[]]. injection X as <-. left. auto.
  Qed.
  Lemma pool_other s l s' e u : pstep s l = Some (s', e) -> u <> plab_who l -> p_thr s' u = p_thr s u.
  Proof.
    intros E NE. destruct l as [t c|t|t o|r|r b]; cbn beta iota delta [p_step plab_who] in E, NE;
    repeat match type of E with context [match ?x with _ => _ end] => destruct x; try discriminate E end;
    injection E as <- <-; cbn; rewrite ?fupd_other by assumption; reflexivity.
  Qed.

  Lemma note_push_seen P t : (exists e, note_push P t = e /\ seen t (filter visible e)) /\ (forall v, In (Ret t v) (note_push P t) -> v = PVoid /\ p_thr P t = PIdle) /\ (forall c, ~ In (Call t c) (note_push P t)).
  Proof.
    unfold note_push. destruct (p_thr P t) as [|c|k r x ms g p|[|] r g|r]; try solve [split; [eexists; split; [reflexivity|constructor]|split; [intros v []|intros c' []]]].
    - destruct (p_run P t) as [| | | |[] th|]; try solve [split; [eexists; split; [reflexivity|constructor]|split; [intros v []|intros c' []]]].
      split; [eexists; split; [reflexivity|constructor]|]. split.
      + intros v [X|[X|[]]]; try discriminate. injection X as <-. auto.
      + intros c [X|[X|[]]]; discriminate.
    - split; [eexists; split; [reflexivity|constructor]|]. split; [intros v [X|[]]; discriminate|intros c [X|[]]; discriminate].
  Qed.
  Lemma note_give_up_seen P t : filter visible (note_give_up P t) = [].
  Proof. unfold note_give_up. now destruct (p_thr P t). Qed.
  Lemma st_shape s l s' e : step s l = Some (s', e) -> seen (ps_who l) (filter visible e).
  Proof.
    intros E. destruct l as [l|t|t|t]; cbn beta iota zeta delta [PoolStackModel.t_step ps_who] in E |- *.
    - destruct (on_queue (t_pool s) l) eqn:OQ; [discriminate|]. destruct (pstep (t_pool s) l) as [[P' es]|] eqn:E1; [|discriminate]. injection E as <- <-.
      apply (pool_moves _ _ _ _ OQ) in E1. inversion E1; subst; try constructor; try assumption;
        match goal with h : filter visible _ = [] |- _ => rewrite h; constructor end.
    - destruct (wants N (t_pool s) t) as [c|]; [|discriminate]. destruct (qstep (t_queue s) (QCall t c)) as [[Q' es]|]; [|discriminate]. injection E as <- <-. constructor.
    - destruct (qstep (t_queue s) (QStep t)) as [[Q' es]|]; [|discriminate]. injection E as <- <-.
      destruct (note_push_seen (t_pool s) t) as ((e & -> & S) & _).
      repeat match goal with |- context [match ?x with _ => _ end] => destruct x end; try constructor; exact S.
    - destruct (qstep (t_queue s) (QTimeout t)) as [[Q' es]|]; [|discriminate]. injection E as <- <-. rewrite note_give_up_seen. constructor.
  Qed.
  Lemma resume_other P t res u : u <> t -> p_thr (resume P t res) u = p_thr P u.
  Proof.
    intros NE. unfold resume. destruct (p_thr P t) as [|[x ms g p|g ms|g|g|x q|x th]|k r x ms g p|[|] r g|r]; try reflexivity;
      try (cbn; now rewrite fupd_other).
    destruct res as [e|e [r|]|k|]; try destruct e; cbn; rewrite ?fupd_other by assumption; reflexivity.
  Qed.
  Lemma st_other s l s' e u : step s l = Some (s', e) -> u <> ps_who l -> p_thr (t_pool s') u = p_thr (t_pool s) u /\ q_thr (t_queue s') u = q_thr (t_queue s) u.
  Proof.
    intros E NE. destruct l as [l|t|t|t]; cbn beta iota zeta delta [PoolStackModel.t_step ps_who] in E, NE.
    - destruct (on_queue (t_pool s) l) eqn:OQ; [discriminate|]. destruct (pstep (t_pool s) l) as [[P' es]|] eqn:E1; [|discriminate]. injection E as <- <-.
      split; [exact (pool_other _ _ _ _ u E1 NE)|reflexivity].
    - destruct (wants N (t_pool s) t) as [c|]; [|discriminate]. destruct (qstep (t_queue s) (QCall t c)) as [[Q' es]|] eqn:E1; [|discriminate]. injection E as <- <-.
      split; [reflexivity|exact (mq_other nat size _ _ _ _ u E1 NE)].
    - destruct (qstep (t_queue s) (QStep t)) as [[Q' es]|] eqn:E1; [|discriminate]. injection E as <- <-.
      split; [|exact (mq_other nat size _ _ _ _ u E1 NE)]. cbn.
      destruct (q_thr (t_queue s) t) as [|c pt]; [reflexivity|]. destruct pt; try reflexivity. now apply resume_other.
    - destruct (qstep (t_queue s) (QTimeout t)) as [[Q' es]|] eqn:E1; [|discriminate]. injection E as <- <-. split; [reflexivity|exact (mq_other nat size _ _ _ _ u E1 NE)].
  Qed.
  Lemma since_other (x : tst sst) l u : u <> ps_who l -> (if ps_starts (t_st x) l then fupd (t_since x) (ps_who l) (t_now x) else t_since x) u = t_since x u.
  Proof. intros NE. destruct (ps_starts (t_st x) l); [now rewrite fupd_other|reflexivity]. Qed.

  (** a thread inside the queue, in terms of the pool *)
  Lemma in_queue s a t c pt d : sim s a -> q_thr (t_queue s) t = QAt c pt -> p_thr (t_pool s) t = PAt d ->
    exists x ms g p, d = PStart x ms g p /\ c = QRecv true ms /\ forall res, done_of pt = Some res -> (exists r, res = RRecv OK (Some r)) \/ res = RRecv TimedOut None.
  Proof.
    intros S Q P. pose proof (sm_thr N _ _ S t) as X. rewrite Q, P in X. cbn in X. destruct d as [x ms g p|g ms|g|g|x q|x th]; try contradiction.
    destruct X as (_ & -> & _ & _ & X). exists x, ms, g, p. split; [reflexivity|]. split; [reflexivity|]. intros res D. unfold recv_ok in X. rewrite D in X.
    destruct res as [e|e [r|]|k|]; try contradiction; destruct e; try contradiction; eauto.
  Qed.
  Lemma not_in_queue s a t c pt : sim s a -> q_thr (t_queue s) t = QAt c pt ->
    (exists d, p_thr (t_pool s) t = PAt d) \/ p_thr (t_pool s) t = PIdle \/ exists r g, p_thr (t_pool s) t = PRel true r g.
  Proof.
    intros S Q. pose proof (sm_thr N _ _ S t) as X. rewrite Q in X. cbn in X. destruct (p_thr (t_pool s) t) as [|d|k r x ms g p|[|] r g|r]; try contradiction; eauto.
  Qed.

  Definition J (x : tst sst) : Prop := (exists a own, sim (t_st x) a /\ pinv a own) /\
    forall t, (n <= t)%nat -> p_thr (t_pool (t_st x)) t = PIdle /\ q_thr (t_queue (t_st x)) t = QIdle.
  Lemma ps_J q0 may_tick ls x es : filled N q0 -> exec (ps_timed N dflt ext_prio n may_tick) (t_init (PoolStackModel.t_init dflt q0)) ls = Some (x, es) -> J x.
  Proof.
    intros F E. split.
    - apply timed_exec in E. cbn [t_st t_init] in E. destruct (reach_sim N HN dflt ext_prio q0 _ _ _ F E) as (ls' & a & own & _ & S & H). eauto.
    - revert E. apply (exec_inv_st _ _ _ (ps_timed N dflt ext_prio n may_tick) (fun x => forall t, (n <= t)%nat -> p_thr (t_pool (t_st x)) t = PIdle /\ q_thr (t_queue (t_st x)) t = QIdle)).
      + intros y l y' es' H S t Lt. unfold ps_timed in S. destruct l as [l|].
        * apply t_act_inv in S. destruct S as (W & _ & s' & e & S & _ & ->). cbn [t_st]. destruct (st_other _ _ _ _ t S) as (-> & ->); [lia|]. now apply H.
        * apply t_tick_inv in S. destruct S as (_ & _ & ->). now apply H.
      + intros t _. cbn. split; [reflexivity|]. destruct F as (c & l & e & _ & _ & F). apply F.
  Qed.

  (** ** the moves of the agent that makes a step: its place in the pool and in the queue, before and after; whether it begins to wait; what is seen *)
  Notation start x ms g p := (PAt (PStart x ms g p)).
  Inductive smoves (t : nat) (x : sst) (l : slab) : ppc -> qpc nat -> ppc -> qpc nat -> bool -> list (event pcall pres) -> Prop :=
  | sm_call c : l = TPool (XCall t c) -> smoves t x l PIdle QIdle (PAt c) QIdle true [Call t c]
  | sm_ret r q : smoves t x l (PRet r) q PIdle q false [Ret t r]
  | sm_run p q e : (forall v, In (Ret t v) e -> v = PVoid) -> (forall c, e = [Call t c] -> pool_limit c = None /\ p = PIdle) -> (forall c v, e = [Call t c; Ret t v] -> pool_limit c = None) -> smoves t x l p q p q false e
  | sm_hold k k' r y ms g p q : k' <> SJoin -> smoves t x l (PHold k r y ms g p) q (PHold k' r y ms g p) q false []
  | sm_done p q r q' b : r <> PErr TimedOut -> p <> PIdle -> smoves t x l p q (PRet r) q' b []
  | sm_rel p q b r g q' : p = PAt (PRelease g) \/ (exists b, p = PRel b r g) -> smoves t x l p q (PRel b r g) q' false []
  | sm_out p q ms : ps_expiry x l = Some ms -> (exists r y g i, p = PHold SJoin r y ms g i) \/ (exists g, p = PAt (PWait g ms)) -> ms <> -1 -> smoves t x l p q (PRet (PErr TimedOut)) q false []
  | sm_enter y ms g p : smoves t x l (start y ms g p) QIdle (start y ms g p) (QAt (QRecv true ms) PLockOuter) true []
  | sm_queue y ms g p pt pt' l' e' : moves nat t l' (QAt (QRecv true ms) pt) (QAt (QRecv true ms) pt') e' -> (l' = QTimeout t -> ps_expiry x l = Some ms) ->
      smoves t x l (start y ms g p) (QAt (QRecv true ms) pt) (start y ms g p) (QAt (QRecv true ms) pt') (match pt with PUnlockChk true => true | _ => false end) []
  | sm_back y ms g p r : smoves t x l (start y ms g p) (QAt (QRecv true ms) (MessageQueueModel.PRet (RRecv OK (Some r)))) (PHold SJoin r y ms g p) QIdle true []
  | sm_back_out y ms g p : smoves t x l (start y ms g p) (QAt (QRecv true ms) (MessageQueueModel.PRet (RRecv TimedOut None))) (PRet (PErr TimedOut)) QIdle true []
  | sm_send p q q' b e : p = PIdle \/ (exists r g, p = PRel true r g) -> e = [] \/ (p = PIdle /\ e = [Ret t PVoid]) -> smoves t x l p q p q' b e.

  Lemma st_moves s a l s' e : sim s a -> step s l = Some (s', e) ->
    smoves (ps_who l) s l (p_thr (t_pool s) (ps_who l)) (q_thr (t_queue s) (ps_who l)) (p_thr (t_pool s') (ps_who l)) (q_thr (t_queue s') (ps_who l)) (ps_starts s l) (filter visible e).
  Proof.
    intros S E. destruct l as [l|t|t|t]; cbn beta iota zeta delta [PoolStackModel.t_step ps_who] in E |- *.
    - destruct (on_queue (t_pool s) l) eqn:OQ; [discriminate|]. destruct (pstep (t_pool s) l) as [[P' es]|] eqn:E1; [|discriminate]. injection E as <- <-.
      pose proof (pool_moves _ _ _ _ OQ E1) as MV. set (t := plab_who l) in *. cbn [t_pool t_queue].
      inversion MV as [c' A B D G|r A B D G|p e A K1 K2 K3 B D G|k k' r y ms g p A K1 B D G|p r e A K1 K2 K3 K4 B D G|p b r g A K1 B D G|p o ms e A K1 K2 K3 B D G].
      + assert (QI : q_thr (t_queue s) t = QIdle).
        { apply (agree_callable N s a t c' S); [|now symmetry]. rewrite A in E1. cbn in E1. rewrite <- B in E1. destruct (callable N (t_pool s) t c'); [reflexivity|discriminate]. }
        rewrite QI, A. cbn [ps_starts filter visible]. now constructor.
      + rewrite A. cbn. constructor.
      + assert (XS : ps_starts s (TPool l) = false) by (destruct A as [A|(b & A)]; rewrite A; reflexivity). rewrite XS. apply sm_run.
        * intros v X. apply K1. apply filter_In in X. tauto.
        * intros c X. assert (I : In (Call t c) es) by (assert (I : In (Call t c) (filter visible es)) by (rewrite X; now left); apply filter_In in I; tauto).
          destruct (K2 c I) as [Y|(y & q & ->)]; [exact Y|]. split; [reflexivity|].
          exfalso. clear - E1 A X. destruct A as [A|(b & A)]; rewrite A in E1; cbn in E1; repeat match type of E1 with context [match ?z with _ => _ end] => destruct z; try discriminate E1 end; injection E1 as <- <-; cbn in X; discriminate.
        * intros c v X. assert (I : In (Call t c) es) by (assert (I : In (Call t c) (filter visible es)) by (rewrite X; now left); apply filter_In in I; tauto).
          destruct (K2 c I) as [(Y & _)|(y & q & ->)]; [exact Y|reflexivity].
      + rewrite A. cbn. now constructor.
      + rewrite A, K4. cbn. now constructor.
      + rewrite A. cbn. now constructor.
      + rewrite K3. replace (ps_starts s (TPool l)) with false by (rewrite A; reflexivity). apply (sm_out _ _ _ _ _ ms); [|exact K1|exact K2].
        rewrite A. cbn [ps_expiry]. destruct K1 as [(r & y & g & i & X)|(g & X)]; rewrite X; reflexivity.
    - destruct (wants N (t_pool s) t) as [c|] eqn:W; [|discriminate]. destruct (qstep (t_queue s) (QCall t c)) as [[Q' es]|] eqn:E1; [|discriminate]. injection E as <- <-.
      cbn [t_pool t_queue ps_starts filter]. apply mq_moves in E1. cbn [mq_who] in E1.
      inversion E1 as [c' A B D G| | |? ? ? ? A|? ? ? ? A|]; try discriminate; [|destruct A as [A|[A|(? & A)]]; discriminate]. injection A as <-.
      unfold wants in W. destruct (p_thr (t_pool s) t) as [|[y ms g p|g ms|g|g|y q|y th]|k r y ms g p|[|] r g|r]; try discriminate.
      + apply sm_send; auto.
      + destruct (Nat.eqb y 0); [discriminate|]. injection W as <-. constructor.
      + apply sm_send; eauto.
    - destruct (qstep (t_queue s) (QStep t)) as [[Q' es]|] eqn:E1; [|discriminate]. injection E as <- <-. cbn [t_pool t_queue ps_starts].
      destruct (q_thr (t_queue s) t) as [|c pt] eqn:Q; [cbn in E1; rewrite Q in E1; discriminate|]. pose proof (mq_moves nat size _ _ _ _ E1) as MV. cbn [mq_who] in MV. rewrite Q in MV.
      destruct (not_in_queue s a t c pt S Q) as [(d & P)|[P|(r & g & P)]].
      + destruct (in_queue s a t c pt d S Q P) as (y & ms & g & p & -> & -> & DN). cbn [filter visible].
        assert (QM : (exists res, pt = MessageQueueModel.PRet res) \/ ((forall res, pt <> MessageQueueModel.PRet res) /\ exists pt', q_thr Q' t = QAt (QRecv true ms) pt')).
        { destruct pt; try (left; eauto; fail); right; (split; [discriminate|]); inversion MV; eauto. }
        destruct QM as [(res & ->)|(NR & pt' & Q1)].
        * assert (Q1 : q_thr Q' t = QIdle) by (cbn in E1; rewrite Q in E1; injection E1 as <- <-; cbn; apply fupd_same). rewrite Q1, P. unfold resume. rewrite P.
          destruct (DN res eq_refl) as [(r & ->)| ->]; cbn; rewrite fupd_same; [apply sm_back|apply sm_back_out].
        * rewrite Q1 in MV |- *. replace (match pt with PUnlockChk true | MessageQueueModel.PRet _ => true | _ => false end) with (match pt with PUnlockChk true => true | _ => false end)
            by (destruct pt as [| | | |[]| | | | | | | ]; try reflexivity; exfalso; eapply NR; reflexivity).
          replace (p_thr (match pt with MessageQueueModel.PRet res => resume (t_pool s) t res | _ => t_pool s end) t) with (p_thr (t_pool s) t)
            by (destruct pt; try reflexivity; exfalso; eapply NR; reflexivity).
          rewrite P. eapply sm_queue; [exact MV|discriminate].
      + assert (RP : p_thr (match pt with MessageQueueModel.PRet res => resume (t_pool s) t res | _ => t_pool s end) t = PIdle).
        { destruct pt; try exact P. unfold resume. rewrite P. exact P. }
        rewrite RP, P. apply sm_send; [auto|]. destruct c as [v ms|st ms| |]; auto. destruct pt; auto. unfold note_push. rewrite P. destruct (p_run (t_pool s) t) as [| | | |[] th|]; auto.
      + destruct (p_thr (match pt with MessageQueueModel.PRet res => resume (t_pool s) t res | _ => t_pool s end) t) eqn:RP; [| | | |].
        all: assert (RQ : (exists res, pt = MessageQueueModel.PRet res) \/ p_thr (match pt with MessageQueueModel.PRet res => resume (t_pool s) t res | _ => t_pool s end) t = p_thr (t_pool s) t)
          by (destruct pt; eauto).
        all: destruct RQ as [(res & ->)|RQ]; [unfold resume in RP; rewrite P in RP; cbn in RP; rewrite fupd_same in RP; try discriminate RP|rewrite RP, P in RQ; try discriminate RQ].
        * rewrite P. injection RQ as -> -> ->. assert (EV : filter visible (match c with QSend _ _ => match pt with PSetEv _ => note_push (t_pool s) t | _ => [] end | _ => [] end) = []).
          { destruct c; auto. destruct pt; auto. unfold note_push. now rewrite P. }
          rewrite EV. apply sm_send; eauto.
        * injection RP as <-. rewrite P. destruct c; apply sm_done; discriminate.
    - destruct (qstep (t_queue s) (QTimeout t)) as [[Q' es]|] eqn:E1; [|discriminate]. injection E as <- <-. cbn [t_pool t_queue ps_starts]. rewrite note_give_up_seen.
      destruct (q_thr (t_queue s) t) as [|c pt] eqn:Q; [cbn in E1; rewrite Q in E1; discriminate|]. pose proof (mq_moves nat size _ _ _ _ E1) as MV. cbn [mq_who] in MV. rewrite Q in MV.
      destruct (not_in_queue s a t c pt S Q) as [(d & P)|[P|(r & g & P)]].
      + destruct (in_queue s a t c pt d S Q P) as (y & ms & g & p & -> & -> & DN). rewrite P.
        assert (QM : (pt = PLockOuter \/ pt = MessageQueueModel.PWait) /\ exists pt', q_thr Q' t = QAt (QRecv true ms) pt').
        { inversion MV as [ |c' r' A B D G|c' A B D G|c' p0 p' e' A K1 K2 K3 K4 K5 K6 B D G|c' p0 p' r' A K1 K2 K3 B D G|c' A B D G]; try discriminate; [|eauto].
          destruct A as [A|[A|(? & A)]]; discriminate. }
        destruct QM as (PW & pt' & Q1). rewrite Q1 in MV |- *.
        replace false with (match pt with PUnlockChk true => true | _ => false end) by (destruct PW as [-> | ->]; reflexivity).
        eapply sm_queue; [exact MV|]. intros _. cbn [ps_expiry mq_expiry]. now rewrite Q.
      + rewrite P. apply sm_send; auto.
      + rewrite P. apply sm_send; eauto.
  Qed.

  (** ** not early *)
  Definition ppassed (c : pcall) (t0 now : Z) : Prop := exists m, pool_limit c = Some m /\ t0 + wait_ms m <= now.
  Definition pE (x : tst sst) (t : nat) (t0 : Z) (c : pcall) : Prop :=
    t0 <= t_now x /\
    match p_thr (t_pool (t_st x)) t with
    | PIdle | PRel _ _ _ => True
    | PAt d => d = c /\ (forall g ms, c = PWait g ms -> t0 <= t_since x t) /\
        forall qc pt, q_thr (t_queue (t_st x)) t = QAt qc pt -> (pt = PLockOuter \/ pt = MessageQueueModel.PWait -> t0 <= t_since x t) /\
          (forall res, done_of pt = Some res -> queue_timed_out res -> ppassed c t0 (t_now x))
    | PHold k _ x' ms g p => c = PStart x' ms g p /\ (k = SJoin -> t0 <= t_since x t)
    | PRet r => r = PErr TimedOut -> ppassed c t0 (t_now x)
    end.
  Lemma of_ms_some ms : ms <> -1 -> of_ms ms = Some ms.
  Proof. intros NE. unfold of_ms. destruct (Z.eqb_spec ms (-1)); [contradiction|reflexivity]. Qed.
  Lemma stamp_vis (now : Z) (e : list (event pcall pres)) (f : list (event pcall pres)) : filter vis (map (fun e => (now, e)) e) = map (fun e => (now, e)) f -> filter visible e = f.
  Proof.
    rewrite filter_stamp. generalize (filter visible e). clear. intros l. revert f. induction l as [|a l IH]; intros [|b f] H; try discriminate; [reflexivity|].
    injection H as -> H. f_equal. now apply IH.
  Qed.
  Ltac smv S :=
    inversion S as [zc A B D G K U V|zr zq B D G K U V|zp zq ze A1 A2 A3 B D G K U V|zk zk' zr zy zm zg zi zq A1 B D G K U V|zp zq zr zq' zb A1 A2 B D G K U V|zp zq zb zr zg zq' A1 B D G K U V
      |zp zq zm A1 A2 A3 B D G K U V|zy zm zg zi B D G K U V|zy zm zg zi pt pt' zl ze A1 A2 B D G K U V|zy zm zg zi zr B D G K U V|zy zm zg zi B D G K U V|zp zq zq' zb ze A1 A2 B D G K U V].
  Theorem ps_not_early q0 may_tick ls x es : filled N q0 -> exec (ps_timed N dflt ext_prio n may_tick) (t_init (PoolStackModel.t_init dflt q0)) ls = Some (x, es) ->
    not_early pool_limit pool_timed_out es.
  Proof.
    intros F E.
    destruct (vtimed_calls sst slab pcall pres step ps_who n ps_starts ps_expiry may_tick (fun _ => True) J pE
      (fun t t0 c t1 r => r = PErr TimedOut -> ppassed c t0 t1)) with (x0 := @t_init sst (PoolStackModel.t_init dflt q0)) (ls := ls) (x := x) (es := es) as (_ & H).
    - exact st_shape.
    - intros y l y' es' t c ((a & own & SM & _) & _) _ S FE. apply t_act_inv in S. destruct S as (_ & _ & s' & e & S & -> & ->). apply (stamp_vis _ _ [Call t c]) in FE.
      pose proof (st_moves _ a _ _ _ SM S) as MV. rewrite FE in MV. unfold pE. cbn [t_st t_now t_since]. split; [lia|]. pose proof (st_shape _ _ _ _ S) as SH. rewrite FE in SH.
      assert (W : ps_who l = t) by (inversion SH; congruence). rewrite W in MV |- *.
      smv MV.
      + rewrite fupd_same. split; [reflexivity|]. split; [lia|]. discriminate.
      + destruct (A2 c eq_refl) as (_ & PI). rewrite PI. exact I.
      + destruct A2 as [A2|(_ & A2)]; discriminate.
    - intros y l y' es' t t0 c ((a & own & SM & _) & _) _ (T0 & Pt) S HR. apply t_act_inv in S. destruct S as (_ & X & s' & e & S & -> & ->).
      unfold pE. cbn [t_st t_now t_since]. split; [exact T0|].
      assert (HR' : forall z, In z (filter visible e) -> about t z = false) by (intros z Z; apply (HR (t_now y, z)); apply in_map_iff; apply filter_In in Z; exists z; tauto). clear HR.
      destruct (Nat.eq_dec t (ps_who l)) as [TW|NE].
      2:{ destruct (st_other _ _ _ _ t S NE) as (-> & ->). rewrite (since_other y l t NE). exact Pt. }
      pose proof (st_moves _ a _ _ _ SM S) as MV. rewrite <- TW in MV |- *. rewrite <- TW in X.
      smv MV; try (match type of B with ?v = _ => is_var v; fail 1 | _ => rewrite <- B in Pt end); try (rewrite <- V in HR').
      + specialize (HR' _ (or_introl eq_refl)). cbn in HR'. rewrite Nat.eqb_refl in HR'. discriminate.
      + specialize (HR' _ (or_introl eq_refl)). cbn in HR'. rewrite Nat.eqb_refl in HR'. discriminate.
      + exact Pt.
      + destruct Pt as (-> & _). split; [reflexivity|]. intros Y. contradiction.
      + intros Y. contradiction.
      + exact I.
      + intros _. specialize (X _ A1). destruct A2 as [(r & y0 & g & i & P)|(g & P)]; rewrite P in Pt.
        * destruct Pt as (-> & SI). specialize (SI eq_refl). exists zm. split; [now apply of_ms_some|]. unfold wait_ms. lia.
        * destruct Pt as (<- & SI & _). specialize (SI g zm eq_refl). exists zm. split; [now apply of_ms_some|]. unfold wait_ms. lia.
      + destruct Pt as (<- & _ & _). split; [reflexivity|]. split; [discriminate|]. intros qc pt Y. injection Y as <- <-. rewrite fupd_same. split; [auto|discriminate].
      + destruct Pt as (<- & P1 & P2). split; [reflexivity|]. split; [discriminate|]. rewrite <- D in P2. destruct (P2 _ _ eq_refl) as (P3 & P4). intros qc q1 Y. injection Y as <- <-.
        clear MV. inversion A1 as [ | |c1 Y1 Y2 Y3 Y4|c1 p0 p' e' Y1 K1 K2 K3 K4 K5 K6|c1 p0 p' r' Y1 K1 K2 K3|c1 Y1]; subst.
        * rewrite fupd_same. split; [auto|discriminate].
        * split; [intros [? | ?]; contradiction|]. intros res Hr TO. destruct (K4 res Hr) as [Q|Q]; [exact (P4 res Q TO)|contradiction].
        * split; [destruct K1 as [-> | ->]; intros [-> | ->]; discriminate|]. intros res _ _. specialize (X _ (A2 eq_refl)). specialize (P3 K1). cbn in K2.
          exists zm. split; [now apply of_ms_some|]. unfold wait_ms. lia.
        * split; [intros [? | ?]; discriminate|discriminate].
      + destruct Pt as (<- & _ & _). split; [reflexivity|]. intros _. now rewrite fupd_same.
      + destruct Pt as (<- & _ & P2). rewrite <- D in P2. destruct (P2 _ _ eq_refl) as (_ & P4). intros _. apply (P4 _ eq_refl). right. eauto.
      + destruct A1 as [P|(r & g & P)]; rewrite P; exact I.
    - intros y y' es' t t0 c _ (T0 & Pt) S. apply t_tick_inv in S. destruct S as (_ & _ & ->). unfold pE. cbn [t_st t_now t_since]. split; [lia|].
      assert (PM : ppassed c t0 (t_now y) -> ppassed c t0 (t_now y + 1)) by (intros (m & A & B); exists m; split; [exact A|lia]).
      destruct (p_thr (t_pool (t_st y)) t); auto. destruct Pt as (A & B & D). split; [exact A|]. split; [exact B|]. intros qc pt Q. destruct (D qc pt Q) as (D1 & D2). split; [exact D1|].
      intros res R TO. apply PM. exact (D2 res R TO).
    - intros y l y' es' t t0 c r ((a & own & SM & _) & _) _ (T0 & Pt) S FE TO. apply t_act_inv in S. destruct S as (_ & X & s' & e & S & -> & ->). apply (stamp_vis _ _ [Ret t r]) in FE.
      pose proof (st_shape _ _ _ _ S) as SH. rewrite FE in SH. assert (W : ps_who l = t) by (inversion SH; congruence).
      pose proof (st_moves _ a _ _ _ SM S) as MV. rewrite FE, W in MV. subst r.
      smv MV.
      + rewrite <- B in Pt. subst zr. exact (Pt eq_refl).
      + specialize (A1 _ (or_introl eq_refl)). discriminate.
      + destruct A2 as [A2|(_ & A2)]; discriminate.
    - intros y l y' es' t c r ((a & own & SM & _) & _) _ S FE TO. apply t_act_inv in S. destruct S as (_ & X & s' & e & S & -> & ->). apply (stamp_vis _ _ [Call t c; Ret t r]) in FE.
      pose proof (st_shape _ _ _ _ S) as SH. rewrite FE in SH. assert (W : ps_who l = t) by (inversion SH; congruence).
      pose proof (st_moves _ a _ _ _ SM S) as MV. rewrite FE, W in MV. subst r.
      smv MV.
      + specialize (A1 _ (or_intror (or_introl eq_refl))). discriminate.
      + destruct A2 as [A2|(_ & A2)]; discriminate.
    - auto.
    - intros ls1 ls2 x1 e1 _ E1. exact (ps_J q0 may_tick ls1 x1 e1 F E1).
    - exact E.
    - intros t t0 c t1 r T TO. exact (H t t0 c t1 r T TO).
  Qed.

  (** ** not late *)
  Hypothesis Nn : (N <= n)%nat.
  Notation urg := (ps_urgent N dflt ext_prio n).
  Notation ustep := (ps_timed N dflt ext_prio n urg).
  Definition qpart (x : tst sst) : tst (qst nat) := mkT (t_queue (t_st x)) (t_now x) (t_since x).
  Lemma can_false x l : negb (can N dflt ext_prio x l) = true -> step x l = None.
  Proof. unfold can. destruct (step x l); [discriminate|reflexivity]. Qed.
  Record calm (x : tst sst) : Prop := mkCalm {
    cm_step : forall t, (t < n)%nat -> step (t_st x) (TPool (XStep t)) = None;
    cm_enter : forall t, (t < n)%nat -> step (t_st x) (TEnter t) = None;
    cm_queue : forall t, (t < n)%nat -> step (t_st x) (TQueue t) = None;
    cm_run : forall t, (t < n)%nat -> step (t_st x) (TPool (XRun t)) = None;
    cm_give : forall t, (t < n)%nat -> step (t_st x) (TGiveUp t) = None \/ due sst slab ps_who ps_expiry x (TGiveUp t) = false;
    cm_out : forall t, (t < n)%nat -> step (t_st x) (TPool (XTimeout t None)) = None \/ due sst slab ps_who ps_expiry x (TPool (XTimeout t None)) = false }.
  Lemma urg_calm x : urg x = true -> calm x.
  Proof.
    intros U. unfold ps_urgent in U. pose proof (forallb_seq _ _ U) as U'. cbn beta in U'. clear U.
    assert (A : forall t, (t < n)%nat -> negb (can N dflt ext_prio (t_st x) (TPool (XStep t))) = true /\ negb (can N dflt ext_prio (t_st x) (TEnter t)) = true /\
      negb (can N dflt ext_prio (t_st x) (TQueue t)) = true /\ negb (can N dflt ext_prio (t_st x) (TPool (XRun t))) = true /\
      negb (can N dflt ext_prio (t_st x) (TGiveUp t) && due sst slab ps_who ps_expiry x (TGiveUp t)) = true /\
      negb (can N dflt ext_prio (t_st x) (TPool (XTimeout t None)) && due sst slab ps_who ps_expiry x (TPool (XTimeout t None))) = true).
    { intros t Lt. specialize (U' t Lt). apply andb_prop in U'. destruct U' as (U' & V). cbn [forallb] in V. apply andb_prop in V. destruct V as (V1 & V2). rewrite andb_true_r in V2.
      apply andb_prop in U'. destruct U' as (U' & U4). apply andb_prop in U'. destruct U' as (U' & U3). apply andb_prop in U'. destruct U' as (U1 & U2). auto 8. }
    assert (D : forall l, negb (can N dflt ext_prio (t_st x) l && due sst slab ps_who ps_expiry x l) = true -> step (t_st x) l = None \/ due sst slab ps_who ps_expiry x l = false).
    { intros l X. apply negb_true_iff in X. apply andb_false_iff in X. destruct X as [X|X]; [left; apply can_false; now rewrite X|now right]. }
    split; intros t Lt; destruct (A t Lt) as (A1 & A2 & A3 & A4 & A5 & A6); try (apply can_false; assumption); now apply D.
  Qed.
  Lemma calm_queue x : calm x -> mq_urgent nat size n (qpart x) = true.
  Proof.
    intros CM. unfold mq_urgent, urgent. apply forallb_forall. intros t Ht. apply in_seq in Ht. assert (Lt : (t < n)%nat) by lia. cbn [qpart t_st].
    pose proof (cm_queue x CM t Lt) as Q. cbn beta iota zeta delta [PoolStackModel.t_step] in Q.
    destruct (qstep (t_queue (t_st x)) (QStep t)) as [[? ?]|]; [discriminate|]. cbn [andb].
    destruct (cm_give x CM t Lt) as [G|G].
    - cbn beta iota zeta delta [PoolStackModel.t_step] in G. destruct (qstep (t_queue (t_st x)) (QTimeout t)) as [[? ?]|]; [discriminate|reflexivity].
    - destruct (qstep (t_queue (t_st x)) (QTimeout t)) as [[? ?]|]; [|reflexivity]. apply negb_true_iff. exact G.
  Qed.
  Lemma J_qgood x : J x -> good nat size n (qpart x).
  Proof.
    intros ((a & own & SM & _) & ID). split; cbn [qpart t_st].
    - exact (sm_q N _ _ SM).
    - intros t Lt. unfold q_idle. exact (proj2 (ID t Lt)).
  Qed.
  (** when time passes, an agent with a call waits in the queue, or for a task, or for a thread *)
  Lemma calm_join x a own t r y ms g p : sim (t_st x) a -> pinv a own -> calm x -> (t < n)%nat -> p_thr (t_pool (t_st x)) t = PHold SJoin r y ms g p -> False.
  Proof.
    intros SM IV CM Lt P.
    pose proof (sm_thr N _ _ SM t) as TT. rewrite P in TT. unfold thr_ok in TT. destruct (q_thr (t_queue (t_st x)) t) as [|c pt]; [|contradiction].
    destruct TT as (PA & _ & _). pose proof (iv_thr N dflt ext_prio a own IV t) as CO. unfold client_ok in CO. rewrite PA in CO. destruct CO as (Lr & OW & _).
    pose proof (iv_run N dflt ext_prio a own IV r Lr) as RO. rewrite OW in RO. cbn in RO. rewrite PA in RO. destruct RO as (_ & _ & _ & Qu & _).
    pose proof (cm_step x CM t Lt) as ST. cbn beta iota zeta delta [PoolStackModel.t_step on_queue p_step] in ST. rewrite P in ST.
    pose proof (sm_thr N _ _ SM r) as TR. unfold thr_ok in TR. assert (Lr' : (r < n)%nat) by lia.
    pose proof (cm_run x CM r Lr') as RU. cbn beta iota zeta delta [PoolStackModel.t_step on_queue p_step] in RU.
    assert (CASE : p_run (t_pool (t_st x)) r = WOff \/ p_run (t_pool (t_st x)) r = WEnd \/ exists c pt, q_thr (t_queue (t_st x)) r = QAt c pt /\ after_set pt = true).
    { destruct (q_thr (t_queue (t_st x)) r) as [|c pt] eqn:Q.
      - destruct TR as (_ & <- & _). destruct Qu; auto.
      - destruct (p_thr (t_pool (t_st x)) r) as [|[x' ms' g' p'|g' ms'|g'|g'|x' q'|x' th]|k' r' x' ms' g' p'|[|] r' g'|r'] eqn:PR; try contradiction.
        + destruct TR as (_ & _ & _ & _ & th & W & WA). destruct (after_set pt) eqn:AS; [right; right; eauto|]. rewrite WA in Qu. destruct Qu; discriminate.
        + destruct TR as (_ & _ & <- & _). destruct Qu; auto.
        + destruct TR as (_ & <- & _). destruct Qu; auto. }
    destruct CASE as [C|[C|(c & pt & Q & AS)]].
    - rewrite C in ST. discriminate.
    - rewrite C in RU. discriminate.
    - pose proof (cm_queue x CM r Lr') as QU. cbn beta iota zeta delta [PoolStackModel.t_step q_step] in QU. rewrite Q in QU. destruct pt; discriminate.
  Qed.

  Variable k : Z.
  Variable rel : nat -> pcall -> Prop.
  Variable J' : tst sst -> Prop.
  Hypothesis k12 : k = 1 \/ k = 2.
  Hypothesis J'_J : forall x, J' x -> J x.
  Hypothesis J'_outer : forall x t y ms g p, J' x -> rel t (PStart y ms g p) -> p_thr (t_pool (t_st x)) t = PAt (PStart y ms g p) ->
    q_thr (t_queue (t_st x)) t = QAt (QRecv true ms) PLockOuter -> q_mrecv (t_queue (t_st x)) <> None -> k = 2.
  (** what holds, at a point [pt] of timedReceive, of the time since the call *)
  Definition qtime (pt : point nat) (since now t0 w : Z) : Prop :=
    match pt with
    | PLockOuter => since = t0 /\ now <= t0 + (k - 1) * w
    | MessageQueueModel.PWait => since <= t0 + (k - 1) * w /\ now <= since + w
    | PLockChk | PChk | PResetEv | PUnlockChk _ => now <= t0 + (k - 1) * w
    | _ => now <= t0 + k * w
    end.
  Definition pL (x : tst sst) (t : nat) (t0 : Z) (c : pcall) : Prop :=
    forall m, rel t c -> pool_limit c = Some m -> t0 <= t_now x /\ (t < n)%nat /\
    match p_thr (t_pool (t_st x)) t with
    | PIdle | PRel _ _ _ => False
    | PAt d => d = c /\
        match c with
        | PStart _ _ _ _ => match q_thr (t_queue (t_st x)) t with QIdle => t_now x = t0 | QAt _ pt => qtime pt (t_since x t) (t_now x) t0 (wait_ms m) end
        | PWait _ _ => t_since x t = t0 /\ t_now x <= t0 + wait_ms m
        | _ => t_now x = t0
        end
    | PHold _ _ _ _ _ _ | PRet _ => t_now x <= t0 + k * wait_ms m
    end.
  Lemma wait_nonneg m : 0 <= wait_ms m. Proof. unfold wait_ms. lia. Qed.
  Lemma qtime_bound pt since now t0 w : 0 <= w -> qtime pt since now t0 w -> now <= t0 + k * w.
  Proof. intros W H. destruct pt; cbn in H; nia. Qed.
  Lemma p_bound x t t0 c m : pL x t t0 c -> rel t c -> pool_limit c = Some m -> t0 <= t_now x <= t0 + k * wait_ms m.
  Proof.
    intros P R Lm. destruct (P m R Lm) as (T0 & _ & Pt). split; [exact T0|]. pose proof (wait_nonneg m) as WN. assert (K1 : 1 <= k) by (destruct k12; lia).
    destruct (p_thr (t_pool (t_st x)) t) as [|d| | |]; try contradiction; try exact Pt. destruct Pt as (_ & Pt).
    destruct c; try nia. destruct (q_thr (t_queue (t_st x)) t) as [|qc pt]; [nia|]. exact (qtime_bound _ _ _ _ _ WN Pt).
  Qed.
  Lemma ps_late q0 ls x es : filled N q0 -> exec ustep (t_init (PoolStackModel.t_init dflt q0)) ls = Some (x, es) ->
    (forall ls1 ls2 x1 e1, ls = ls1 ++ ls2 -> exec ustep (t_init (PoolStackModel.t_init dflt q0)) ls1 = Some (x1, e1) -> J' x1) ->
    (forall t t0 c m t1 r, rel t c -> took es t t0 c t1 r -> pool_limit c = Some m -> t0 <= t1 <= t0 + k * wait_ms m) /\
    (forall t t0 c m, rel t c -> pending es t t0 c -> pool_limit c = Some m -> t0 <= t_now x <= t0 + k * wait_ms m).
  Proof.
    intros F E HJ.
    destruct (vtimed_calls sst slab pcall pres step ps_who n ps_starts ps_expiry urg (fun _ => True) J' pL
      (fun t t0 c t1 r => forall m, rel t c -> pool_limit c = Some m -> t0 <= t1 <= t0 + k * wait_ms m)) with (x0 := @t_init sst (PoolStackModel.t_init dflt q0)) (ls := ls) (x := x) (es := es) as (HP & H).
    - exact st_shape.
    - intros y l y' es' t c JJ _ S FE. destruct (J'_J _ JJ) as ((a & own & SM & _) & _). apply t_act_inv in S. destruct S as (Wn & _ & s' & e & S & -> & ->). apply (stamp_vis _ _ [Call t c]) in FE.
      pose proof (st_moves _ a _ _ _ SM S) as MV. rewrite FE in MV. intros m R Lm. cbn [t_st t_now t_since]. split; [lia|]. pose proof (st_shape _ _ _ _ S) as SH. rewrite FE in SH.
      assert (W : ps_who l = t) by (inversion SH; congruence). rewrite W in MV, Wn |- *. split; [exact Wn|].
      smv MV.
      + rewrite fupd_same. split; [reflexivity|]. pose proof (wait_nonneg m). destruct c; auto. lia.
      + destruct (A2 c eq_refl) as (LN & _). congruence.
      + destruct A2 as [A2|(_ & A2)]; discriminate.
    - intros y l y' es' t t0 c JJ _ Pt0 S HR m R Lm. pose proof (p_bound y t t0 c m Pt0 R Lm) as QB. destruct (Pt0 m R Lm) as (T0 & Tn & Pt). clear Pt0.
      destruct (J'_J _ JJ) as ((a & own & SM & _) & _). apply t_act_inv in S. destruct S as (_ & X & s' & e & S & -> & ->).
      cbn [t_st t_now t_since]. split; [exact T0|]. split; [exact Tn|].
      assert (HR' : forall z, In z (filter visible e) -> about t z = false) by (intros z Z; apply (HR (t_now y, z)); apply in_map_iff; apply filter_In in Z; exists z; tauto). clear HR.
      destruct (Nat.eq_dec t (ps_who l)) as [TW|NE].
      2:{ destruct (st_other _ _ _ _ t S NE) as (-> & ->). rewrite (since_other y l t NE). exact Pt. }
      pose proof (st_moves _ a _ _ _ SM S) as MV. rewrite <- TW in MV |- *. rewrite <- TW in X. pose proof (wait_nonneg m) as WN.
      smv MV; try (match type of B with ?v = _ => is_var v; fail 1 | _ => rewrite <- B in Pt end); try (rewrite <- V in HR').
      + contradiction.
      + specialize (HR' _ (or_introl eq_refl)). cbn in HR'. rewrite Nat.eqb_refl in HR'. discriminate.
      + exact Pt.
      + exact Pt.
      + lia.
      + destruct A1 as [A1|(zb' & A1)]; rewrite A1 in Pt; [|contradiction]. destruct Pt as (<- & _). discriminate.
      + lia.
      + rewrite <- D in Pt. destruct Pt as (<- & Pt). split; [reflexivity|]. cbn. rewrite fupd_same. assert (K1 : 1 <= k) by (destruct k12; lia). nia.
      + rewrite <- D in Pt. destruct Pt as (<- & Pt). split; [reflexivity|].
        clear MV. inversion A1 as [ | |c1 Y1 Y2 Y3 Y4|c1 p0 p' e' Y1 K1 K2 K3 K4 K5 K6|c1 p0 p' r' Y1 K1 K2 K3|c1 Y1]; subst.
        * rewrite fupd_same. cbn in Pt |- *. lia.
        * replace (match pt with PUnlockChk true => true | _ => false end) with false by (destruct pt as [| | | |[]| | | | | | | ]; try reflexivity; now elim K1).
          destruct pt'; try contradiction; cbn; try lia;
          (destruct K5 as (Z1 & Z2 & Z3 & Z4); [reflexivity|discriminate|discriminate|]; destruct pt; try discriminate; try contradiction; cbn in Pt; lia).
        * destruct pt'; try discriminate; cbn; lia.
        * exact Pt.
      + lia.
      + lia.
      + destruct A1 as [P|(r & g & P)]; rewrite P in Pt; contradiction.
    - intros y y' es' t t0 c JJ Pt0 S m R Lm. destruct (Pt0 m R Lm) as (T0 & Tn & Pt). clear Pt0. apply t_tick_inv in S. destruct S as (U & _ & ->). cbn [t_st t_now t_since].
      split; [lia|]. split; [exact Tn|]. pose proof (urg_calm y U) as CM. pose proof (J'_J _ JJ) as JY. destruct JY as ((a & own & SM & IV) & ID).
      pose proof (cm_step y CM t Tn) as ST. cbn beta iota zeta delta [PoolStackModel.t_step on_queue p_step] in ST.
      destruct (p_thr (t_pool (t_st y)) t) as [|d|kk r x' ms g p|b r g|r] eqn:P; try contradiction; [| |discriminate ST].
      + destruct Pt as (-> & Pt). split; [reflexivity|]. destruct c as [x' ms g p|g ms|g|g|x' q|x' th]; try discriminate.
        * destruct (q_thr (t_queue (t_st y)) t) as [|qc pt] eqn:Q.
          -- exfalso. destruct (Nat.eqb x' 0) eqn:X0; [discriminate ST|].
             pose proof (cm_enter y CM t Tn) as EN. cbn beta iota zeta delta [PoolStackModel.t_step] in EN.
             assert (WT : wants N (t_pool (t_st y)) t = Some (QRecv true ms)) by (unfold wants; now rewrite P, X0). rewrite WT in EN. cbn beta iota zeta delta [q_step] in EN. rewrite Q in EN. discriminate.
          -- destruct (in_queue _ a t qc pt _ SM Q P) as (x1 & ms1 & g1 & p1 & EQ & -> & _). injection EQ as <- <- <- <-.
             destruct (mq_tick_shape nat size n (qpart y) (J_qgood y (J'_J _ JJ)) (calm_queue y CM) t) as [Y|(d & pt' & Y & W & B)]; [unfold q_idle in Y|]; cbn [qpart t_st t_now t_since] in *; rewrite Q in Y; [discriminate|].
             injection Y as <- <-. cbn [tmout outer is_send] in *. cbn in Lm. unfold of_ms in Lm. destruct (Z.eqb_spec ms (-1)) as [|NE]; [discriminate|]. injection Lm as <-.
             specialize (B NE). pose proof (wait_nonneg ms) as WN. assert (WM : ms <= wait_ms ms) by (unfold wait_ms; lia).
             destruct W as [-> |(-> & O)]; cbn in Pt |- *; [lia|]. pose proof (J'_outer y t x' ms g p JJ R P Q O) as ->. lia.
        * destruct (p_guard (t_pool (t_st y)) t g) as [r|] eqn:GD; [|discriminate ST]. destruct (p_ev (t_pool (t_st y)) r) eqn:EV; [discriminate ST|].
          cbn in Lm. unfold of_ms in Lm. destruct (Z.eqb_spec ms (-1)) as [|NE]; [discriminate|]. injection Lm as <-.
          destruct (cm_out y CM t Tn) as [O|O].
          -- cbn beta iota zeta delta [PoolStackModel.t_step on_queue p_step] in O. rewrite P, GD, EV in O. destruct (Z.eqb_spec ms (-1)); [contradiction|]. discriminate.
          -- unfold due in O. cbn [ps_expiry ps_who plab_who] in O. rewrite P in O. apply Z.leb_gt in O. destruct Pt as (SI & Pt). unfold wait_ms. lia.
      + exfalso. destruct kk; try discriminate ST. eapply (calm_join y a own t r x' ms g p SM IV CM Tn). exact P.
    - intros y l y' es' t t0 c r _ _ Pt S FE m R Lm. exact (p_bound y t t0 c m Pt R Lm).
    - intros y l y' es' t c r _ _ S FE m R Lm. pose proof (wait_nonneg m). destruct k12; nia.
    - auto.
    - exact HJ.
    - exact E.
    - split; [intros t t0 c m t1 r R T Lm; exact (H _ _ _ _ _ T m R Lm)|]. intros t t0 c m R T Lm. exact (p_bound x t t0 c m (HP _ _ _ T) R Lm).
  Qed.
End P.

Section Final.
  Variable N : nat.
  Hypothesis HN : Z.of_nat N < 2 ^ 64 - 1.
  Variables (dflt : Z) (ext_prio : nat -> Z) (n : nat).
  Hypothesis Nn : (N <= n)%nat.
  Notation size := (Z.of_nat N).
  Notation step := (sstep N dflt ext_prio).
  Notation urg := (ps_urgent N dflt ext_prio n).
  Notation ustep := (ps_timed N dflt ext_prio n urg).
  Variable q0 : qst nat.
  Hypothesis F : filled N q0.
  Notation x0 := (@t_init sst (PoolStackModel.t_init dflt q0)).

  Theorem ps_not_late ls x es : exec ustep x0 ls = Some (x, es) -> not_late pool_limit 2 (t_now x) es.
  Proof.
    intros E. destruct (ps_late N HN dflt ext_prio n Nn 2 (fun _ _ => True) (J N dflt ext_prio n) (or_intror eq_refl) (fun x h => h)) with (q0 := q0) (ls := ls) (x := x) (es := es) as (A & B).
    - reflexivity.
    - exact F.
    - exact E.
    - intros ls1 ls2 x1 e1 _ E1. exact (ps_J N HN dflt ext_prio n q0 urg ls1 x1 e1 F E1).
    - split; [intros t t0 c m t1 r T Lm; exact (A t t0 c m t1 r I T Lm)|intros t t0 c m T Lm; exact (B t t0 c m I T Lm)].
  Qed.
  Theorem ps_guard_not_late ls x es : exec ustep x0 ls = Some (x, es) -> not_late guard_limit 1 (t_now x) es.
  Proof.
    intros E.
    destruct (ps_late N HN dflt ext_prio n Nn 1 (fun _ c => forall y ms g p, c <> PStart y ms g p) (J N dflt ext_prio n) (or_introl eq_refl) (fun x h => h)) with (q0 := q0) (ls := ls) (x := x) (es := es) as (A & B).
    - intros y t z ms g p _ X. exfalso. exact (X z ms g p eq_refl).
    - exact F.
    - exact E.
    - intros ls1 ls2 x1 e1 _ E1. exact (ps_J N HN dflt ext_prio n q0 urg ls1 x1 e1 F E1).
    - assert (G : forall c m, guard_limit c = Some m -> (forall y ms g p, c <> PStart y ms g p) /\ pool_limit c = Some m).
      { intros c m X. destruct c; try discriminate X; (split; [discriminate|exact X]). }
      split; [intros t t0 c m t1 r T Lm; destruct (G c m Lm) as (G1 & G2); exact (A t t0 c m t1 r G1 T G2)|intros t t0 c m T Lm; destruct (G c m Lm) as (G1 & G2); exact (B t t0 c m G1 T G2)].
  Qed.
  (** the only one who starts tasks does not wait for m_mtxRecv *)
  Theorem ps_alone ls x es a : exec ustep x0 ls = Some (x, es) ->
    (forall u y ms g p, In (TAct (TPool (XCall u (PStart y ms g p)))) ls -> u = a) ->
    forall t0 y ms g p, ms <> -1 ->
      (forall t1 r, took es a t0 (PStart y ms g p) t1 r -> t0 <= t1 <= t0 + wait_ms ms) /\
      (pending es a t0 (PStart y ms g p) -> t0 <= t_now x <= t0 + wait_ms ms).
  Proof.
    intros E HL.
    set (alone := fun x : tst sst => forall u y ms g p, p_thr (t_pool (t_st x)) u = PAt (PStart y ms g p) -> u = a).
    assert (AL : forall ls1 ls2 x1 e1, ls = ls1 ++ ls2 -> exec ustep x0 ls1 = Some (x1, e1) -> alone x1).
    { intros ls1. induction ls1 as [|l ls1 IH] using rev_ind; intros ls2 x1 e1 EQ E1.
      - cbn in E1. injection E1 as <- _. intros u y ms g p X. discriminate.
      - rewrite exec_app in E1. destruct (exec ustep x0 ls1) as [[x2 e2]|] eqn:E2; [|discriminate]. cbn [exec] in E1.
        destruct (ustep x2 l) as [[x3 e3]|] eqn:S; [|discriminate]. injection E1 as <- _.
        rewrite <- app_assoc in EQ. specialize (IH _ _ _ EQ eq_refl). unfold ps_timed in S. destruct l as [l|].
        + pose proof (ps_J N HN dflt ext_prio n q0 urg ls1 x2 e2 F E2) as ((b & own & SM & _) & _).
          apply t_act_inv in S. destruct S as (_ & _ & s' & e & S & _ & ->). intros u y ms g p X. cbn [t_st] in X.
          destruct (Nat.eq_dec u (ps_who l)) as [->|NE]; [|destruct (st_other N dflt ext_prio _ _ _ _ u S NE) as (Y & _); rewrite Y in X; exact (IH u y ms g p X)].
          pose proof (st_moves N HN dflt ext_prio _ b _ _ _ SM S) as MV. rewrite X in MV.
          inversion MV; subst; try (eapply IH; symmetry; eassumption); try (eapply IH; eassumption).
          eapply HL. apply in_or_app. right. left. f_equal. eassumption.
        + apply t_tick_inv in S. destruct S as (_ & _ & ->). exact IH. }
    intros t0 y ms g p NE.
    destruct (ps_late N HN dflt ext_prio n Nn 1 (fun u c => u = a) (fun x => J N dflt ext_prio n x /\ alone x) (or_introl eq_refl) (fun x h => proj1 h)) with (q0 := q0) (ls := ls) (x := x) (es := es) as (A & B).
    - intros z t y' ms' g' p' (((b & own & SM & IV) & _) & AO) -> P Q O. exfalso.
      destruct (q_mrecv (t_queue (t_st z))) as [u|] eqn:X; [|congruence]. destruct (sm_q N _ _ SM) as (es1 & I).
      apply (qi_recv _ _ _ _ I) in X. destruct (q_thr (t_queue (t_st z)) u) as [|d pt] eqn:Qu; [discriminate|].
      assert (ua : u = a).
      { destruct (not_in_queue N _ _ _ _ _ SM Qu) as [(c & Pu)|Pu].
        - destruct (in_queue N _ _ _ _ _ _ SM Qu Pu) as (x1 & ms1 & g1 & p1 & -> & _). exact (AO _ _ _ _ _ Pu).
        - pose proof (sm_thr N _ _ SM u) as TT. rewrite Qu in TT. cbn in TT. destruct Pu as [Pu|(r & g1 & Pu)]; rewrite Pu in TT; destruct d; try discriminate X; exfalso; intuition discriminate. }
      subst u. rewrite Q in Qu. injection Qu as <- <-. discriminate.
    - exact F.
    - exact E.
    - intros ls1 ls2 x1 e1 EQ E1. split; [exact (ps_J N HN dflt ext_prio n q0 urg ls1 x1 e1 F E1)|exact (AL ls1 ls2 x1 e1 EQ E1)].
    - assert (Lm : pool_limit (PStart y ms g p) = Some ms) by (cbn; unfold of_ms; destruct (Z.eqb_spec ms (-1)); [contradiction|reflexivity]).
      split; [intros t1 r T; specialize (A a t0 _ ms t1 r eq_refl T Lm); lia|intros T; specialize (B a t0 _ ms eq_refl T Lm); lia].
  Qed.

  (** the clock never stops *)
  Theorem ps_time_goes_on ls0 x es0 : exec ustep x0 ls0 = Some (x, es0) ->
    exists ls x1 es1, (length ls <= 293 * n + 111 * N)%nat /\ exec ustep x ls = Some (x1, es1) /\ t_now x1 = t_now x /\
      ustep x1 TTick = Some (mkT (t_st x1) (t_now x + 1) (t_since x1), []).
  Proof.
    intros E. destruct (ps_J N HN dflt ext_prio n q0 urg ls0 x es0 F E) as (_ & ID).
    apply (clock_goes_on sst slab pcall pres step ps_who n ps_starts ps_expiry urg t_own_step).
    - clear. intros x U. unfold ps_urgent in U.
      assert (G : forall (f : nat -> bool) l, forallb f l = false -> exists t, In t l /\ f t = false).
      { intros f. induction l as [|b l IH]; cbn; [discriminate|]. destruct (f b) eqn:Fb; [|eauto]. intros H. destruct (IH H) as (t & A & B). eauto. }
      destruct (G _ _ U) as (t & A & B). clear G U. cbn beta in B. apply in_seq in A. assert (Ltb : Nat.ltb t n = true) by (apply Nat.ltb_lt; lia).
      assert (GO : forall l, ps_who l = t -> can N dflt ext_prio (t_st x) l = true -> due sst slab ps_who ps_expiry x l = true -> t_own_step l ->
        exists l x' es, t_own_step l /\ t_step sst slab pcall pres step ps_who n ps_starts ps_expiry urg x (TAct l) = Some (x', es)).
      { intros l W C D O. exists l. unfold can in C. destruct (step (t_st x) l) as [[s' e]|] eqn:S; [|discriminate].
        unfold t_step. rewrite W, Ltb, D, S. cbn [andb]. eexists _, _. split; [exact O|reflexivity]. }
      assert (NE : forall l, ps_expiry (t_st x) l = None -> due sst slab ps_who ps_expiry x l = true) by (intros l X; unfold due; now rewrite X).
      cbn [forallb] in B. rewrite !andb_false_iff in B. rewrite !negb_false_iff, !andb_true_iff in B.
      destruct B as [[[[B|B]|B]|B]|[(B & D)|[(B & D)|B]]]; [| | | | | |discriminate].
      + apply (GO (TPool (XStep t))); auto. exact I.
      + apply (GO (TEnter t)); auto. exact I.
      + apply (GO (TQueue t)); auto. exact I.
      + apply (GO (TPool (XRun t))); auto. exact I.
      + apply (GO (TGiveUp t)); auto. exact I.
      + apply (GO (TPool (XTimeout t None))); auto. exact I.
    - intros ls s' es O X. apply (stack_bounded_work N HN dflt ext_prio q0 n (acts slab ls0) (t_st x) (map snd es0) ls s' es F); [exact (timed_exec _ _ _ _ _ _ _ _ _ _ _ _ _ _ E)| |exact O|exact X].
      intros t Lt. exact (proj1 (ID t Lt)).
  Qed.
End Final.
