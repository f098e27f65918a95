(** OS/ThreadPoolModel and OS/PoolStackModel again, when nothing moves but for time-outs: what a start, a wait or a release waits for does
    not depend on its time limit. *)
From Coq Require Import List ZArith Bool Lia Arith.
Import ListNotations.
From Verif Require Import Spec.OSError Spec.Linear Spec.MessageQueueSpec OS.Sched OS.MessageQueueModel OS.MessageQueueProofs Spec.ThreadPoolSpec OS.ThreadPoolModel
  OS.ThreadPoolProofs OS.ThreadPoolLiveness OS.PoolStackModel OS.PoolStackProofs.
Local Open Scope nat_scope.

Section S.
  Variable N : nat.
  Hypothesis HN : (Z.of_nat N < 2 ^ 64 - 1)%Z.
  Variable dflt : Z.
  Variable ext_prio : nat -> Z.
  Notation size := (Z.of_nat N).
  Notation pstep := (p_step N dflt ext_prio).
  Notation tstep := (t_step N dflt ext_prio).
  Notation qstep := (q_step nat size).
  Notation rep := (ring_rep nat (rbBufSize size)).
  Notation step := pstep.
  Notation Inv := (Inv N dflt ext_prio).
  Notation pinv := Inv.
  Notation sim := (sim N).

  Definition p_still (s : pst) : Prop := (forall t, pstep s (XStep t) = None) /\ forall r, pstep s (XRun r) = None.
  Definition t_still (s : tst) : Prop :=
    (forall t, qstep (t_queue s) (QStep t) = None) /\ (forall t, q_thr (t_queue s) t = QIdle -> wants N (t_pool s) t = None) /\
    (forall t, on_queue (t_pool s) (XStep t) = false -> pstep (t_pool s) (XStep t) = None) /\ (forall r, on_queue (t_pool s) (XRun r) = false -> pstep (t_pool s) (XRun r) = None).
  Lemma moves_still s : (forall l, t_moves l -> tstep s l = None) -> t_still s.
  Proof.
    intros ST. split; [|split; [|split]].
    - intros t. pose proof (ST (TQueue t) I) as X. cbn [t_step] in X. destruct (qstep (t_queue s) (QStep t)) as [[? ?]|]; [discriminate|reflexivity].
    - intros t Q. pose proof (ST (TEnter t) I) as X. cbn [t_step] in X. destruct (wants N (t_pool s) t) as [c|]; [|reflexivity]. cbn in X. rewrite Q in X. discriminate.
    - intros t OQ. pose proof (ST (TPool (XStep t)) I) as X. cbn beta iota zeta delta [t_step] in X. rewrite OQ in X. destruct (pstep (t_pool s) (XStep t)) as [[? ?]|]; [discriminate|reflexivity].
    - intros t OQ. pose proof (ST (TPool (XRun t)) I) as X. cbn beta iota zeta delta [t_step] in X. rewrite OQ in X. destruct (pstep (t_pool s) (XRun t)) as [[? ?]|]; [discriminate|reflexivity].
  Qed.

  Lemma still_threads s own : Inv s own -> p_still s ->
    (forall r, r < N -> p_run s r = WOff \/ p_run s r = WIn) /\ (forall r t, r < N -> own r <> OClient t).
  Proof.
    intros H ST.
    assert (A : forall r, r < N -> p_run s r = WOff \/ p_run s r = WIn).
    { intros r Hr. pose proof (proj2 ST r) as X. cbn [p_step] in X. destruct (p_run s r) as [| | | |[] th|] eqn:ER; auto; try discriminate.
      - destruct (p_task s r =? 0); discriminate.
      - exfalso. destruct (run_owner N dflt ext_prio s own r H Hr) as [(j & Q)|(t & g & j & Q)]; [rewrite ER; intros [?|?]; discriminate| |];
        rewrite (queue_room N dflt ext_prio s own r H Hr ltac:(congruence)) in X; discriminate X. }
    split; [exact A|]. intros r t Hr E. pose proof (iv_run _ _ _ _ _ H r Hr) as RO. rewrite E in RO. cbn in RO. destruct RO as (_ & RO).
    pose proof (proj1 ST t) as X. cbn in X. destruct (p_thr s t) as [|c|k r' x ms g p|b r' g|rr] eqn:ET; try contradiction. destruct RO as (-> & NX & RO).
    destruct k; try discriminate. destruct (A r Hr) as [Y|Y]; rewrite Y in *; [discriminate|]. destruct RO as ([?|?] & _); discriminate.
  Qed.
  Lemma still_calls s own : Inv s own -> p_still s -> forall t,
    p_idle s t \/
    (exists x ms g p, p_thr s t = PAt (PStart x ms g p) /\ p_q s = []) \/
    (exists g r, ((exists ms, p_thr s t = PAt (PWait g ms)) \/ p_thr s t = PAt (PRelease g)) /\ r < N /\ p_guard s t g = Some r /\ p_run s r = WIn).
  Proof.
    intros H ST t. destruct (still_threads s own H ST) as (A & B).
    pose proof (proj1 ST t) as X. cbn [p_step] in X. unfold p_idle.
    pose proof (iv_thr _ _ _ _ _ H t) as CO. unfold client_ok in CO.
    destruct (p_thr s t) as [|c|k r x ms g p|b r g|rr] eqn:ET; [auto| | | |discriminate]; right.
    - assert (GW : forall g r, p_guard s t g = Some r -> (forall b, p_thr s t <> PRel b r g) -> p_ev s r = false -> r < N /\ p_run s r = WIn).
      { intros g r EG NR EV. destruct (iv_guard _ _ _ _ _ H _ _ _ EG) as (Hr & j & HO). split; [exact Hr|]. pose proof (iv_run _ _ _ _ _ H r Hr) as RO. rewrite HO in RO. cbn in RO.
        destruct (A r Hr) as [Z|Z]; [|exact Z]. rewrite Z in RO. destruct RO as (_ & _ & _ & _ & _ & _ & [W|(_ & W)]); [congruence|now elim (NR true)]. }
      destruct c as [x ms g p|g ms|g|g|x q|x th]; try discriminate; try contradiction.
      + left. destruct (x =? 0); [discriminate|]. destruct (p_q s); [eauto 6|discriminate].
      + right. destruct (p_guard s t g) as [r|] eqn:EG; [|discriminate]. destruct (p_ev s r) eqn:EV; [discriminate|].
        destruct (GW g r EG) as (Z1 & Z2); [intros b; rewrite ET; discriminate|exact EV|]. exists g, r. split; [eauto|auto].
      + right. destruct (p_guard s t g) as [r|] eqn:EG; [|discriminate]. destruct (p_ev s r) eqn:EV; [discriminate|].
        destruct (GW g r EG) as (Z1 & Z2); [intros b; rewrite ET; discriminate|exact EV|]. exists g, r. split; [eauto|auto].
    - exfalso. destruct CO as (Hr & HO & _). exact (B r t Hr HO).
    - exfalso. destruct b; [|discriminate]. destruct CO as (EG & _). destruct (iv_guard _ _ _ _ _ H _ _ _ EG) as (Hr & j & HO).
      rewrite (queue_room N dflt ext_prio s own r H Hr ltac:(congruence)) in X; discriminate X.
  Qed.

  (** who has thread r, when nothing moves *)
  Lemma still_where s own : Inv s own -> p_still s -> forall r, r < N ->
    In r (p_q s) \/ p_run s r = WIn \/ (exists t g, p_guard s t g = Some r) \/ own r = OLost.
  Proof.
    intros H ST r Hr. destruct (still_threads s own H ST) as (A & B). pose proof (iv_run _ _ _ _ _ H r Hr) as RO.
    destruct (own r) as [|v|j|v g j|] eqn:EO; auto.
    - left. apply (iv_q _ _ _ _ _ H). auto.
    - exfalso. exact (B r v Hr EO).
    - cbn in RO. destruct (A r Hr) as [Y|Y]; rewrite Y in *; tauto.
    - cbn in RO. destruct RO as (_ & _ & _ & _ & G & _). right. right. left. exists v, g. exact G.
  Qed.
  Theorem still_waits ls s es : exec step (p_init N dflt) ls = Some (s, es) -> p_still s ->
    exists lost, length lost <= count_eff timed_out (effects es) /\ forall t,
    p_idle s t \/
    (exists x ms g p, p_thr s t = PAt (PStart x ms g p) /\ forall r, r < N -> In r lost \/ p_run s r = WIn \/ exists t' g', p_guard s t' g' = Some r) \/
    (exists g r, ((exists ms, p_thr s t = PAt (PWait g ms)) \/ p_thr s t = PAt (PRelease g)) /\ r < N /\ p_guard s t g = Some r /\ p_run s r = WIn).
  Proof.
    intros E ST. destruct (reach N dflt ext_prio ls s es E) as (own & f & sg & H & L & T). destruct (lost_set N dflt ext_prio ls s es own f sg E H L T) as (lost & LL & LI).
    exists lost. split; [exact LL|]. intros t.
    destruct (still_calls s own H ST t) as [A|[(x & ms & g & p & A & B)|A]]; [now left| |now right; right]. right. left. exists x, ms, g, p. split; [exact A|].
    intros r Hr. destruct (still_where s own H ST r Hr) as [X|[X|[X|X]]]; [rewrite B in X; destruct X|now right; left|now right; right|left; now apply LI].
  Qed.

  Theorem still_same s a own : sim s a -> pinv a own -> t_still s ->
    p_still a /\ rep (q_ring (t_queue s)) (p_q a) /\
    forall t, p_thr a t = p_thr (t_pool s) t /\ p_run a t = p_run (t_pool s) t /\ (forall g, p_guard a t g = p_guard (t_pool s) t g) /\
              (q_thr (t_queue s) t <> QIdle -> exists x ms g p, p_thr (t_pool s) t = PAt (PStart x ms g p)).
  Proof.
    intros S H ST. pose proof S as [[qe SQ] SR SN STK SE SP SV SPQ SH].
    destruct (qi_q _ _ _ _ SQ) as (q & R & PC & W & _). pose proof (ring_rep_unique _ _ _ _ _ R SR) as ->.
    destruct ST as (QS & WANT & TX & TR).
    assert (RB : q_mrb (t_queue s) = None).
    { destruct (q_mrb (t_queue s)) as [u|] eqn:X; [|reflexivity]. apply (qi_rb _ _ _ _ SQ) in X. specialize (QS u). cbn in QS. destruct (q_thr (t_queue s) u) as [|c p]; [discriminate|]. destruct p; discriminate. }
    assert (US : unsig (t_queue s) = []) by (unfold unsig; now rewrite RB).
    rewrite US, app_nil_r in *.
    assert (NS : forall c, ~ signaller nat (q_thr (t_queue s)) c). { intros c (u & c' & r & X & _). specialize (QS u). cbn in QS. rewrite X in QS. discriminate. }
    assert (HH : forall t, q_thr (t_queue s) t = QIdle \/ exists c, q_thr (t_queue s) t = QAt c MessageQueueModel.PWait \/ q_thr (t_queue s) t = QAt c PLockOuter /\ outer (t_queue s) c <> None).
    { intros t. specialize (QS t). cbn in QS. destruct (q_thr (t_queue s) t) as [|c p]; [now left|right]. exists c.
      destruct p; try discriminate; try (rewrite RB in QS; discriminate).
      - right. split; [reflexivity|]. destruct (outer (t_queue s) c); discriminate.
      - now left. }
    assert (WB : forall t c, q_thr (t_queue s) t = QAt c MessageQueueModel.PWait -> wait_bit (t_queue s) c = false /\ ~ nb nat size c (p_q a)).
    { intros t c X. pose proof (W t c MessageQueueModel.PWait X eq_refl) as Wt. specialize (QS t). cbn in QS. rewrite X in QS. unfold wait_bit in *.
      destruct (if is_send c then q_nf (t_queue s) else q_ne (t_queue s)); [discriminate|]. split; [reflexivity|]. destruct Wt as [Wt|Wt]; [exact Wt|now elim (NS c)]. }
    (* a thread that is being given back finds room *)
    assert (ROOM : forall t, q_thr (t_queue s) t <> QIdle -> (forall st ms pt, q_thr (t_queue s) t <> QAt (QRecv st ms) pt) -> (forall c pt, q_thr (t_queue s) t = QAt c pt -> after_set pt = false) -> length (p_q a) < N).
    { intros t NI NR AS. pose proof (SH t) as X. destruct (q_thr (t_queue s) t) as [|c pt] eqn:Q; [congruence|]. specialize (AS c pt eq_refl). cbn in X.
      destruct (p_thr (t_pool s) t) as [|[y ms g p|g ms|g|g|y q|y th]|k r' y ms g p|[|] r' g|r'] eqn:PT; try contradiction.
      - destruct X as (LN & _ & _ & _ & th & _ & WA). rewrite AS in WA. apply Nat.ltb_lt. apply (queue_room N dflt ext_prio a own t H LN). intros O.
        pose proof (iv_run _ _ _ _ _ H t LN) as RO. rewrite O in RO. destruct RO as ([Y|Y] & _); rewrite WA in Y; discriminate.
      - destruct X as (_ & -> & _). now elim (NR true ms pt).
      - destruct X as (_ & _ & X). rewrite AS in X. destruct X as (PA & _). pose proof (iv_thr _ _ _ _ _ H t) as CO. unfold client_ok in CO. rewrite PA in CO. destruct CO as (GG & _).
        destruct (iv_guard _ _ _ _ _ H _ _ _ GG) as (Hr & j & O). apply Nat.ltb_lt. apply (queue_room N dflt ext_prio a own r' H Hr). congruence. }
    assert (SENDW : forall t v ms, q_thr (t_queue s) t <> QAt (QSend v ms) MessageQueueModel.PWait).
    { intros t v ms Q. destruct (WB t _ Q) as (_ & X). cbn in X. apply X. rewrite Nat2Z.id. apply (ROOM t); rewrite Q; try discriminate. intros c pt E. injection E as <- <-. reflexivity. }
    assert (NOSEND : forall t v ms pt, q_thr (t_queue s) t <> QAt (QSend v ms) pt).
    { intros t v ms pt Q. destruct (HH t) as [X|(c & [X|(X & O)])]; rewrite Q in X; try discriminate; injection X as <- ->; [exact (SENDW t v ms Q)|].
      cbn in O. destruct (q_msend (t_queue s)) as [u|] eqn:Y; [|congruence]. apply (qi_send _ _ _ _ SQ) in Y.
      destruct (HH u) as [Z|(d & [Z|(Z & _)])]; rewrite Z in Y; cbn in Y; try discriminate; destruct d as [v' ms'| | |]; try discriminate. exact (SENDW u v' ms' Z). }
    assert (RECV : forall t, q_thr (t_queue s) t <> QIdle -> exists x ms g p, x <> 0 /\ p_thr (t_pool s) t = PAt (PStart x ms g p) /\ p_thr a t = PAt (PStart x ms g p) /\ p_q a = [] /\ p_run a t = p_run (t_pool s) t /\ forall g, p_guard a t g = p_guard (t_pool s) t g).
    { intros t NI. pose proof (SH t) as X.  destruct (HH t) as [Q|(c & HQ)]; [contradiction|].
      destruct (q_thr (t_queue s) t) as [|c' pt] eqn:Q; [congruence|]. destruct (calls_sr _ _ _ _ _ _ _ _ _ _ X) as [(r & ->)|(ms & ->)]; [now elim (NOSEND t r (-1)%Z pt)|].
      destruct (at_recv _ _ _ _ _ _ _ _ _ _ X) as (x & g & p & PT & NX & WA & G & RO).
      assert (EMP : p_q a = []).
      { destruct HQ as [HQ|(HQ & O)]; injection HQ as <- ->.
        - destruct (WB t _ Q) as (_ & Y). cbn in Y. destruct (p_q a); [reflexivity|]. elim Y. discriminate.
        - cbn in O. destruct (q_mrecv (t_queue s)) as [u|] eqn:Y; [|congruence]. apply (qi_recv _ _ _ _ SQ) in Y.
          destruct (HH u) as [Z|(d & [Z|(Z & _)])]; rewrite Z in Y; cbn in Y; try discriminate; destruct d; try discriminate.
          destruct (WB u _ Z) as (_ & Y'). cbn in Y'. destruct (p_q a); [reflexivity|]. elim Y'. discriminate. }
      exists x, ms, g, p. refine (conj NX (conj PT (conj _ (conj EMP (conj WA G))))).
      destruct HQ as [HQ|(HQ & _)]; injection HQ as _ ->; exact RO. }
    assert (SAME : forall t, p_thr a t = p_thr (t_pool s) t /\ p_run a t = p_run (t_pool s) t /\ forall g, p_guard a t g = p_guard (t_pool s) t g).
    { intros t. destruct (q_thr (t_queue s) t) as [|c pt] eqn:Q; [exact (agree_thr N s a t S Q)|]. destruct (RECV t) as (x & ms & g & p & _ & E1 & E2 & _ & E3 & E4); [rewrite Q; discriminate|]. rewrite E1, E2. auto. }
    split; [|split; [exact SR|]].
    - split.
      + intros t. destruct (q_thr (t_queue s) t) as [|c pt] eqn:Q.
        * pose proof (WANT t Q) as WT. assert (OQ : on_queue (t_pool s) (XStep t) = false).
          { cbn. unfold wants in WT. destruct (p_thr (t_pool s) t) as [|[x ms g p|g ms|g|g|x q|x th]|k r x ms g p|[|] r g|r]; try reflexivity; [|discriminate]. destruct (x =? 0); [reflexivity|discriminate]. }
          exact (idle_back N HN dflt ext_prio s a t S Q OQ (TX t OQ)).
        * destruct (RECV t) as (x & ms & g & p & NX & _ & E & EMP & _); [rewrite Q; discriminate|]. cbn [p_step]. apply Nat.eqb_neq in NX. now rewrite E, EMP, NX.
      + intros r. apply (thread_back N dflt ext_prio s a r S).
        * intros th WA. destruct (q_thr (t_queue s) r) as [|c pt] eqn:Q.
          -- pose proof (WANT r Q) as WT. destruct (agree_thr N s a r S Q) as (E1 & E2 & _).
             assert (LN : r < N). { destruct (Nat.lt_ge_cases r N) as [L|L]; [exact L|]. pose proof (iv_off _ _ _ _ _ H r L) as Y. congruence. }
             unfold wants in WT. destruct (p_thr (t_pool s) r) eqn:PT.
             ++ apply Nat.ltb_lt in LN. rewrite LN, WA in WT. discriminate.
             ++ pose proof (call_in N dflt ext_prio a own r H) as Y. rewrite E1 in Y. specialize (Y ltac:(discriminate) LN). congruence.
             ++ pose proof (call_in N dflt ext_prio a own r H) as Y. rewrite E1 in Y. specialize (Y ltac:(discriminate) LN). congruence.
             ++ pose proof (call_in N dflt ext_prio a own r H) as Y. rewrite E1 in Y. specialize (Y ltac:(discriminate) LN). congruence.
             ++ pose proof (call_in N dflt ext_prio a own r H) as Y. rewrite E1 in Y. specialize (Y ltac:(discriminate) LN). congruence.
          -- destruct (RECV r) as (x & ms & g & p & NX & _ & E & EMP & E2 & _); [rewrite Q; discriminate|].
             assert (LN : r < N). { destruct (Nat.lt_ge_cases r N) as [L|L]; [exact L|]. pose proof (iv_off _ _ _ _ _ H r L) as Y. congruence. }
             pose proof (call_in N dflt ext_prio a own r H) as Y. rewrite E in Y. specialize (Y ltac:(discriminate) LN). congruence.
        * destruct (on_queue (t_pool s) (XRun r)) eqn:OQ; [|now apply TR]. cbn in OQ. destruct (p_run (t_pool s) r) as [| | | |[| | | |] th|] eqn:WA; try discriminate.
          exfalso. destruct (SAME r) as (E1 & E2 & _). assert (LN : r < N). { destruct (Nat.lt_ge_cases r N) as [L|L]; [exact L|]. pose proof (iv_off _ _ _ _ _ H r L) as Y. congruence. }
          destruct (q_thr (t_queue s) r) as [|c pt] eqn:Q.
          -- pose proof (WANT r Q) as WT. unfold wants in WT. apply Nat.ltb_lt in LN as LB. rewrite LB, WA in WT. pose proof (call_in N dflt ext_prio a own r H) as Y. rewrite E1 in Y.
             destruct (p_thr (t_pool s) r); [discriminate|specialize (Y ltac:(discriminate) LN); congruence ..].
          -- destruct (RECV r) as (x & ms & g & p & NX & _ & E & EMP & E3 & _); [rewrite Q; discriminate|]. pose proof (call_in N dflt ext_prio a own r H) as Y. rewrite E in Y. specialize (Y ltac:(discriminate) LN). congruence.
    - intros t. destruct (SAME t) as (E1 & E2 & E3). repeat (split; [assumption|]). intros NI. destruct (RECV t NI) as (x & ms & g & p & _ & E & _). eauto.
  Qed.

  Theorem stack_still_waits q0 ls s es : filled N q0 -> exec tstep (t_init dflt q0) ls = Some (s, es) -> t_still s ->
    exists lost, length lost <= count_eff timed_out (effects es) /\ forall t,
    t_idle s t \/
    (exists x ms g p, p_thr (t_pool s) t = PAt (PStart x ms g p) /\
       forall r, r < N -> In r lost \/ p_run (t_pool s) r = WIn \/ exists t' g', p_guard (t_pool s) t' g' = Some r) \/
    (exists g r, ((exists ms, p_thr (t_pool s) t = PAt (PWait g ms)) \/ p_thr (t_pool s) t = PAt (PRelease g)) /\ r < N /\ p_guard (t_pool s) t g = Some r /\ p_run (t_pool s) r = WIn).
  Proof.
    intros F E ST. destruct (reach_sim N HN dflt ext_prio q0 ls s es F E) as (ls' & a & own & EA & S & H). destruct (still_same s a own S H ST) as (SA & _ & SAME).
    destruct (still_waits ls' a es EA SA) as (lost & LL & C). exists lost. split; [exact LL|]. intros t. unfold t_idle, p_idle in *.
    destruct (SAME t) as (E1 & E2 & E3 & _). rewrite <- E1. destruct (C t) as [X|[(x & ms & g & p & X & Y)|(g & r & X & Hr & Y & Z)]]; [now left|right; left|right; right].
    - exists x, ms, g, p. split; [exact X|]. intros r Hr. destruct (SAME r) as (_ & E4 & _). rewrite <- E4. destruct (Y r Hr) as [Y'|[Y'|(t' & g' & Y')]]; auto. right; right. exists t', g'.
      destruct (SAME t') as (_ & _ & E5 & _). now rewrite <- E5.
    - destruct (SAME r) as (_ & E4 & _). exists g, r. rewrite <- E3, <- E4. auto.
  Qed.
  Theorem stack_waits_for q0 ls s es : filled N q0 -> exec tstep (t_init dflt q0) ls = Some (s, es) -> (forall l, t_moves l -> tstep s l = None) ->
    exists lost, length lost <= count_eff timed_out (effects es) /\ forall t,
    t_idle s t \/
    (exists x ms g p, p_thr (t_pool s) t = PAt (PStart x ms g p) /\
       forall r, r < N -> In r lost \/ p_run (t_pool s) r = WIn \/ exists t' g', p_guard (t_pool s) t' g' = Some r) \/
    (exists g r, ((exists ms, p_thr (t_pool s) t = PAt (PWait g ms)) \/ p_thr (t_pool s) t = PAt (PRelease g)) /\ r < N /\ p_guard (t_pool s) t g = Some r /\ p_run (t_pool s) r = WIn).
  Proof. intros F E ST. exact (stack_still_waits q0 ls s es F E (moves_still s ST)). Qed.
End S.
