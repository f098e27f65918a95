(** More proofs about OS/ThreadPoolModel: progress, availability, the refutation. *)
From Coq Require Import List ZArith Bool Arith Lia Permutation.
Import ListNotations.
From Verif Require Import Spec.OSError Spec.Linear Spec.ThreadPoolSpec OS.Sched OS.ThreadPoolModel OS.ThreadPoolProofs.

Section L.
  Variable N : nat.
  Variable dflt : Z.
  Variable ext_prio : nat -> Z.
  Notation step := (p_step N dflt ext_prio).
  Notation Inv := (Inv N dflt ext_prio).

  (** at rest: no call in progress, every thread Finished *)
  Definition at_rest (s : pst) : Prop := (forall t, p_idle s t) /\ forall r, r < N -> p_run s r = WOff.

  Lemma stuck_threads s own : Inv s own -> p_stuck N dflt ext_prio s ->
    (forall r, r < N -> p_run s r = WOff \/ p_run s r = WIn) /\ (forall r t, r < N -> own r <> OClient t).
  Proof.
    intros H ST.
    assert (A : forall r, r < N -> p_run s r = WOff \/ p_run s r = WIn).
    { intros r Hr. pose proof (ST (XRun r) I) as X. cbn [p_step] in X. destruct (p_run s r) as [| | | |[] th|] eqn:ER; auto; try discriminate.
      - destruct (p_task s r =? 0); discriminate.
      - exfalso. destruct (run_owner N dflt ext_prio s own r H Hr) as [(j & Q)|(t & g & j & Q)]; [rewrite ER; intros [?|?]; discriminate| |];
        rewrite (queue_room N dflt ext_prio s own r H Hr ltac:(congruence)) in X; discriminate X. }
    split; [exact A|]. intros r t Hr E. pose proof (iv_run _ _ _ _ _ H r Hr) as RO. rewrite E in RO. cbn in RO. destruct RO as (_ & RO).
    pose proof (ST (XStep t) I) as X. cbn in X. destruct (p_thr s t) as [|c|k r' x ms g p|b r' g|rr] eqn:ET; try contradiction. destruct RO as (-> & NX & RO).
    destruct k; try discriminate. destruct (A r Hr) as [Y|Y]; rewrite Y in *; [discriminate|]. destruct RO as ([?|?] & _); discriminate.
  Qed.
  Lemma stuck_calls s own : Inv s own -> p_stuck N dflt ext_prio s -> forall t,
    p_idle s t \/
    (exists x g p, p_thr s t = PAt (PStart x (-1)%Z g p) /\ p_q s = []) \/
    (exists g r, (p_thr s t = PAt (PWait g (-1)%Z) \/ p_thr s t = PAt (PRelease g)) /\ r < N /\ p_guard s t g = Some r /\ p_run s r = WIn).
  Proof.
    intros H ST t. destruct (stuck_threads s own H ST) as (A & B).
    pose proof (ST (XStep t) I) as X. pose proof (ST (XTimeout t None) I) as Y. cbn [p_step] in X, Y. unfold p_idle.
    pose proof (iv_thr _ _ _ _ _ H t) as CO. unfold client_ok in CO.
    destruct (p_thr s t) as [|c|k r x ms g p|b r g|rr] eqn:ET; [auto| | | |discriminate]; right.
    - assert (GW : forall g r, p_guard s t g = Some r -> (forall b, p_thr s t <> PRel b r g) -> p_ev s r = false -> r < N /\ p_run s r = WIn).
      { intros g r EG NR EV. destruct (iv_guard _ _ _ _ _ H _ _ _ EG) as (Hr & j & HO). split; [exact Hr|]. pose proof (iv_run _ _ _ _ _ H r Hr) as RO. rewrite HO in RO. cbn in RO.
        destruct (A r Hr) as [Z|Z]; [|exact Z]. rewrite Z in RO. destruct RO as (_ & _ & _ & _ & _ & _ & [W|(_ & W)]); [congruence|now elim (NR true)]. }
      destruct c as [x ms g p|g ms|g|g|x q|x th]; try discriminate; try contradiction.
      + left. destruct (x =? 0); [discriminate|]. destruct (p_q s); [|discriminate]. cbn [orb] in Y. destruct (Z.eqb_spec ms (-1)) as [->|]; [eauto|discriminate].
      + right. destruct (p_guard s t g) as [r|] eqn:EG; [|discriminate]. destruct (p_ev s r) eqn:EV; [discriminate|].
        destruct (Z.eqb_spec ms (-1)) as [->|]; [|discriminate]. destruct (GW g r EG) as (Z1 & Z2); [intros b; rewrite ET; discriminate|exact EV|]. exists g, r. auto.
      + right. destruct (p_guard s t g) as [r|] eqn:EG; [|discriminate]. destruct (p_ev s r) eqn:EV; [discriminate|].
        destruct (GW g r EG) as (Z1 & Z2); [intros b; rewrite ET; discriminate|exact EV|]. exists g, r. auto.
    - exfalso. destruct CO as (Hr & HO & _). exact (B r t Hr HO).
    - exfalso. destruct b; [|discriminate]. destruct CO as (EG & _). destruct (iv_guard _ _ _ _ _ H _ _ _ EG) as (Hr & j & HO).
      rewrite (queue_room N dflt ext_prio s own r H Hr ltac:(congruence)) in X; discriminate X.
  Qed.

  (** who has thread r, when nothing moves *)
  Lemma stuck_where s own : Inv s own -> p_stuck N dflt ext_prio s -> forall r, r < N ->
    In r (p_q s) \/ p_run s r = WIn \/ (exists t g, p_guard s t g = Some r) \/ own r = OLost.
  Proof.
    intros H ST r Hr. destruct (stuck_threads s own H ST) as (A & B). pose proof (iv_run _ _ _ _ _ H r Hr) as RO.
    destruct (own r) as [|v|j|v g j|] eqn:EO; auto.
    - left. apply (iv_q _ _ _ _ _ H). auto.
    - exfalso. exact (B r v Hr EO).
    - cbn in RO. destruct (A r Hr) as [Y|Y]; rewrite Y in *; tauto.
    - cbn in RO. destruct RO as (_ & _ & _ & _ & G & _). right. right. left. exists v, g. exact G.
  Qed.
  Lemma lost_count es sg : sp_run (pspec_lossy N ext_prio) all_free (effects es) sg ->
    count_eff timed_out (effects es) = 0 -> forall r, r < N -> sg r <> Lost.
  Proof.
    intros R E r Hr X. destruct (tasks_balance N ext_prio _ _ _ 0 R) as (_ & _ & L). rewrite E, (count_all_free is_lost N eq_refl) in L.
    assert (P : 1 <= count_places is_lost sg N); [|lia]. unfold count_places.
    assert (I : In r (filter (fun k => is_lost (sg k)) (seq 0 N))) by (apply filter_In; split; [apply in_seq; lia|now rewrite X]).
    destruct (filter (fun k => is_lost (sg k)) (seq 0 N)); [destruct I|cbn; lia].
  Qed.
  (** as long as no start has timed out, no thread is missing *)
  Lemma none_lost ls s es own f sg : exec step (p_init N dflt) ls = Some (s, es) -> Inv s own ->
    lin_run (pspec_lossy N ext_prio) (fun _ => Out) all_free es f sg -> tracks N s own f sg ->
    count_eff timed_out (effects es) = 0 -> forall r, r < N -> own r <> OLost.
  Proof.
    intros E H L (TA & TB) C r Hr X. apply lin_run_effects in L. apply (lost_count es sg L C r Hr). now rewrite (TB r Hr), X.
  Qed.

  (** * Bounded work *)
  Definition cw (q : ppc) : nat :=
    match q with
    | PIdle => 0 | PRet _ => 1
    | PAt (PStart _ _ _ _) => 20 | PAt (PRelease _) => 5 | PAt _ => 2
    | PHold SJoin _ _ _ _ _ => 19 | PHold STask _ _ _ _ _ => 18 | PHold SNeeds _ _ _ _ _ => 17 | PHold SPrio _ _ _ _ _ => 16 | PHold SGo _ _ _ _ _ => 15
    | PRel false _ _ => 4 | PRel true _ _ => 3
    end.
  Definition ww (w : wpc) : nat :=
    match w with
    | WOff | WIn => 0 | WEnd => 1 | WAfter ASend _ => 2 | WAfter AReset _ => 3 | WAfter ANotify _ => 2 | WAfter ANeeds _ => 4 | WAfter APrio _ => 5
    | WRead => 6 | WStarted => 7
    end.
  Definition work (n : nat) (s : pst) : nat := sumn (fun t => cw (p_thr s t)) n + sumn (fun r => ww (p_run s r)) N.
  Definition quiet_from (n : nat) (s : pst) : Prop := forall t, n <= t -> p_thr s t = PIdle.

  Lemma work_thr n s t q : t < n -> cw q < cw (p_thr s t) ->
    sumn (fun u => cw (fupd (p_thr s) t q u)) n + (cw (p_thr s t) - cw q) = sumn (fun u => cw (p_thr s u)) n.
  Proof.
    intros Ht L. pose proof (sumn_change n (fun u => cw (p_thr s u)) (fun u => cw (fupd (p_thr s) t q u)) t Ht) as S. cbn beta in S.
    rewrite fupd_same in S. assert (X := S (fun u Nu => ltac:(now rewrite (fupd_other _ t q u Nu)))). lia.
  Qed.
  Lemma work_run s r w : r < N -> sumn (fun u => ww (fupd (p_run s) r w u)) N + ww (p_run s r) = sumn (fun u => ww (p_run s u)) N + ww w.
  Proof.
    intros Hr. pose proof (sumn_change N (fun u => ww (p_run s u)) (fun u => ww (fupd (p_run s) r w u)) r Hr) as S. cbn beta in S.
    rewrite fupd_same in S. apply S. intros u Nu. now rewrite fupd_other.
  Qed.
  Lemma quiet_upd n s t q : quiet_from n s -> t < n -> forall u, n <= u -> fupd (p_thr s) t q u = PIdle.
  Proof. intros H Ht u Hu. rewrite fupd_other; [now apply H|lia]. Qed.

  Lemma work_step n s own l s' es : Inv s own -> quiet_from n s -> p_own_step l -> step s l = Some (s', es) -> quiet_from n s' /\ work n s' < work n s.
  Proof.
    intros H Q P E. unfold work.
    assert (TN : forall t, p_thr s t <> PIdle -> t < n) by (intros t X; destruct (Nat.lt_ge_cases t n) as [Y|Y]; [exact Y|elim X; now apply Q]).
    destruct l as [t c|t|t other|r|r threw]; try contradiction; cbn [p_step] in E.
    - assert (Ht : t < n) by (apply TN; intros X; rewrite X in E; discriminate).
      assert (FIN : forall q s1, p_thr s1 = fupd (p_thr s) t q -> p_run s1 = p_run s -> cw q < cw (p_thr s t) ->
        quiet_from n s1 /\ sumn (fun t => cw (p_thr s1 t)) n + sumn (fun r => ww (p_run s1 r)) N < sumn (fun t => cw (p_thr s t)) n + sumn (fun r => ww (p_run s r)) N).
      { intros q s1 E1 E2 L. rewrite E1, E2. split; [unfold quiet_from; rewrite E1; now apply quiet_upd|]. pose proof (work_thr n s t q Ht L). lia. }
      destruct (p_thr s t) as [|c|k r x ms g p|b r g|rr] eqn:ET; [discriminate| | | |].
      + destruct c as [x ms g p|g ms|g|g|x q|x th]; try discriminate.
        * destruct (x =? 0); [|destruct (p_q s); [discriminate|]]; injection E as <- <-; (eapply FIN; [reflexivity|reflexivity|cbn; lia]).
        * destruct (p_guard s t g) as [r|]; [destruct (p_ev s r); [|discriminate]|]; injection E as <- <-; (eapply FIN; [reflexivity|reflexivity|cbn; lia]).
        * destruct (p_guard s t g) as [r|]; [destruct (p_ev s r); [|discriminate]|]; injection E as <- <-; (eapply FIN; [reflexivity|reflexivity|cbn; lia]).
        * injection E as <- <-; (eapply FIN; [reflexivity|reflexivity|cbn; lia]).
      + destruct (held_by N dflt ext_prio s own t k r x ms g p H ET) as (Hr & HO & HG & HV & HX & HK). destruct k.
        * destruct (p_run s r); try discriminate. injection E as <- <-; (eapply FIN; [reflexivity|reflexivity|cbn; lia]).
        * injection E as <- <-; (eapply FIN; [reflexivity|reflexivity|cbn; lia]).
        * injection E as <- <-; (eapply FIN; [reflexivity|reflexivity|cbn; lia]).
        * injection E as <- <-; (eapply FIN; [reflexivity|reflexivity|cbn; lia]).
        * injection E as <- <-. destruct HK as (K1 & _). cbn [p_thr p_run]. rewrite K1. split; [intros u Hu; cbn; now apply (quiet_upd n s t)|].
          pose proof (work_thr n s t (PRet (PErr OK)) Ht ltac:(rewrite ET; cbn; lia)) as W1. pose proof (work_run s r WStarted Hr) as W2. rewrite ET in W1. rewrite K1 in W2. cbn in W1, W2. lia.
      + destruct b; [destruct (length (p_q s) <? N); [|discriminate]|]; injection E as <- <-; (eapply FIN; [reflexivity|reflexivity|cbn; lia]).
      + injection E as <- <-; (eapply FIN; [reflexivity|reflexivity|cbn; lia]).
    - assert (Ht : t < n) by (apply TN; intros X; rewrite X in E; discriminate).
      assert (FIN : forall q s1, p_thr s1 = fupd (p_thr s) t q -> p_run s1 = p_run s -> cw q < cw (p_thr s t) ->
        quiet_from n s1 /\ sumn (fun t => cw (p_thr s1 t)) n + sumn (fun r => ww (p_run s1 r)) N < sumn (fun t => cw (p_thr s t)) n + sumn (fun r => ww (p_run s r)) N).
      { intros q s1 E1 E2 L. rewrite E1, E2. split; [unfold quiet_from; rewrite E1; now apply quiet_upd|]. pose proof (work_thr n s t q Ht L). lia. }
      destruct (p_thr s t) as [|c|k r x ms g p|b r g|rr] eqn:ET; try discriminate.
      + destruct c as [x ms g p|g ms|g|g|x q|x th]; try discriminate.
        * repeat match type of E with (if ?b then _ else _) = _ => destruct b; try discriminate end. injection E as <- <-; (eapply FIN; [reflexivity|reflexivity|cbn; lia]).
        * destruct (p_guard s t g) as [r|]; [|discriminate]. match type of E with (if ?b then _ else _) = _ => destruct b; try discriminate end. injection E as <- <-; (eapply FIN; [reflexivity|reflexivity|cbn; lia]).
      + destruct k; try discriminate. destruct (ms =? -1)%Z; [discriminate|]. destruct (p_run s r); try discriminate; injection E as <- <-; (eapply FIN; [reflexivity|reflexivity|cbn; lia]).
    - assert (Hr : r < N). { destruct (Nat.lt_ge_cases r N) as [X|X]; [exact X|]. rewrite (iv_off _ _ _ _ _ H r X) in E. discriminate. }
      assert (FIN : forall w s1, p_thr s1 = p_thr s -> p_run s1 = fupd (p_run s) r w -> ww w < ww (p_run s r) ->
        quiet_from n s1 /\ sumn (fun t => cw (p_thr s1 t)) n + sumn (fun r => ww (p_run s1 r)) N < sumn (fun t => cw (p_thr s t)) n + sumn (fun r => ww (p_run s r)) N).
      { intros w s1 E1 E2 L. unfold quiet_from. rewrite E1, E2. split; [exact Q|]. pose proof (work_run s r w Hr). lia. }
      destruct (p_run s r) as [| | | |[] th|] eqn:ER; try discriminate;
        try (destruct (p_task s r =? 0)); try (destruct (length (p_q s) <? N); [|discriminate]);
        injection E as <- <-; (eapply FIN; [reflexivity|reflexivity|]); try destruct (p_needs s r); cbn; lia.
  Qed.
  Lemma cw_bound q : cw q <= 20.
  Proof. destruct q as [|[]|[]|[]|]; cbn; lia. Qed.
  Lemma ww_bound w : ww w <= 7.
  Proof. destruct w as [| | | |[]|]; cbn; lia. Qed.
  Theorem bounded_work n ls0 s es0 ls s' es : exec step (p_init N dflt) ls0 = Some (s, es0) -> (forall t, n <= t -> p_idle s t) ->
    (forall l, In l ls -> p_own_step l) -> exec step s ls = Some (s', es) -> length ls <= 20 * n + 7 * N.
  Proof.
    intros E0 Q P E. destruct (reach N dflt ext_prio ls0 s es0 E0) as (own & f & sg & H & _ & _).
    assert (M : length ls + work n s' <= work n s).
    { refine (exec_measure _ _ _ step (fun s => (exists own, Inv s own) /\ quiet_from n s) p_own_step (work n) _ ls s s' es _ P E).
      - intros s1 l s2 es2 ((own1 & H1) & Q1) P1 S1. destruct (work_step n s1 own1 l s2 es2 H1 Q1 P1 S1) as (A & B).
        split; [|exact B]. split; [|exact A]. exists (own_step s1 own1 l). eapply inv_step; eassumption.
      - split; [exists own; exact H|exact Q]. }
    assert (B : work n s <= n * 20 + N * 7).
    { unfold work. pose proof (sumn_bound n (fun t => cw (p_thr s t)) 20 (fun k _ => cw_bound _)). pose proof (sumn_bound N (fun r => ww (p_run s r)) 7 (fun k _ => ww_bound _)). lia. }
    lia.
  Qed.

  (** * The theorems *)
  Theorem pool_atomic ls s es : exec step (p_init N dflt) ls = Some (s, es) ->
    linearizable (pspec_lossy N ext_prio) all_free (history es) /\ exists sg, sp_run (pspec_lossy N ext_prio) all_free (effects es) sg.
  Proof.
    intros E. destruct (reach N dflt ext_prio ls s es E) as (own & f & sg & H & L & T). split; [exists es, f, sg; auto|].
    exists sg. now apply lin_run_effects in L.
  Qed.
  Definition no_start_timed_out (es : list (event pcall pres)) : Prop := forall t x ms g p, ~ In (Eff t (PStart x ms g p) (PErr TimedOut)) es.
  Lemma no_timed_out_count es : no_start_timed_out es -> count_eff timed_out (effects es) = 0.
  Proof.
    intros H. unfold count_eff. assert (X : filter timed_out (effects es) = []); [|now rewrite X].
    induction es as [|e es IH]; [reflexivity|]. unfold effects in *. cbn. rewrite filter_app.
    rewrite IH by (intros t x ms g p X; apply (H t x ms g p); now right). rewrite app_nil_r.
    destruct e as [t c|t c r|t r]; try reflexivity. cbn. destruct c; try reflexivity. destruct r as [|e|]; try reflexivity. destruct e; try reflexivity.
    exfalso. eapply H. left. reflexivity.
  Qed.
  Theorem pool_atomic_strict ls s es : exec step (p_init N dflt) ls = Some (s, es) -> no_start_timed_out es ->
    linearizable (pspec N ext_prio) all_free (history es).
  Proof.
    intros E C. destruct (reach N dflt ext_prio ls s es E) as (own & f & sg & H & L & T). exists es, f, sg. split; [reflexivity|].
    apply no_loss_strict; [exact L|]. apply lin_run_effects in L. exact (lost_count es sg L (no_timed_out_count es C)).
  Qed.
  (** a caller that always waits forever never times out *)
  Theorem patient_never_times_out ls s es : exec step (p_init N dflt) ls = Some (s, es) ->
    (forall t x ms g p, In (Call t (PStart x ms g p)) es -> ms = (-1)%Z) -> no_start_timed_out es.
  Proof.
    intros E C t x ms g p X. destruct (reach N dflt ext_prio ls s es E) as (own & f & sg & H & L & T).
    pose proof (eff_called N ext_prio _ _ _ _ _ _ _ _ L X) as [Y|Y]; [|discriminate]. apply C in Y. subst ms.
    apply in_split in X. destruct X as (e1 & e2 & ->). apply lin_run_effects in L. unfold effects in L. rewrite flat_map_app in L. cbn in L.
    destruct (sp_run_app_inv _ _ _ _ _ _ _ _ L) as (s1 & _ & R). inversion R as [|a b d e s2 h i S R3]; subst.
    destruct S as [S|S]; cbn in S.
    - destruct S as [(_ & Z & _)|[(_ & Z & _)|(_ & _ & Z & _)]]; try discriminate. now elim Z.
    - destruct S as (y & ms' & g' & p' & k & Z & _ & NM & _). apply NM. now injection Z.
  Qed.
  (** nothing is missing *)
  Definition working (w : wpc) : Prop := w <> WOff /\ w <> WEnd.
  Theorem where_is ls s es : exec step (p_init N dflt) ls = Some (s, es) -> no_start_timed_out es -> forall r, r < N ->
    In r (p_q s) \/ (exists t k x ms g p, p_thr s t = PHold k r x ms g p) \/ working (p_run s r) \/ exists t g, p_guard s t g = Some r.
  Proof.
    intros E C r Hr. destruct (reach N dflt ext_prio ls s es E) as (own & f & sg & H & L & T).
    pose proof (none_lost ls s es own f sg E H L T (no_timed_out_count es C) r Hr) as NL. pose proof (iv_run _ _ _ _ _ H r Hr) as RO.
    destruct (own r) as [|v|j|v g j|] eqn:EO; cbn in RO.
    - left. apply (iv_q _ _ _ _ _ H). auto.
    - right. left. destruct RO as (_ & RO). destruct (p_thr s v) as [| |k r' x ms g p| |] eqn:ET; try contradiction. destruct RO as (-> & _). eauto 8.
    - right. right. left. unfold working. destruct RO as (_ & _ & _ & _ & _ & RO). destruct (p_run s r); try contradiction; split; discriminate.
    - right. right. right. exists v, g. tauto.
    - now elim NL.
  Qed.
  (** a thread is in one place only *)
  Theorem one_place ls s es : exec step (p_init N dflt) ls = Some (s, es) ->
    NoDup (p_q s) /\ (forall r, In r (p_q s) -> r < N /\ p_prio s r = dflt /\ ~ working (p_run s r) /\ (forall t g, p_guard s t g <> Some r) /\ forall t k x ms g p, p_thr s t <> PHold k r x ms g p) /\
    (forall r t g t' g', p_guard s t g = Some r -> p_guard s t' g' = Some r -> t = t' /\ g = g').
  Proof.
    intros E. destruct (reach N dflt ext_prio ls s es E) as (own & f & sg & H & L & T). split; [exact (iv_nodup _ _ _ _ _ H)|]. split.
    - intros r X. apply (iv_q _ _ _ _ _ H) in X. destruct X as (Hr & HO). pose proof (iv_run _ _ _ _ _ H r Hr) as RO. rewrite HO in RO. cbn in RO. destruct RO as (R1 & R2 & R3).
      split; [exact Hr|]. split; [exact R3|]. split; [unfold working; destruct R1 as [-> | ->]; tauto|]. split.
      + intros t g X. destruct (iv_guard _ _ _ _ _ H _ _ _ X) as (_ & j & Y). congruence.
      + intros t k x ms g p X. destruct (held_by N dflt ext_prio s own t k r x ms g p H X) as (_ & Y & _). congruence.
    - intros r t g t' g' X Y. destruct (iv_guard _ _ _ _ _ H _ _ _ X) as (_ & j & A). destruct (iv_guard _ _ _ _ _ H _ _ _ Y) as (_ & j' & B). split; congruence.
  Qed.
  Corollary default_restored ls s es : exec step (p_init N dflt) ls = Some (s, es) -> forall r, In r (p_q s) -> p_prio s r = dflt.
  Proof. intros E r X. apply (proj1 (proj2 (one_place ls s es E)) r X). Qed.
  (** at rest: every thread is in the queue or held by a valid guard *)
  Theorem rest_partition ls s es : exec step (p_init N dflt) ls = Some (s, es) -> no_start_timed_out es -> at_rest s ->
    forall r, r < N -> (In r (p_q s) <-> forall t g, p_guard s t g <> Some r).
  Proof.
    intros E C (R1 & R2) r Hr. destruct (one_place ls s es E) as (_ & A & _). split; [intros X; apply (A r X)|]. intros X.
    destruct (where_is ls s es E C r Hr) as [Y|[(t & k & x & ms & g & p & Y)|[Y|(t & g & Y)]]]; [exact Y| | |].
    - specialize (R1 t). unfold p_idle in R1. congruence.
    - exfalso. apply (proj1 Y). now apply R2.
    - now elim (X t g).
  Qed.
  Corollary rest_all_back ls s es : exec step (p_init N dflt) ls = Some (s, es) -> no_start_timed_out es -> at_rest s ->
    (forall t g, p_guard s t g = None) -> Permutation (p_q s) (seq 0 N).
  Proof.
    intros E C R G. apply NoDup_Permutation; [exact (proj1 (one_place ls s es E))|apply seq_NoDup|].
    intros r. rewrite in_seq. split.
    - intros X. destruct (proj1 (proj2 (one_place ls s es E)) r X) as (Y & _). lia.
    - intros X. apply (rest_partition ls s es E C R r); [lia|]. intros t g. rewrite G. discriminate.
  Qed.
  (** a start, with any time-out, on a pool at rest that has a free thread: succeeds *)
  Definition agent_step (t : nat) (l : plab) : Prop := match l with XStep u | XTimeout u _ => u = t | _ => False end.
  Definition solo (t : nat) (c : pcall) (s : pst) (es : list (event pcall pres)) : Prop :=
    (forall u, u <> t -> p_thr s u = PIdle) /\ (forall r, In (Ret t r) es -> r = PErr OK) /\
    match p_thr s t with
    | PAt c' => c' = c /\ p_q s <> [] /\ forall r, In r (p_q s) -> p_run s r = WOff
    | PHold k r x ms g p => p_run s r = WOff
    | PRet r => r = PErr OK
    | PIdle => True
    | PRel _ _ _ => False
    end.
  Theorem rest_start_succeeds ls0 s es0 t x ms g p ls s' es : exec step (p_init N dflt) ls0 = Some (s, es0) -> at_rest s -> p_q s <> [] -> x <> 0 ->
    (forall l, In l ls -> agent_step t l) -> exec step s (XCall t (PStart x ms g p) :: ls) = Some (s', es) ->
    forall r, In (Ret t r) es -> r = PErr OK.
  Proof.
    intros E0 (R1 & R2) NQ NX AL E. set (c := PStart x ms g p) in *.
    destruct (reach N dflt ext_prio ls0 s es0 E0) as (own & f & sg & H & _ & _).
    cbn [exec] in E. destruct (step s (XCall t c)) as [[s1 es1]|] eqn:S1; [|discriminate]. destruct (exec step s1 ls) as [[s2 es2]|] eqn:E2; [|discriminate]. injection E as <- <-.
    cbn [p_step] in S1. rewrite (R1 t : p_thr s t = PIdle) in S1. destruct (callable N s t c); [|discriminate]. injection S1 as <- <-.
    assert (G : forall l s1 es1 s2 es2, agent_step t l -> solo t c s1 es1 -> step s1 l = Some (s2, es2) -> solo t c s2 (es1 ++ es2)).
    { clear - NX. intros l s1 es1 s2 es2 A (S1 & S2 & S3) S. destruct l as [u d|u|u o|u|u b]; try contradiction; cbn in A; subst u; cbn [p_step] in S.
      - destruct (p_thr s1 t) as [|d|k r y m i q|b r i|rr] eqn:ET; try discriminate; try contradiction.
        + destruct S3 as (-> & S3 & S4). unfold c in S. destruct (Nat.eqb_spec x 0) as [|_]; [contradiction|]. destruct (p_q s1) as [|r q] eqn:EQ; [discriminate|]. injection S as <- <-.
          split; [intros v Nv; cbn; rewrite fupd_other by exact Nv; auto|]. split; [rewrite app_nil_r; exact S2|]. cbn. rewrite fupd_same. apply S4. now left.
        + destruct k; try (rewrite S3 in S); injection S as <- <-.
          all: split; [intros v Nv; cbn; rewrite fupd_other by exact Nv; auto|].
          all: split; [intros rr X; rewrite in_app_iff in X; destruct X as [X|X]; [auto|]; cbn in X; repeat (destruct X as [X|X]; [discriminate X|]); contradiction|].
          all: cbn; rewrite fupd_same; auto.
        + injection S as <- <-. split; [intros v Nv; cbn; rewrite fupd_other by exact Nv; auto|]. split; [|cbn; now rewrite fupd_same].
          intros r X. rewrite in_app_iff in X. destruct X as [X|[X|[]]]; [auto|]. injection X as <-. exact S3.
      - destruct (p_thr s1 t) as [|d|k r y m i q|b r i|rr] eqn:ET; try discriminate.
        + destruct S3 as (-> & S3 & S4). unfold c in S. destruct ((ms =? -1)%Z || (x =? 0)); [discriminate|]. destruct (p_q s1) as [|r q]; [now elim S3|]. cbn [orb] in S.
          destruct o as [v|]; [|discriminate]. destruct (Nat.eqb_spec v t) as [->|Nv]; [discriminate|]. rewrite (S1 v Nv) in S. discriminate.
        + destruct k; try discriminate. rewrite S3 in S. destruct (m =? -1)%Z; discriminate. }
    assert (S0 : solo t c (p_go s t (PAt c)) [Call t c]).
    { split; [intros v Nv; cbn; rewrite fupd_other by exact Nv; apply R1|]. split; [intros r [X|[]]; discriminate|]. cbn. rewrite fupd_same.
      split; [reflexivity|]. split; [exact NQ|]. intros r X. apply R2. apply (iv_q _ _ _ _ _ H) in X. tauto. }
    clear - G S0 E2 AL. revert E2 AL S0. generalize (p_go s t (PAt c)) ([Call t c] : pout). intros s1 es1. revert s1 es1 es2.
    induction ls as [|l ls IH]; intros s1 es1 es2 E AL S0; cbn in E.
    - injection E as <- <-. rewrite app_nil_r. apply S0.
    - destruct (step s1 l) as [[s3 es3]|] eqn:S; [|discriminate]. destruct (exec step s3 ls) as [[s4 es4]|] eqn:E4; [|discriminate]. injection E as <- <-.
      rewrite app_assoc. eapply IH; [exact E4|intros; apply AL; now right|]. eapply G; [apply AL; now left|exact S0|exact S].
  Qed.
  (** when nothing can move until a task ends, the calls in progress wait for running tasks and for guards to be released only *)
  Theorem who_waits ls s es : exec step (p_init N dflt) ls = Some (s, es) -> no_start_timed_out es -> p_stuck N dflt ext_prio s -> forall t,
    p_idle s t \/
    (exists x g p, p_thr s t = PAt (PStart x (-1)%Z g p) /\ forall r, r < N -> p_run s r = WIn \/ exists t' g', p_guard s t' g' = Some r) \/
    (exists g r, (p_thr s t = PAt (PWait g (-1)%Z) \/ p_thr s t = PAt (PRelease g)) /\ r < N /\ p_guard s t g = Some r /\ p_run s r = WIn).
  Proof.
    intros E C ST t. destruct (reach N dflt ext_prio ls s es E) as (own & f & sg & H & L & T).
    destruct (stuck_calls s own H ST t) as [A|[(x & g & p & A & B)|A]]; [now left| |now right; right]. right. left. exists x, g, p. split; [exact A|].
    intros r Hr. destruct (stuck_where s own H ST r Hr) as [X|[X|[X|X]]]; [rewrite B in X; destruct X|now left|now right|].
    now elim (none_lost ls s es own f sg E H L T (no_timed_out_count es C) r Hr).
  Qed.
  Theorem lost_at_most ls s es : exec step (p_init N dflt) ls = Some (s, es) -> at_rest s ->
    exists lost, length lost <= count_eff timed_out (effects es) /\ forall r, r < N -> In r lost \/ In r (p_q s) \/ exists t g, p_guard s t g = Some r.
  Proof.
    intros E (R1 & R2). destruct (reach N dflt ext_prio ls s es E) as (own & f & sg & H & L & (TA & TB)). exists (filter (fun k => is_lost (sg k)) (seq 0 N)). split.
    - apply lin_run_effects in L. destruct (tasks_balance N ext_prio _ _ _ 0 L) as (_ & _ & X). rewrite (count_all_free is_lost N eq_refl) in X. exact X.
    - intros r Hr. pose proof (iv_run _ _ _ _ _ H r Hr) as RO. destruct (own r) as [|v|j|v g j|] eqn:EO; cbn in RO.
      + right. left. apply (iv_q _ _ _ _ _ H). auto.
      + destruct RO as (_ & RO). rewrite (R1 v : p_thr s v = PIdle) in RO. destruct RO.
      + rewrite (R2 r Hr) in RO. tauto.
      + right. right. exists v, g. tauto.
      + left. apply filter_In. split; [apply in_seq; lia|]. rewrite (TB r Hr), EO. reflexivity.
  Qed.
  (** in every schedule: the threads that were lost to starts that timed out are the only ones unaccounted for *)
  Lemma lost_set ls s es own f sg : exec step (p_init N dflt) ls = Some (s, es) -> Inv s own -> lin_run (pspec_lossy N ext_prio) (fun _ => Out) all_free es f sg ->
    tracks N s own f sg -> exists lost, length lost <= count_eff timed_out (effects es) /\ forall r, r < N -> own r = OLost -> In r lost.
  Proof.
    intros E H L (TA & TB). exists (filter (fun k => is_lost (sg k)) (seq 0 N)). split.
    - apply lin_run_effects in L. destruct (tasks_balance N ext_prio _ _ _ 0 L) as (_ & _ & X). rewrite (count_all_free is_lost N eq_refl) in X. exact X.
    - intros r Hr EO. apply filter_In. split; [apply in_seq; lia|]. rewrite (TB r Hr), EO. reflexivity.
  Qed.
  Theorem where_is_all ls s es : exec step (p_init N dflt) ls = Some (s, es) ->
    exists lost, length lost <= count_eff timed_out (effects es) /\ forall r, r < N ->
    In r lost \/ In r (p_q s) \/ (exists t k x ms g p, p_thr s t = PHold k r x ms g p) \/ working (p_run s r) \/ exists t g, p_guard s t g = Some r.
  Proof.
    intros E. destruct (reach N dflt ext_prio ls s es E) as (own & f & sg & H & L & T). destruct (lost_set ls s es own f sg E H L T) as (lost & LL & LI).
    exists lost. split; [exact LL|]. intros r Hr. pose proof (iv_run _ _ _ _ _ H r Hr) as RO.
    destruct (own r) as [|v|j|v g j|] eqn:EO; cbn in RO.
    - right. left. apply (iv_q _ _ _ _ _ H). auto.
    - right. right. left. destruct RO as (_ & RO). destruct (p_thr s v) as [| |k r' x ms g p| |] eqn:ET; try contradiction. destruct RO as (-> & _). eauto 8.
    - right. right. right. left. unfold working. destruct RO as (_ & _ & _ & _ & _ & RO). destruct (p_run s r); try contradiction; split; discriminate.
    - right. right. right. right. exists v, g. tauto.
    - left. now apply LI.
  Qed.
  Theorem who_waits_all ls s es : exec step (p_init N dflt) ls = Some (s, es) -> p_stuck N dflt ext_prio s ->
    exists lost, length lost <= count_eff timed_out (effects es) /\ forall t,
    p_idle s t \/
    (exists x g p, p_thr s t = PAt (PStart x (-1)%Z g p) /\ forall r, r < N -> In r lost \/ p_run s r = WIn \/ exists t' g', p_guard s t' g' = Some r) \/
    (exists g r, (p_thr s t = PAt (PWait g (-1)%Z) \/ p_thr s t = PAt (PRelease g)) /\ r < N /\ p_guard s t g = Some r /\ p_run s r = WIn).
  Proof.
    intros E ST. destruct (reach N dflt ext_prio ls s es E) as (own & f & sg & H & L & T). destruct (lost_set ls s es own f sg E H L T) as (lost & LL & LI).
    exists lost. split; [exact LL|]. intros t.
    destruct (stuck_calls s own H ST t) as [A|[(x & g & p & A & B)|A]]; [now left| |now right; right]. right. left. exists x, g, p. split; [exact A|].
    intros r Hr. destruct (stuck_where s own H ST r Hr) as [X|[X|[X|X]]]; [rewrite B in X; destruct X|now right; left|now right; right|left; now apply LI].
  Qed.
  Theorem each_task_once ls s es x : exec step (p_init N dflt) ls = Some (s, es) ->
    count_eff (ended x) (effects es) <= count_eff (begun x) (effects es) <= count_eff (accepted x) (effects es) /\
    ((forall r, r < N -> p_run s r = WOff) ->
      count_eff (begun x) (effects es) = count_eff (accepted x) (effects es) /\ count_eff (ended x) (effects es) = count_eff (accepted x) (effects es)).
  Proof.
    intros E. destruct (reach N dflt ext_prio ls s es E) as (own & f & sg & H & L & (TA & TB)). apply lin_run_effects in L.
    destruct (tasks_balance N ext_prio _ _ _ x L) as (A & B & _). rewrite (count_all_free (has_task x) N eq_refl) in A. rewrite (count_all_free (runs_task x) N eq_refl) in B.
    split; [lia|]. intros R.
    assert (Z : count_places (has_task x) sg N = 0 /\ count_places (runs_task x) sg N = 0); [|lia].
    rewrite !count_places_sumn. split.
    - transitivity (sumn (fun _ => 0) N); [|clear; induction N; cbn; lia]. apply sumn_ext. intros k Hk. rewrite (TB k Hk), (R k Hk).
      pose proof (iv_run _ _ _ _ _ H k Hk) as RO. destruct (own k); cbn in *; try reflexivity.
    - transitivity (sumn (fun _ => 0) N); [|clear; induction N; cbn; lia]. apply sumn_ext. intros k Hk. rewrite (TB k Hk), (R k Hk).
      pose proof (iv_run _ _ _ _ _ H k Hk) as RO. destruct (own k); cbn in *; try reflexivity. rewrite (R k Hk) in RO. tauto.
  Qed.
  Theorem guard_waits ls s es l1 l2 l3 t x ms g p c res : exec step (p_init N dflt) ls = Some (s, es) ->
    effects es = l1 ++ (t, PStart x ms (Some g) p, PErr OK) :: l2 ++ (t, c, res) :: l3 ->
    (exists ms', c = PWait g ms' /\ res = PErr OK) \/ c = PRelease g -> ~ In (t, PRelease g, PVoid) l2 ->
    exists r q th m1 m2 m3, r < N /\ l2 = m1 ++ (r, PBegin x q, PVoid) :: m2 ++ (r, PEnd x th, PVoid) :: m3 /\ forall v, p = Some v -> q = v.
  Proof.
    intros E EF HC NR. destruct (reach N dflt ext_prio ls s es E) as (own & f & sg & H & L & _). apply lin_run_effects in L. rewrite EF in L.
    replace (l1 ++ (t, PStart x ms (Some g) p, PErr OK) :: l2 ++ (t, c, res) :: l3) with ((l1 ++ (t, PStart x ms (Some g) p, PErr OK) :: l2 ++ [(t, c, res)]) ++ l3) in L
      by (rewrite <- app_assoc; cbn; now rewrite <- app_assoc).
    destruct (sp_run_app_inv _ _ _ _ _ _ _ _ L) as (f1 & R & R').
    assert (HC' : exists r, c = PWait g r \/ c = PRelease g) by (destruct HC as [(m & X & _)|X]; [exists m; now left|exists 0%Z; now right]). destruct HC' as (m & HC').
    destruct (waited_task N ext_prio l1 l2 t x ms g p c m f1 HC' res R) as (k & q & Hk & (th & m1 & m2 & m3 & A) & B); [|exact NR|].
    - destruct HC as [(m' & _ & ->)|HC]; [discriminate|]. intros ->. destruct (sp_run_app_inv _ _ _ _ _ _ _ _ R) as (f2 & _ & R2).
      inversion R2 as [|a b d e f3 h i S R3]; subst. apply run_snoc in R3. destruct R3 as (f4 & _ & S4). cbn in S4. destruct S4 as [S4|S4].
      + cbn in S4. destruct S4 as (X & _). discriminate.
      + destruct S4 as (? & ? & ? & ? & ? & X & _). discriminate.
    - exists k, q, th, m1, m2, m3. auto.
  Qed.
  Theorem one_task_per_thread ls s es l1 l2 l3 r x q y q' a b : exec step (p_init N dflt) ls = Some (s, es) ->
    effects es = l1 ++ (r, PBegin x q, a) :: l2 ++ (r, PBegin y q', b) :: l3 -> r < N /\ exists th, In (r, PEnd x th, PVoid) l2.
  Proof.
    intros E EF. destruct (reach N dflt ext_prio ls s es E) as (own & f & sg & H & L & _). apply lin_run_effects in L. rewrite EF in L.
    exact (one_at_a_time N ext_prio l1 l2 l3 r x q y q' a b sg L).
  Qed.
  Theorem task_priority ls s es x v : exec step (p_init N dflt) ls = Some (s, es) ->
    (forall t ms g p, In (Eff t (PStart x ms g p) (PErr OK)) es -> p = Some v \/ (p = None /\ N <= t /\ ext_prio t = v)) -> forall r q a, In (Eff r (PBegin x q) a) es -> q = v.
  Proof.
    intros E HP r q a X. destruct (reach N dflt ext_prio ls s es E) as (own & f & sg & H & L & _). apply lin_run_effects in L.
    refine (prio_run N ext_prio _ _ _ x v L _ _ r q a _).
    - intros t ms g p Y. apply (HP t ms g). unfold effects in Y. apply in_flat_map in Y. destruct Y as (e & Y & Z). destruct e; try (now destruct Z). destruct Z as [Z|[]]. injection Z as -> -> ->. exact Y.
    - discriminate.
    - unfold effects. apply in_flat_map. exists (Eff r (PBegin x q) a). split; [exact X|now left].
  Qed.
End L.

(** * The refutation: a pool with one thread, two callers *)
Definition loss : list plab :=
  [XCall 1 (PStart 5 (-1) None None)] ++ repeat (XStep 1) 7 ++ [XRun 0; XRun 0; XTaskEnd 0 false; XRun 0; XRun 0; XRun 0; XRun 0] ++
  [XCall 1 (PStart 6 0 None None); XStep 1; XTimeout 1 None; XStep 1; XRun 0].
Theorem thread_can_be_lost :
  ~ (forall N dflt ext_prio ls s es, exec (p_step N dflt ext_prio) (p_init N dflt) ls = Some (s, es) ->
       at_rest N s -> (forall t g, p_guard s t g = None) -> length (p_q s) = N).
Proof.
  intros H. specialize (H 1 0%Z (fun _ => 0%Z) loss). destruct (exec (p_step 1 0 (fun _ => 0%Z)) (p_init 1 0) loss) as [[s es]|] eqn:E; [|vm_compute in E; discriminate].
  vm_compute in E. injection E as <- <-. specialize (H _ _ eq_refl). cbn in H. discriminate H.
  - split; [intros t; unfold p_idle; cbn; destruct t as [|[|t]]; reflexivity|]. intros r Hr. assert (r = 0) as -> by lia. reflexivity.
  - reflexivity.
Qed.
Theorem start_can_wait_forever :
  ~ (forall N dflt ext_prio ls s es, exec (p_step N dflt ext_prio) (p_init N dflt) ls = Some (s, es) ->
       0 < N -> p_stuck N dflt ext_prio s -> (forall r, r < N -> p_run s r = WOff) -> (forall t g, p_guard s t g = None) -> forall t, p_idle s t).
Proof.
  intros H. specialize (H 1 0%Z (fun _ => 0%Z) (loss ++ [XCall 2 (PStart 7 (-1) None None)])).
  destruct (exec (p_step 1 0 (fun _ => 0%Z)) (p_init 1 0) (loss ++ [XCall 2 (PStart 7 (-1) None None)])) as [[s es]|] eqn:E; [|vm_compute in E; discriminate].
  vm_compute in E. injection E as <- <-. specialize (H _ _ eq_refl (Nat.lt_0_succ 0)). unshelve epose proof (H _ _ _ 2) as X; [| | |vm_compute in X; discriminate X]; clear H.
  - intros l Hl. destruct l as [t c|t|t o|r|r b]; try contradiction.
    + destruct t as [|[|[|t]]]; reflexivity.
    + destruct t as [|[|[|t]]]; reflexivity.
    + destruct r as [|r]; reflexivity.
  - intros r Hr. assert (r = 0) as -> by lia. reflexivity.
  - reflexivity.
Qed.
