(** How long the calls of ItronThread take. *)
From Coq Require Import List ZArith Bool Arith Lia.
Import ListNotations.
From Verif Require Import Spec.OSError Spec.Linear Spec.TimedSpec Spec.TimedMoreSpec Spec.TimedItronSpec Spec.ThreadSpec Spec.ItronThreadSpec OS.Sched OS.ItronThreadModel OS.ItronThreadProofs
  OS.TimedModel OS.TimedProofs OS.TimedCalls OS.TimedItronThreadModel.
Open Scope Z_scope.

Section IT.
  Variables prio0 minp maxp : Z.
  Variable ext_prio : nat -> Z.
  Notation stp := (n_step prio0 minp maxp ext_prio).
  Variable n : nat.
  Ltac it_cases E := cbn beta iota delta [n_step n_is_finished n_entry] in E;
    repeat match type of E with context [match ?x with _ => _ end] => destruct x eqn:?; try discriminate E end;
    try unfold n_is_finished in E;
    repeat match type of E with context [match ?x with _ => _ end] => destruct x eqn:?; try discriminate E end; injection E as <- <-.

  Lemma it_shape s l s' e : stp s l = Some (s', e) -> seen (it_who l) (filter visible e).
  Proof. intros E. destruct l; it_cases E; cbn; constructor. Qed.
  Lemma it_other s l s' e u : stp s l = Some (s', e) -> u <> it_who l \/ l = NTask ->
    n_thr s' u = n_thr s u \/ exists c, l = NTask /\ n_thr s u = IQue c /\ n_thr s' u = IPoll c.
  Proof.
    intros E N. destruct l; it_cases E; cbn [it_who] in N; cbn; auto;
      try (destruct N as [N|N]; [|discriminate N]; rewrite fupd_other by exact N; auto).
    all: destruct (n_thr s u) eqn:?; eauto.
  Qed.
  Lemma entry_is t c q : n_entry t c = Some q -> q = ILock c \/ q = IFlg c \/ q = IWai c.
  Proof. unfold n_entry. destruct c as [[]|?|]; try discriminate; try destruct (Nat.eqb t 0); try discriminate; intros X; injection X as <-; auto. Qed.
  Lemma it_since (x : tst its) l u : u <> it_who l -> (if it_starts (t_st x) l then fupd (t_since x) (it_who l) (t_now x) else t_since x) u = t_since x u.
  Proof. intros N. destruct (it_starts (t_st x) l); [now rewrite fupd_other|reflexivity]. Qed.

  (** ** not early *)
  Definition ipassed (c : icall) (t0 now : Z) : Prop := exists m, itron_thread_limit c = Some m /\ t0 + wait_ms m <= now.
  Definition nE (x : tst its) (t : nat) (t0 : Z) (c : icall) : Prop :=
    t0 <= t_now x /\
    match n_thr (t_st x) t with
    | IWai d => d = c
    | IQue d => d = c /\ t0 <= t_since x t
    | IRet r => itron_thread_timed_out r -> ipassed c t0 (t_now x)
    | IUnlock (Some r) => ~ itron_thread_timed_out r
    | _ => True
    end.
  Theorem it_not_early may_tick ls x es : exec (it_timed prio0 minp maxp ext_prio n may_tick) (t_init (n_init prio0)) ls = Some (x, es) ->
    not_early itron_thread_limit itron_thread_timed_out es.
  Proof.
    intros E.
    destruct (vtimed_calls its ilabel icall ires stp it_who n it_starts it_expiry may_tick (fun _ => True) (fun _ => True) nE
      (fun t t0 c t1 r => itron_thread_timed_out r -> ipassed c t0 t1)) with (x0 := @t_init its (n_init prio0)) (ls := ls) (x := x) (es := es) as (_ & H).
    - exact it_shape.
    - intros y l y' es' t c _ _ S F. apply t_act_inv in S. destruct S as (_ & _ & s' & e & S & -> & ->).
      rewrite filter_stamp in F. unfold nE. cbn [t_st t_now t_since]. split; [lia|].
      destruct l; it_cases S; cbn in F; try discriminate F; injection F as <- <-; cbn [n_go n_thr]; rewrite ?fupd_same; auto.
      1,2: match goal with h : n_entry _ _ = Some _ |- _ => apply entry_is in h; destruct h as [-> |[-> | ->]]; auto end.
      match goal with h : n_thr _ _ = IIdle |- _ => now rewrite h end.
    - intros y l y' es' t t0 c _ _ (T0 & Pt) S HR. apply t_act_inv in S. destruct S as (_ & X & s' & e & S & -> & ->).
      unfold nE. cbn [t_st t_now t_since]. split; [exact T0|].
      assert (HR' : forall z, In z e -> about t z = false) by (intros z Z; apply (HR (t_now y, z)); apply in_map_iff; eauto). clear HR.
      destruct (Nat.eq_dec t (it_who l)) as [->|N].
      2:{ rewrite (it_since y l t N). destruct (it_other _ _ _ _ t S (or_introl N)) as [-> |(d & _ & Q & ->)]; [exact Pt|exact I]. }
      destruct l; cbn [it_who] in *;
        [| | | |destruct (it_other _ _ _ _ 0%nat S (or_intror eq_refl)) as [-> |(d & _ & Q & ->)]; [exact Pt|exact I]];
        it_cases S; cbn [it_starts it_expiry] in *;
        repeat match goal with h : n_thr _ _ = _ |- _ => rewrite h in Pt, X |- * | h : n_thr _ _ = _ |- _ => rewrite h in Pt |- * | h : n_thr _ _ = _ |- _ => rewrite h in Pt end;
        try (exfalso; specialize (HR' _ (or_introl eq_refl)); cbn in HR'; rewrite Nat.eqb_refl in HR'; discriminate);
        cbn [n_go n_thr t_since] in *; rewrite ?fupd_same; try exact I; try exact Pt; try (intros TO; discriminate TO); auto.
      all: try (intros TO; contradiction).
      all: try (match goal with h : n_thr _ _ = IWai _ |- _ /\ _ => rewrite h; cbn iota; rewrite fupd_same; split; [congruence|exact T0] end).
      8: match goal with h : n_thr _ _ = IPoll _ |- _ => now rewrite h end.
      all: intros _; unfold ipassed.
      all: try (match goal with h : (?m =? 0) = true |- _ => apply Z.eqb_eq in h; subst m end; exists 0; subst c; split; [reflexivity|unfold wait_ms; lia]).
      destruct Pt as (<- & SI). specialize (X ms ltac:(match goal with h : n_thr _ _ = IQue _ |- _ => now rewrite h end)). exists ms. cbn. unfold of_ms.
      match goal with h : (ms =? -1) = false |- _ => rewrite h end. split; [reflexivity|]. unfold wait_ms. lia.
    - intros y y' es' t t0 c _ (T0 & Pt) S. apply t_tick_inv in S. destruct S as (_ & _ & ->). unfold nE. cbn [t_st t_now t_since]. split; [lia|].
      destruct (n_thr (t_st y) t); auto. intros R. destruct (Pt R) as (m & A & B). exists m. split; [exact A|lia].
    - intros y l y' es' t t0 c r _ _ (T0 & Pt) S F. apply t_act_inv in S. destruct S as (_ & X & s' & e & S & -> & ->). rewrite filter_stamp in F.
      destruct l; it_cases S; cbn in F; try discriminate F; injection F as <- <-; [|discriminate..].
      match goal with h : n_thr _ _ = IRet _ |- _ => rewrite h in Pt end. exact Pt.
    - intros y l y' es' t c r _ _ S F. apply t_act_inv in S. destruct S as (_ & X & s' & e & S & -> & ->). rewrite filter_stamp in F.
      destruct l; it_cases S; cbn in F; try discriminate F; injection F as <- <- _ <-; discriminate.
    - auto.
    - auto.
    - exact E.
    - exact H.
  Qed.

  (** ** not late *)
  Notation ustep := (it_timed prio0 minp maxp ext_prio n (it_urgent prio0 minp maxp ext_prio n)).
  Notation x0 := (t_init (n_init prio0)).
  Notation out := (list (Z * event icall ires)).

  (** the invariants of OS/ItronThreadProofs, and agents beyond the first [n] have no call *)
  Definition ibase (x : tst its) : Prop := sinv (t_st x) /\ forall t, (n <= t)%nat -> n_idle (t_st x) t.
  Lemma it_base may_tick ls x es : (0 < n)%nat -> (forall l, In (TAct l) ls -> n_label_ok l) ->
    exec (it_timed prio0 minp maxp ext_prio n may_tick) x0 ls = Some (x, es) -> ibase x.
  Proof.
    intros Hn HL E. split.
    - destruct (reach_inv prio0 minp maxp ext_prio (acts ilabel ls) (t_st x) (map snd es)) as (A & _); [|exact (timed_exec _ _ _ _ _ _ _ _ _ _ _ _ _ _ E)|exact A].
      intros l Hl. unfold acts in Hl. apply in_flat_map in Hl. destruct Hl as ([m|] & Hm & K); [destruct K as [<-|[]]; now apply HL|destruct K].
    - revert E. apply (exec_inv_st _ _ _ (it_timed prio0 minp maxp ext_prio n may_tick) (fun x => forall t, (n <= t)%nat -> n_idle (t_st x) t)); [|intros t _; reflexivity].
      intros y l y' es' H S t Lt. unfold it_timed in S. unfold n_idle in *. destruct l as [l|].
      + apply t_act_inv in S. destruct S as (W & _ & s' & e & S & _ & ->). cbn [t_st].
        destruct (it_other _ _ _ _ t S) as [-> |(c & _ & Q & _)]; [left; lia|now apply H|]. rewrite (H t Lt) in Q. discriminate.
      + apply t_tick_inv in S. destruct S as (_ & _ & ->). now apply H.
  Qed.

  (** a call that runs is pending *)
  Lemma it_run_step s l s' e t c : sinv s -> stp s l = Some (s', e) -> n_running s' t = Some c ->
    (n_running s t = Some c /\ forall y, In y e -> about t y = false) \/ e = [Call t c].
  Proof.
    intros I E R. assert (Z := si_zero s I). destruct (Nat.eq_dec t (it_who l)) as [->|N].
    - destruct l as [u d|u|u|u|]; cbn [it_who] in R |- *.
      + right. it_cases E; unfold n_running, n_go in R; cbn [n_thr] in R; rewrite fupd_same in R;
          match goal with h : n_entry _ _ = Some _ |- _ => apply entry_is in h; destruct h as [-> |[-> | ->]]; injection R as <-; reflexivity end.
      + left. it_cases E; unfold n_running in R |- *; unfold n_go in R; cbn [n_thr] in R;
          repeat match goal with h : n_thr _ _ = _ |- _ => rewrite h in R |- * | h : n_thr _ _ = _ |- _ => rewrite h end; rewrite ?fupd_same in R; try discriminate R; subst;
          (split; [try exact R; try discriminate R; try (injection R as <-; reflexivity)|intros y Hy; cbn in Hy; repeat (destruct Hy as [<-|Hy]; [reflexivity|]); destruct Hy]).
      + exfalso. it_cases E; unfold n_running, n_go in R; cbn [n_thr] in R; rewrite fupd_same in R; discriminate R.
      + left. it_cases E. split; [exact R|intros y []].
      + left. it_cases E; unfold n_running in R |- *; cbn [n_thr] in R.
        * split; [exact R|intros y []].
        * destruct Z as [Z|Z]; [rewrite Z in R; discriminate|congruence].
        * match goal with h : n_thr s 0%nat = IIdle |- _ => rewrite h in R end. discriminate.
        * destruct Z as [Z|Z]; [rewrite Z in R; discriminate|congruence].
        * destruct Z as [Z|Z]; [rewrite Z in R; discriminate|congruence].
    - left. split.
      + unfold n_running in R |- *. destruct (it_other _ _ _ _ t E (or_introl N)) as [A|(d & _ & A & B)]; [now rewrite A in R|]. rewrite B in R. now rewrite A.
      + intros y Hy. pose proof (it_shape _ _ _ _ E) as SH. destruct y as [u d|u d r|u r]; [|reflexivity|];
          assert (V : In (match Call u d with x => x end) (filter visible e)) || assert (V : In (Ret u r) (filter visible e)); try (apply filter_In; split; [exact Hy|reflexivity]);
          inversion SH as [EQ|d' EQ|r' EQ|d' r' EQ]; rewrite <- EQ in V; cbn in V; cbn; apply Nat.eqb_neq;
          repeat (destruct V as [V|V]; [try discriminate V; injection V; intros; subst; auto|]); try destruct V; try discriminate.
  Qed.
  Definition run_pend (x : tst its) (es : out) : Prop := forall t c, n_running (t_st x) t = Some c -> exists t0, pending es t t0 c.
  Lemma it_run_pend may_tick ls x es : (0 < n)%nat -> (forall l, In (TAct l) ls -> n_label_ok l) ->
    exec (it_timed prio0 minp maxp ext_prio n may_tick) x0 ls = Some (x, es) -> run_pend x es.
  Proof.
    intros Hn. revert x es. induction ls as [|l ls IH] using rev_ind; intros x es HL E.
    - injection E as <- <-. intros t c R. discriminate.
    - rewrite exec_app in E. destruct (exec (it_timed prio0 minp maxp ext_prio n may_tick) x0 ls) as [[x1 e1]|] eqn:E1; [|discriminate].
      assert (HL1 : forall m, In (TAct m) ls -> n_label_ok m) by (intros m M; apply HL, in_or_app; now left).
      pose proof (it_base _ _ _ _ Hn HL1 E1) as (I & _). specialize (IH x1 e1 HL1 eq_refl). cbn [exec] in E.
      destruct (it_timed prio0 minp maxp ext_prio n may_tick x1 l) as [[x2 e2]|] eqn:E2; [|discriminate]. injection E as <- <-. rewrite app_nil_r.
      intros t c R. unfold it_timed in E2. destruct l as [l|].
      + apply t_act_inv in E2. destruct E2 as (_ & _ & s' & e & S & -> & ->). cbn [t_st] in R.
        destruct (it_run_step _ _ _ _ _ _ I S R) as [(R1 & A)| ->].
        * destruct (IH t c R1) as (t0 & a & b & -> & B). exists t0, a, (b ++ map (fun e => (t_now x1, e)) e). split; [now rewrite <- app_assoc|].
          intros y Y. apply in_app_or in Y. destruct Y as [Y|Y]; [now apply B|]. apply in_map_iff in Y. destruct Y as (z & <- & Z). now apply A.
        * exists (t_now x1), e1, []. split; [reflexivity|intros y []].
      + apply t_tick_inv in E2. destruct E2 as (_ & -> & ->). rewrite app_nil_r. now apply IH.
  Qed.

  (** no start overlaps with a wait: then the task has ended, or is about to, when a wait has seen EV_FINISHED *)
  Definition no_overlap (es : out) : Prop := forall t u t0 t1 ms, pending es t t0 (IT (TWait ms)) -> ~ pending es u t1 (IT TStart).
  Definition poll_ok (s : its) : Prop := forall t c, n_thr s t = IPoll c -> n_task s = KExit \/ n_task s = KDorm.
  Lemma poll_task s u s' e : stp s (NStep u) = Some (s', e) -> n_task s' = n_task s \/ n_running s u = Some (IT TStart) \/ n_thr s u = IDel.
  Proof.
    intros E. it_cases E; unfold n_running; cbn [n_task n_go]; auto; right; left;
      match goal with h : n_thr s u = _ |- _ => rewrite h end; reflexivity.
  Qed.
  Lemma poll_from s u s' e c : stp s (NStep u) = Some (s', e) -> n_thr s' u = IPoll c -> n_fin s = true.
  Proof. intros E Q. it_cases E; unfold n_go in Q; cbn [n_thr] in Q; rewrite ?fupd_same in Q; try discriminate Q; auto. Qed.
  Lemma poll_from' s u s' e c : stp s (NStep u) = Some (s', e) -> n_thr s' u = IPoll c -> n_thr s u = IWai c.
  Proof. intros E Q. it_cases E; unfold n_go in Q; cbn [n_thr] in Q; rewrite ?fupd_same in Q; try discriminate Q; try (injection Q as <-); auto. Qed.
  Lemma poll_step s l s' e : sinv s -> stp s l = Some (s', e) -> (forall t u ms, n_running s t = Some (IT (TWait ms)) -> n_running s u <> Some (IT TStart)) ->
    poll_ok s -> poll_ok s'.
  Proof.
    intros I E NO P t c Q. pose proof (si_task s I) as TK.
    assert (OLD : forall c', n_thr s t = IPoll c' -> n_task s = KExit \/ n_task s = KDorm) by (intros c' X; exact (P t c' X)).
    assert (WC : forall c', n_thr s t = IPoll c' -> exists ms, n_running s t = Some (IT (TWait ms))).
    { intros c' X. pose proof (si_pc s I t) as PC. rewrite X in PC. cbn in PC. unfold n_running. rewrite X. destruct c' as [[]|?|]; try contradiction. eauto. }
    destruct l as [u d|u|u|u|].
    - it_cases E; unfold n_go in Q |- *; cbn [n_thr n_task] in Q |- *; rewrite fupd_eq in Q; (destruct (Nat.eqb t u); [|exact (P t c Q)]);
        match goal with h : n_entry _ _ = Some _ |- _ => apply entry_is in h; destruct h as [-> |[-> | ->]]; discriminate Q end.
    - destruct (poll_task _ _ _ _ E) as [-> |[SU|SD]].
      + destruct (Nat.eq_dec t u) as [->|N].
        * assert (F := poll_from _ _ _ _ _ E Q). rewrite F in TK. destruct (n_task s); cbn in TK; auto; intuition discriminate.
        * destruct (it_other _ _ _ _ t E (or_introl N)) as [A|(d & A & _)]; [rewrite A in Q; exact (P t c Q)|discriminate A].
      + destruct (Nat.eq_dec t u) as [->|N].
        * assert (F := poll_from' _ _ _ _ _ E Q). unfold n_running in SU. rewrite F in SU. injection SU as ->. pose proof (si_pc s I u) as PC. rewrite F in PC. cbn in PC. contradiction.
        * destruct (it_other _ _ _ _ t E (or_introl N)) as [A|(d & A & _)]; [|discriminate A].
          rewrite A in Q. destruct (WC c Q) as (ms & W). elim (NO t u ms W SU).
      + exfalso. pose proof (si_pc s I u) as PC. rewrite SD in PC. cbn in PC. contradiction.
    - it_cases E; unfold n_go in Q |- *; cbn [n_thr n_task] in Q |- *; rewrite fupd_eq in Q; (destruct (Nat.eqb t u); [discriminate|exact (P t c Q)]).
    - it_cases E. exact (P t c Q).
    - it_cases E; cbn [n_thr n_task] in Q |- *; auto; exfalso; destruct (OLD c Q); congruence.
  Qed.
  Definition igood (x : tst its) : Prop := ibase x /\ poll_ok (t_st x).
  Definition calm (may_tick : tst its -> bool) (ls : list (tlab ilabel)) : Prop :=
    forall ls1 ls2 x1 e1, ls = ls1 ++ ls2 -> exec (it_timed prio0 minp maxp ext_prio n may_tick) x0 ls1 = Some (x1, e1) -> no_overlap e1.
  Lemma it_good may_tick ls x es : (0 < n)%nat -> (forall l, In (TAct l) ls -> n_label_ok l) -> calm may_tick ls ->
    exec (it_timed prio0 minp maxp ext_prio n may_tick) x0 ls = Some (x, es) -> igood x.
  Proof.
    intros Hn HL CM E. split; [exact (it_base _ _ _ _ Hn HL E)|]. revert x es E. induction ls as [|l ls IH] using rev_ind; intros x es E.
    - injection E as <- <-. intros t c R. discriminate.
    - rewrite exec_app in E. destruct (exec (it_timed prio0 minp maxp ext_prio n may_tick) x0 ls) as [[x1 e1]|] eqn:E1; [|discriminate].
      assert (HL1 : forall m, In (TAct m) ls -> n_label_ok m) by (intros m M; apply HL, in_or_app; now left).
      assert (NO := CM ls [l] x1 e1 eq_refl E1).
      pose proof (it_base _ _ _ _ Hn HL1 E1) as (I & _). pose proof (it_run_pend _ _ _ _ Hn HL1 E1) as RP.
      assert (IH' : poll_ok (t_st x1)).
      { apply (IH HL1) with (es := e1); [|reflexivity]. intros a b y e -> X. apply (CM a (b ++ [l]) y e); [now rewrite app_assoc|exact X]. }
      cbn [exec] in E. destruct (it_timed prio0 minp maxp ext_prio n may_tick x1 l) as [[x2 e2]|] eqn:E2; [|discriminate]. injection E as <- <-.
      unfold it_timed in E2. destruct l as [l|].
      + apply t_act_inv in E2. destruct E2 as (_ & _ & s' & e & S & -> & ->). cbn [t_st]. apply (poll_step _ _ _ _ I S); [|exact IH'].
        intros t u ms A B. destruct (RP _ _ A) as (t0 & A'). destruct (RP _ _ B) as (t1 & B'). exact (NO t u t0 t1 ms A' B').
      + apply t_tick_inv in E2. destruct E2 as (_ & -> & ->). exact IH'.
  Qed.

  Lemma it_urgent_shape x : ibase x -> it_urgent prio0 minp maxp ext_prio n x = true ->
    (n_task (t_st x) = KDorm \/ n_task (t_st x) = KRun) /\
    forall t, n_idle (t_st x) t \/
      (exists ms, n_thr (t_st x) t = IQue (IT (TWait ms)) /\ (ms <> -1 -> t_now x < t_since x t + ms)) \/
      (exists c, n_thr (t_st x) t = IPoll c /\ n_dormant (t_st x) = false).
  Proof.
    intros (I & ID) U. unfold it_urgent, urgent in U. apply andb_prop in U. destruct U as (U & UT). pose proof (forallb_seq _ _ U) as U'. cbn beta in U'. clear U.
    set (s := t_st x) in *.
    assert (NT : forall t, stp s (NStep t) = None).
    { intros t. destruct (le_lt_dec n t) as [G|G]; [cbn [n_step]; specialize (ID t G); unfold n_idle in ID; now rewrite ID|].
      specialize (U' t G). destruct (stp s (NStep t)); [discriminate|reflexivity]. }
    assert (M : n_mtx s = None).
    { destruct (n_mtx s) as [u|] eqn:M; [|reflexivity]. apply (si_mtx s I) in M. elim (holder_moves prio0 minp maxp ext_prio s u I M). apply NT. }
    assert (NS : forall t, starting (n_thr s t) = false).
    { intros t. destruct (starting (n_thr s t)) eqn:S; [|reflexivity]. elim (starter_moves prio0 minp maxp ext_prio s t I S). apply NT. }
    split.
    - unfold it_prompt in UT. assert (TK := si_task s I). assert (W := si_wit s I). cbn [n_step] in UT.
      destruct (n_task s) eqn:K; auto; cbn in TK; try discriminate.
      + destruct (n_st s); [discriminate|]. destruct W as (u & A); [auto|]. rewrite NS in A. discriminate.
      + contradiction.
    - intros t. unfold n_idle. specialize (NT t). specialize (NS t). pose proof (si_pc s I t) as P. pose proof (holder_moves prio0 minp maxp ext_prio s t I) as HM.
      destruct (holds (n_thr s t)) eqn:H; [elim (HM eq_refl NT)|]. clear HM.
      destruct (n_thr s t) as [|c|c|c| | | | | |r| |c|c|c| |] eqn:Q; cbn in P, NS, H; auto; try discriminate; right.
      + cbn [n_step] in NT. rewrite Q, M in NT. destruct c as [[]|?|]; try (exfalso; exact P); discriminate.
      + cbn [n_step] in NT. rewrite Q in NT. destruct c as [[]|?|]; try (exfalso; exact P); cbn in H; try discriminate. cbn in NT. destruct (n_task s); try discriminate; destruct (n_fin s); discriminate.
      + destruct P as (P & _). cbn [n_step] in NT. rewrite Q in NT. destruct c as [[]|?|]; try (exfalso; exact P); cbn in H; discriminate.
      + cbn [n_step] in NT. rewrite Q in NT. destruct c as [[]|?|]; try (exfalso; exact P). destruct (n_task s); try discriminate; destruct (ms <? -1); try discriminate; destruct (n_fin s); try discriminate; destruct (ms =? 0); discriminate.
      + left. destruct c as [[]|?|]; destruct P as (P & _); try (exfalso; exact P). exists ms. split; [reflexivity|]. intros N.
        destruct (le_lt_dec n t) as [G|G]; [specialize (ID t G); unfold n_idle in ID; fold s in ID; congruence|].
        specialize (U' t G). rewrite NT in U'. cbn [andb n_step] in U'. fold s in U'. rewrite Q in U'. destruct (Z.eqb_spec ms (-1)) as [|_]; [contradiction|].
        unfold due, it_expiry in U'. fold s in U'. rewrite Q in U'. cbn [it_who] in U'. apply negb_true_iff in U'. apply Z.leb_gt in U'. exact U'.
      + right. exists c. split; [reflexivity|]. cbn [n_step] in NT. rewrite Q in NT. destruct (n_dormant s); [|reflexivity]. destruct c as [[]|?|]; try (exfalso; exact P). discriminate.
      + destruct P.
      + cbn [n_step] in NT. rewrite Q in NT. discriminate.
  Qed.

  Definition nL (x : tst its) (t : nat) (t0 : Z) (c : icall) : Prop :=
    t0 <= t_now x /\
    match n_thr (t_st x) t with
    | IIdle => t = 0%nat /\ (n_task (t_st x) = KFin \/ n_task (t_st x) = KExit)
    | IWai d => d = c /\ t_now x = t0
    | IQue d => d = c /\ t_since x t = t0
    | _ => True
    end /\ forall m, itron_thread_limit c = Some m -> t_now x <= t0 + wait_ms m.
  Theorem it_not_late ls x es : (0 < n)%nat -> (forall l, In (TAct l) ls -> n_label_ok l) -> calm (it_urgent prio0 minp maxp ext_prio n) ls ->
    exec ustep x0 ls = Some (x, es) -> not_late itron_thread_limit 1 (t_now x) es.
  Proof.
    intros Hn HL CM E.
    assert (WN : forall m, 0 <= wait_ms m) by (intros m; unfold wait_ms; lia).
    destruct (vtimed_calls its ilabel icall ires stp it_who n it_starts it_expiry (it_urgent prio0 minp maxp ext_prio n) (fun _ => True) igood nL
      (fun t t0 c t1 r => forall m, itron_thread_limit c = Some m -> t0 <= t1 <= t0 + wait_ms m)) with (x0 := @t_init its (n_init prio0)) (ls := ls) (x := x) (es := es) as (HP & H).
    - exact it_shape.
    - intros y l y' es' t c (J & _) _ S F. apply t_act_inv in S. destruct S as (_ & _ & s' & e & S & -> & ->).
      rewrite filter_stamp in F. unfold nL. cbn [t_st t_now t_since]. split; [lia|]. split; [|intros m _; specialize (WN m); lia].
      destruct l; it_cases S; cbn in F; try discriminate F; injection F as <- <-; cbn [n_go n_thr n_task]; rewrite ?fupd_same.
      1,2: match goal with h : n_entry _ _ = Some _ |- _ => apply entry_is in h; destruct h as [-> |[-> | ->]]; auto end.
      match goal with h : n_thr _ _ = IIdle |- _ => rewrite h end. auto.
    - intros y l y' es' t t0 c (J & PO) _ (T0 & Pt & Pl) S HR. apply t_act_inv in S. destruct S as (_ & X & s' & e & S & -> & ->).
      unfold nL. cbn [t_st t_now t_since]. split; [exact T0|]. split; [|exact Pl].
      assert (HR' : forall z, In z e -> about t z = false) by (intros z Z; apply (HR (t_now y, z)); apply in_map_iff; eauto). clear HR.
      destruct J as (I & _). assert (SZ := si_zero _ I).
      destruct (Nat.eq_dec t (it_who l)) as [->|N].
      2:{ rewrite (it_since y l t N). destruct (it_other _ _ _ _ t S (or_introl N)) as [-> |(d & _ & Q & ->)]; [|exact Logic.I].
          destruct (n_thr (t_st y) t) eqn:Q; try exact Pt. destruct Pt as (-> & K). split; [reflexivity|].
          destruct l; it_cases S; cbn [it_who n_go n_task] in *; auto; try (destruct K; congruence).
          exfalso. pose proof (si_pc _ I t) as PC. match goal with h : n_thr _ _ = IDel |- _ => rewrite h in PC end. exact PC. }
      destruct l as [u d|u|u|u|]; cbn [it_who] in *.
      + exfalso. it_cases S; specialize (HR' _ (or_introl eq_refl)); cbn in HR'; rewrite Nat.eqb_refl in HR'; discriminate.
      + it_cases S; cbn [it_starts n_go n_thr n_task] in *;
          repeat match goal with h : n_thr _ _ = _ |- _ => rewrite h in Pt |- * | h : n_thr _ _ = _ |- _ => rewrite h in Pt end;
          rewrite ?fupd_same; try exact Logic.I; try exact Pt;
          try (exfalso; specialize (HR' _ (or_introl eq_refl)); cbn in HR'; rewrite Nat.eqb_refl in HR'; discriminate).
        all: destruct Pt; split; [assumption|]; match goal with h : n_thr _ _ = IWai _ |- _ => rewrite h end; cbn iota; rewrite fupd_same; assumption.
      + it_cases S; cbn [n_go n_thr]; rewrite fupd_same; exact Logic.I.
      + it_cases S. cbn [it_starts]. match goal with h : n_thr _ _ = _ |- _ => rewrite h end. exact Logic.I.
      + cbn [it_starts]. it_cases S; cbn [n_thr n_task] in *.
        * destruct SZ as [Z|Z]; [|congruence]. rewrite Z in Pt |- *. destruct Pt as (_ & [K|K]); congruence.
        * exfalso. apply (Bool.diff_true_false). rewrite <- (HR' (Call 0%nat (IT TBegin)) (or_introl eq_refl)). reflexivity.
        * exfalso. apply (Bool.diff_true_false). rewrite <- (HR' (Call 0%nat (IT TEnd)) (or_introl eq_refl)). reflexivity.
        * destruct SZ as [Z|Z]; [|congruence]. rewrite Z. auto.
        * exfalso. apply (Bool.diff_true_false). rewrite <- (HR' (Ret 0%nat (IR RVoid)) (or_intror (or_introl eq_refl))). reflexivity.
    - intros y y' es' t t0 c (J & PO) (T0 & Pt & Pl) S. apply t_tick_inv in S. destruct S as (U & _ & ->). unfold nL. cbn [t_st t_now t_since]. split; [lia|].
      destruct (it_urgent_shape y J U) as (KD & A). destruct (A t) as [Q|[(ms & Q & D)|(d & Q & D)]].
      + exfalso. unfold n_idle in Q. rewrite Q in Pt. destruct Pt as (_ & K). destruct KD, K; congruence.
      + rewrite Q in Pt |- *. destruct Pt as (<- & SI). split; [auto|]. intros m Lm. cbn in Lm. unfold of_ms in Lm.
        destruct (Z.eqb_spec ms (-1)) as [|NE]; [discriminate|]. injection Lm as <-. specialize (D NE). unfold wait_ms. lia.
      + exfalso. unfold n_dormant in D. destruct (PO t d Q) as [K|K]; [destruct KD; congruence|rewrite K in D; discriminate].
    - intros y l y' es' t t0 c r _ _ (T0 & _ & Pl) S F m Lm. specialize (Pl m Lm). lia.
    - intros y l y' es' t c r _ _ S F m Lm. specialize (WN m). lia.
    - auto.
    - intros ls1 ls2 x1 e1 -> E1. apply (it_good _ _ _ _ Hn) with (3 := E1).
      + intros l Hl. apply HL, in_or_app. now left.
      + intros a b z e -> X. apply (CM a (b ++ ls2) z e); [now rewrite app_assoc|exact X].
    - exact E.
    - split; [intros t t0 c m t1 r T Lm; specialize (H _ _ _ _ _ T m Lm); lia|].
      intros t t0 c m T Lm. destruct (HP _ _ _ T) as (A & _ & B). specialize (B m Lm). lia.
  Qed.

  (** the clock never stops *)
  Theorem it_time_goes_on ls0 x es0 : (0 < n)%nat -> exec ustep x0 ls0 = Some (x, es0) ->
    exists ls x1 es1, (length ls <= 15 * n + 5)%nat /\ exec ustep x ls = Some (x1, es1) /\ t_now x1 = t_now x /\
      ustep x1 TTick = Some (mkT (t_st x1) (t_now x + 1) (t_since x1), []).
  Proof.
    intros Hn E.
    assert (ID : forall t, (n <= t)%nat -> n_idle (t_st x) t).
    { revert E. apply (exec_inv_st _ _ _ ustep (fun x => forall t, (n <= t)%nat -> n_idle (t_st x) t)); [|intros t _; reflexivity].
      intros y l y' es' H S t Lt. unfold it_timed in S. unfold n_idle in *. destruct l as [l|].
      - apply t_act_inv in S. destruct S as (W & _ & s' & e & S & _ & ->). cbn [t_st].
        destruct (it_other _ _ _ _ t S) as [-> |(c & _ & Q & _)]; [left; lia|now apply H|]. rewrite (H t Lt) in Q. discriminate.
      - apply t_tick_inv in S. destruct S as (_ & _ & ->). now apply H. }
    apply (clock_goes_on its ilabel icall ires stp it_who n it_starts it_expiry (it_urgent prio0 minp maxp ext_prio n) n_own_step).
    - clear - Hn. intros x U. unfold it_urgent in U. apply andb_false_iff in U. destruct U as [U|U].
      + unfold urgent in U.
        assert (X : exists t, (t < n)%nat /\ (match stp (t_st x) (NStep t) with Some _ => false | None => true end &&
                match stp (t_st x) (NTimeout t) with Some _ => negb (due its ilabel it_who it_expiry x (NTimeout t)) | None => true end) = false).
        { revert U. match goal with |- forallb ?g _ = false -> _ => set (f := g) end. intros U.
          assert (G : forall l, forallb f l = false -> exists t, In t l /\ f t = false).
          { induction l as [|a l IH]; cbn; [discriminate|]. destruct (f a) eqn:F; [|eauto]. intros H. destruct (IH H) as (t & A & B). eauto. }
          destruct (G _ U) as (t & A & B). exists t. apply in_seq in A. split; [lia|exact B]. }
        destruct X as (t & Lt & X). assert (Ltb : Nat.ltb t n = true) by now apply Nat.ltb_lt.
        destruct (stp (t_st x) (NStep t)) as [[s' e]|] eqn:G.
        * exists (NStep t). unfold t_step, due. cbn [it_who it_expiry]. rewrite Ltb, G. cbn [andb]. eexists _, _. split; [exact I|reflexivity].
        * cbn [andb] in X. destruct (stp (t_st x) (NTimeout t)) as [[s' e]|] eqn:G'; [|discriminate].
          apply negb_false_iff in X. exists (NTimeout t). unfold t_step. cbn [it_who]. rewrite X, Ltb, G'. cbn [andb]. eexists _, _. split; [exact I|reflexivity].
      + unfold it_prompt in U. assert (Ltb : Nat.ltb 0 n = true) by now apply Nat.ltb_lt.
        assert (X : exists s' e, stp (t_st x) NTask = Some (s', e)).
        { destruct (n_task (t_st x)); try discriminate; destruct (stp (t_st x) NTask) as [[s' e]|]; try discriminate; eauto. }
        destruct X as (s' & e & X). exists NTask. unfold t_step, due. cbn [it_who it_expiry]. rewrite Ltb, X. cbn [andb]. eexists _, _. split; [exact I|reflexivity].
    - intros ls s' es O X. apply (itron_thread_calls_end prio0 minp maxp ext_prio n (t_st x) ls s' es); [exact ID|exact O|exact X].
  Qed.
End IT.

(** the calls in progress, computed (used to check examples) *)
Section Open.
  Notation ev := (Z * event icall ires)%type.
  Definition opn1 (o : list (nat * icall)) (y : ev) : list (nat * icall) :=
    match snd y with
    | Call t c => (t, c) :: filter (fun p => negb (Nat.eqb (fst p) t)) o
    | Ret t _ => filter (fun p => negb (Nat.eqb (fst p) t)) o
    | Eff _ _ _ => o
    end.
  Definition opn (o : list (nat * icall)) (es : list ev) := fold_left opn1 es o.
  Lemma opn_keeps es : forall o t c, In (t, c) o -> (forall y, In y es -> about t (snd y) = false) -> In (t, c) (opn o es).
  Proof.
    induction es as [|y es IH]; intros o t c H A; [exact H|]. cbn. apply IH; [|intros z Z; apply A; now right].
    specialize (A y (or_introl eq_refl)). unfold opn1. destruct (snd y) as [u d|u d r|u r]; cbn in A; auto; [right|]; apply filter_In; (split; [exact H|]); cbn; now rewrite Nat.eqb_sym, A.
  Qed.
  Lemma opn_pending es o t t0 c : pending es t t0 c -> In (t, c) (opn o es).
  Proof. intros (a & b & -> & A). unfold opn. rewrite fold_left_app. cbn. apply opn_keeps; [now left|exact A]. Qed.
  Definition is_wait (c : icall) : bool := match c with IT (TWait _) => true | _ => false end.
  Definition is_start (c : icall) : bool := match c with IT TStart => true | _ => false end.
  Definition apart (o : list (nat * icall)) : bool := negb (existsb (fun p => is_wait (snd p)) o && existsb (fun p => is_start (snd p)) o).
  Lemma apart_ok es : apart (opn [] es) = true -> no_overlap es.
  Proof.
    intros A t u t0 t1 ms P Q. apply opn_pending with (o := []) in P. apply opn_pending with (o := []) in Q. unfold apart in A. apply negb_true_iff, andb_false_iff in A.
    destruct A as [A|A].
    - assert (B : existsb (fun p => is_wait (snd p)) (opn [] es) = true) by (apply existsb_exists; eexists; split; [exact P|reflexivity]). congruence.
    - assert (B : existsb (fun p => is_start (snd p)) (opn [] es) = true) by (apply existsb_exists; eexists; split; [exact Q|reflexivity]). congruence.
  Qed.
  Variable step : tst its -> tlab ilabel -> option (tst its * list ev).
  Fixpoint calmb (o : list (nat * icall)) (x : tst its) (ls : list (tlab ilabel)) : bool :=
    apart o && match ls with [] => true | l :: ls' => match step x l with Some (x', e) => calmb (opn o e) x' ls' | None => true end end.
  Lemma calmb_ok ls : forall o x, calmb o x ls = true -> forall ls1 ls2 x1 e1, ls = ls1 ++ ls2 -> exec step x ls1 = Some (x1, e1) -> apart (opn o e1) = true.
  Proof.
    induction ls as [|l ls IH]; intros o x H ls1 ls2 x1 e1 EQ E; cbn in H; apply andb_prop in H; destruct H as (A & H).
    - destruct ls1; [|discriminate]. injection E as <- <-. exact A.
    - destruct ls1 as [|m ls1]; [injection E as <- <-; exact A|]. injection EQ as <- EQ. cbn [exec] in E. destruct (step x l) as [[x2 e2]|]; [|discriminate].
      destruct (exec step x2 ls1) as [[x3 e3]|] eqn:E3; [|discriminate]. injection E as <- <-. unfold opn. rewrite fold_left_app. exact (IH _ _ H ls1 ls2 x3 e3 EQ E3).
  Qed.
End Open.
