(** Timers fire no later than they should, and the clock can always go on. *)
From Coq Require Import List ZArith Bool Arith Lia.
Import ListNotations.
From Verif Require Import Spec.Linear Spec.TimerSpec Spec.TimedSpec Spec.TimerTimeSpec OS.Sched OS.TimerModel OS.TimerProofs OS.TimerLiveness OS.TimedModel OS.TimedProofs
  OS.TimerTimeModel OS.TimerTimeProofs.
Open Scope Z_scope.

Lemma abs_of p s es s1 : linto p s es -> sp_run (mspec p) m_new (effects es) s1 -> s1 = abs s.
Proof.
  intros L. apply linto_effects in L. revert L. generalize (effects es) m_new (abs s). clear.
  induction l as [|[[t c] r] l IH]; intros a b A B; inversion A; subst; inversion B; subst; [reflexivity|].
  match goal with H1 : mspec p a t c r ?u, H2 : mspec p a t c r ?v |- _ => assert (u = v) by (eapply mspec_det; eassumption); subst end.
  eapply IH; eassumption.
Qed.

Section Timer.
  Variables (p : bool) (ms : Z) (n : nat).
  Hypothesis MS : 0 <= ms.
  Notation tstep := (tm_timed p ms n (tm_urgent p ms n)).

  Definition late_ok (s : mst) (now sn : Z) (M : list (Z * mmark)) : Prop :=
    match m_nat s with
    | LCheck => m_active s = true -> last_armed M = Some now
    | LTimed | LTCheck => last_armed M = Some sn /\ now <= sn + ms
    | LFire => last_armed M = Some (now - ms)
    | _ => True
    end /\ on_time ms M.
  Definition linv (x : tst mst) (es : list (Z * event mcall mres)) : Prop :=
    minv p (t_st x) /\ linto p (t_st x) (map snd es) /\ late_ok (t_st x) (t_now x) (t_since x 0%nat) (timer_marks p es).

  Lemma late_init : late_ok m_init 0 0 [].
  Proof. split; [discriminate|]. intros a t1 d E. destruct a; discriminate. Qed.
  Lemma asleep_off s : minv p s -> m_nat s = LSleep -> m_active s = false.
  Proof. intros [_ FL _] N. rewrite N in FL. revert FL. cbn. destruct (m_active s); [|reflexivity]. rewrite !andb_false_r. discriminate. Qed.

  Lemma late_client s s' now sn M K : minv p s -> late_ok s now sn M ->
    (K = [] /\ (m_nat s' = m_nat s \/ m_nat s' = wake_active (m_nat s)) /\ m_active s' = m_active s) \/
    (K = [KStart] /\ (m_nat s = LCheck \/ m_nat s = LSleep \/ m_nat s = LDone) /\ m_nat s' = wake_active (m_nat s) /\ m_active s' = true) \/
    ((K = [KCancel] \/ K = [KLate]) /\ m_nat s' = wake_active (m_nat s) /\ m_active s' = false) ->
    late_ok s' now sn (M ++ at_now now K).
  Proof.
    intros I (C & D) [(-> & N & A)|[(-> & N0 & N & _)|(K' & N & A)]]; unfold late_ok.
    - cbn [map]. rewrite app_nil_r. split; [|exact D]. pose proof (asleep_off s I) as AS.
      destruct N as [-> | ->]; rewrite ?A; destruct (m_nat s); cbn; auto. rewrite (AS eq_refl). discriminate.
    - cbn [map]. split; [|apply on_time_snoc; [exact D|discriminate]].
      rewrite N, last_armed_app. destruct N0 as [-> |[-> | ->]]; cbn; auto.
    - assert (X : exists k, K = [k] /\ arms k = false /\ k <> KBegin) by (destruct K' as [-> | ->]; eexists; (split; [reflexivity|split; [reflexivity|discriminate]])).
      destruct X as (k & -> & Ak & Nk). cbn [map]. split; [|apply on_time_snoc; [exact D|tauto]].
      rewrite N, A, last_armed_app. cbn [fold_left snd fst]. rewrite Ak. destruct (m_nat s); cbn; auto; discriminate.
  Qed.
  Lemma linv_step x es l x' es' : linv x es -> tstep x l = Some (x', es') -> linv x' (es ++ es').
  Proof.
    intros (I & L & EO) S. destruct l as [l|].
    - unfold tm_timed in S. apply t_act_inv in S. destruct S as (_ & DUE & s' & e & E & -> & ->).
      assert (L' : linto p s' (map snd es ++ e)) by (eapply linto_step; eassumption).
      split; [cbn; eapply minv_step; eassumption|].
      split; [cbn [t_st]; rewrite map_app, map_map; cbn [snd]; rewrite map_id; exact L'|].
      cbn [t_st t_now t_since]. rewrite (timer_marks_app p es (t_st x) (t_now x) e L).
      destruct (match l with XCall _ _ | XStep _ | XSpurious _ => true | _ => false end) eqn:CL.
      + replace (tm_starts (t_st x) l) with false by (destruct l; try discriminate; reflexivity).
        apply (late_client _ _ _ _ _ _ I EO). apply (client_marks p _ l); [exact I|exact E|destruct l; try discriminate; exact Logic.I].
      + pose proof (timer_marks_step p (t_st x) l s' e E ltac:(destruct l; try discriminate; exact Logic.I)) as T. cbv zeta in T.
        pose proof (minv_step p _ _ _ _ I E) as I'. pose proof (mi_flags _ _ I') as FL'.
        set (K := mmarks p (abs (t_st x)) (effects e)) in *. clearbody K. destruct EO as (C & D). unfold late_ok.
        destruct l as [t c|t|t| | |]; try discriminate; cbn [tm_starts tm_who].
        * destruct (m_nat (t_st x)) eqn:EN; cbn [fupd Nat.eqb]; rewrite ?fupd_same; try contradiction.
          -- destruct T as (-> & A & T). cbn [map]. rewrite app_nil_r. split; [|exact D].
             destruct T as [T|[T|[T|T]]]; rewrite T; auto; cbn in E; rewrite EN in E; (split; [|lia]);
               (destruct (m_active (t_st x)); [now apply C|]); cbn in E; destruct (m_end (t_st x)); injection E as <- <-; cbn in T; discriminate.
          -- destruct T as (-> & A & T). cbn [map]. rewrite app_nil_r. split; [|exact D].
             destruct T as [-> |[-> |(-> & T)]]; auto. intros X. congruence.
          -- destruct T as (-> & ->). cbn [map]. split; [exact Logic.I|]. apply on_time_snoc; [exact D|]. intros _. exact C.
          -- destruct T as [(_ & -> & ->)|(_ & -> & ->)]; cbn [map]; rewrite ?app_nil_r; [|split; [exact Logic.I|exact D]].
             split; [|apply on_time_snoc; [exact D|discriminate]]. rewrite last_armed_app. cbn. split; [reflexivity|lia].
          -- destruct T as (-> & -> & A). cbn [map]. split; [|apply on_time_snoc; [exact D|discriminate]]. rewrite A. discriminate.
        * destruct (m_nat (t_st x)) eqn:EN; try contradiction. specialize (DUE ms eq_refl). cbn in DUE.
          destruct T as (-> & A & T). cbn [map]. rewrite app_nil_r. split; [|exact D]. destruct C as (C & C').
          destruct T as [-> |[-> |(-> & T)]]; auto; [|intros X; congruence]. rewrite C. f_equal. lia.
        * destruct (m_nat (t_st x)) eqn:EN; try contradiction; destruct T as (-> & A & ->); cbn [map]; rewrite app_nil_r; (split; [|exact D]); auto.
          rewrite A, (asleep_off _ I EN). discriminate.
    - unfold tm_timed in S. apply t_tick_inv in S. destruct S as (U & -> & ->). rewrite app_nil_r. split; [exact I|]. split; [exact L|].
      destruct EO as (C & D). unfold late_ok. cbn [t_st t_now t_since]. split; [|exact D].
      unfold tm_urgent in U. apply andb_prop in U. destruct U as (_ & U). destruct (m_nat (t_st x)); auto; try discriminate.
      apply Z.ltb_lt in U. split; [apply C|lia].
  Qed.
  Lemma linv_exec ls x es : exec tstep (t_init m_init) ls = Some (x, es) -> linv x es.
  Proof.
    intros E. apply (exec_inv _ _ _ tstep linv (fun s es l s' es' => linv_step s es l s' es') ls (t_init m_init) [] x es); [|exact E].
    split; [apply minv_init|]. split; [apply linto_init|exact late_init].
  Qed.
  Theorem tm_on_time ls x es : exec tstep (t_init m_init) ls = Some (x, es) -> on_time ms (timer_marks p es).
  Proof. intros E. apply linv_exec in E. apply E. Qed.
  Theorem tm_not_late ls x es s : exec tstep (t_init m_init) ls = Some (x, es) ->
    sp_run (mspec p) m_new (effects (map snd es)) s -> m_on s = true -> m_phase s <> Running -> m_dead s = false ->
    exists t0, last_armed (timer_marks p es) = Some t0 /\ t0 <= t_now x <= t0 + ms.
  Proof.
    intros E SP ON PH DEAD. pose proof (einv_exec _ _ _ _ _ _ _ E) as (_ & _ & (EA & EB & _ & _)).
    apply linv_exec in E. destruct E as (I & L & (C & _)). rewrite (abs_of _ _ _ _ L SP) in *. cbn in ON, PH, DEAD.
    pose proof (mi_flags _ _ I) as FL.
    destruct (m_nat (t_st x)) eqn:EN; cbn in PH, FL; rewrite ?ON, ?DEAD in *; rewrite ?andb_false_r in FL; cbn in FL; try discriminate; try congruence.
    - exists (t_now x). split; [auto|lia].
    - destruct C as (C & C'). exists (t_since x 0%nat). split; [exact C|lia].
    - destruct C as (C & C'). exists (t_since x 0%nat). split; [exact C|lia].
    - exists (t_now x - ms). split; [exact C|lia].
  Qed.
End Timer.

(** * the clock can always go on *)
Open Scope nat_scope.
Definition wn2 (n : nat) (s : mst) : nat :=
  match m_nat s with
  | LSleep | LDone => 0
  | LCheck => if m_active s && negb (m_end s) then 4 * n + 20 else n + 1
  | LTimed => n + 8 | LTCheck => 2 * n + 10 | LFire => n + 4 | LRun => n + 3 | LClear => n + 2
  end.
Definition wq2 (n : nat) (q : mpc) : nat :=
  match q with MIdle => 0 | MRet _ => 1 | MJoin => 2 | MAsleep _ => 4 * n + 28 | MWoken _ => 4 * n + 29 | MAt _ => 4 * n + 30 end.
Definition meas2 (n : nat) (s : mst) : nat := sumn (fun t => wq2 n (m_thr s t)) n + wn2 n s.
Lemma meas2_client n s t q a st sp e nn : t < n ->
  wq2 n q + wn2 n (mkM a st sp e nn (fupd (m_thr s) t q)) < wq2 n (m_thr s t) + wn2 n s -> meas2 n (mkM a st sp e nn (fupd (m_thr s) t q)) < meas2 n s.
Proof.
  intros T H. unfold meas2. cbn [m_thr].
  pose proof (sumn_change n (fun u => wq2 n (m_thr s u)) (fun u => wq2 n (fupd (m_thr s) t q u)) t T) as X.
  cbn beta in X. rewrite fupd_same in X. specialize (X ltac:(intros u Hu; now rewrite fupd_other)). lia.
Qed.
Lemma meas2_wake n s a st sp e nn f : (forall u, f u = wake_started (m_thr s u) \/ f u = wake_stopped (m_thr s u)) ->
  n + wn2 n (mkM a st sp e nn f) < wn2 n s -> meas2 n (mkM a st sp e nn f) < meas2 n s.
Proof.
  intros F H. unfold meas2. cbn [m_thr].
  assert (X : sumn (fun t => wq2 n (f t)) n <= sumn (fun t => wq2 n (m_thr s t)) n + n); [|lia].
  apply sumn_up. intros k _. destruct (F k) as [-> | ->]; destruct (m_thr s k) as [|?|[]|?| |]; cbn; lia.
Qed.
(** the steps other than the end of the callback *)
Definition quick (s : mst) (l : mlab) : Prop := match l with XStep _ | XTimeout => True | XNat => m_nat s <> LRun | _ => False end.
Lemma meas2_step p n s l s' e : minv p s -> beyond n s -> quick s l -> m_step p s l = Some (s', e) -> meas2 n s' < meas2 n s.
Proof.
  intros I B O E. pose proof (mi_flags _ _ I) as FL.
  destruct l as [u c|u|u| | |]; try contradiction; cbn in E; unfold start_body, stop_body, leave_wait in E.
  - assert (U : u < n) by (destruct (Nat.lt_ge_cases u n) as [|G]; [assumption|]; specialize (B u G); unfold m_idle in B; rewrite B in E; discriminate).
    destruct (m_thr s u) as [|c|c|c| |r] eqn:ET; try discriminate.
    + destruct c; try discriminate; stepcases E; (apply meas2_client; [exact U|]; rewrite ET; unfold wn2; cbn; revert FL;
        repeat match goal with H : m_active s = _ |- _ => rewrite H; clear H | H : m_stopped s = _ |- _ => rewrite H; clear H | H : m_started s = _ |- _ => rewrite H; clear H end;
        destruct (m_nat s); cbn; try lia; destruct (m_active s); cbn; try lia; destruct (m_end s); cbn; try lia; rewrite ?andb_false_r; cbn; try discriminate; try lia).
    + destruct c; try discriminate; stepcases E; (apply meas2_client; [exact U|]; rewrite ET; unfold wn2; cbn; revert FL;
        repeat match goal with H : m_stopped s = _ |- _ => rewrite H; clear H | H : m_started s = _ |- _ => rewrite H; clear H end;
        destruct (m_nat s); cbn; try lia; destruct (m_active s); cbn; try lia; destruct (m_end s); cbn; try lia; rewrite ?andb_false_r; cbn; try discriminate; try lia).
    + stepcases E. apply meas2_client; [exact U|]. rewrite ET. unfold wn2. cbn. rewrite Heql. lia.
    + stepcases E. apply meas2_client; [exact U|]. rewrite ET. unfold wn2. cbn. lia.
  - destruct (m_nat s) eqn:EN; try discriminate.
    + destruct (m_active s || m_end s) eqn:EA; injection E as <- <-.
      * apply meas2_wake; [auto|]. unfold wn2. cbn. rewrite EN. destruct (m_active s), (m_end s), p; cbn in *; try discriminate; lia.
      * unfold meas2, wn2. cbn. rewrite EN. destruct (m_active s), (m_end s); cbn in *; try discriminate; lia.
    + destruct (negb (m_active s) || m_end s) eqn:EA; injection E as <- <-.
      * apply meas2_wake; [auto|]. unfold wn2. cbn. rewrite EN. destruct (m_active s), (m_end s); cbn in *; try discriminate; lia.
      * unfold meas2, wn2. cbn. rewrite EN. lia.
    + injection E as <- <-. unfold meas2, wn2. cbn. rewrite EN. lia.
    + cbn in O. congruence.
    + injection E as <- <-. unfold meas2, wn2. cbn. rewrite EN. lia.
  - destruct (m_nat s) eqn:EN; try discriminate. cbn in FL. rewrite !andb_true_iff in FL. destruct FL as ((_ & A) & X). rewrite A in E. destruct (m_end s); [discriminate|].
    cbn in E. injection E as <- <-. unfold meas2, wn2. cbn. rewrite EN. lia.
Qed.
Lemma meas2_bound n s : meas2 n s <= n * (4 * n + 30) + (4 * n + 20).
Proof.
  unfold meas2. assert (sumn (fun t => wq2 n (m_thr s t)) n <= n * (4 * n + 30)) by (apply sumn_bound; intros k _; destruct (m_thr s k); cbn; lia).
  assert (wn2 n s <= 4 * n + 20) by (unfold wn2; destruct (m_nat s); try lia; destruct (m_active s && negb (m_end s)); lia). lia.
Qed.

Section Goes.
  Variables (p : bool) (ms : Z) (n : nat).
  Notation tstep := (tm_timed p ms n (tm_urgent p ms n)).
  Definition qinv2 (x : tst mst) : Prop := minv p (t_st x) /\ beyond n (t_st x).

  Lemma beyond_any s l s' e : beyond n s -> tm_who l < n -> m_step p s l = Some (s', e) -> beyond n s'.
  Proof.
    intros B W E t T. specialize (B t T). unfold m_idle in *.
    destruct l as [u c|u|u| | |]; cbn in E, W; unfold start_body, stop_body, leave_wait in E.
    - assert (u <> t) by lia. stepcases E; cbn; rewrite fupd_other by auto; exact B.
    - assert (u <> t) by lia. stepcases E; cbn; rewrite fupd_other by auto; exact B.
    - assert (u <> t) by lia. stepcases E; cbn; rewrite fupd_other by auto; exact B.
    - stepcases E; cbn; rewrite ?B; auto.
    - stepcases E; cbn; rewrite ?B; auto.
    - stepcases E; cbn; rewrite ?B; auto.
  Qed.
  Lemma qinv2_step may x l x' es : qinv2 x -> tm_timed p ms n may x l = Some (x', es) -> qinv2 x'.
  Proof.
    intros (I & B) S. unfold tm_timed in S. destruct l as [l|].
    - apply t_act_inv in S. destruct S as (W & _ & s' & e & E & _ & ->). split; cbn [t_st]; [eapply minv_step; eassumption|eapply beyond_any; eassumption].
    - apply t_tick_inv in S. destruct S as (_ & _ & ->). split; assumption.
  Qed.
  Lemma qinv2_exec may ls x es : exec (tm_timed p ms n may) (t_init m_init) ls = Some (x, es) -> qinv2 x.
  Proof.
    apply (exec_inv_st _ _ _ (tm_timed p ms n may) qinv2 (fun s l s' e => qinv2_step may s l s' e) ls (t_init m_init) x es).
    split; [apply minv_init|]. intros t _. reflexivity.
  Qed.
  Lemma forallb_ex (A : Type) (f : A -> bool) l : forallb f l = false -> exists t, In t l /\ f t = false.
  Proof. induction l as [|a l IH]; cbn; [discriminate|]. destruct (f a) eqn:F; [|eauto]. intros H. destruct (IH H) as (t & A1 & A2). eauto. Qed.

  Hypothesis N0 : 0 < n.
  Lemma can_act x : qinv2 x -> tm_urgent p ms n x = false ->
    exists l s' e x' es, quick (t_st x) l /\ m_step p (t_st x) l = Some (s', e) /\ tstep x (TAct l) = Some (x', es) /\ t_st x' = s' /\ t_now x' = t_now x.
  Proof.
    intros (I & B) U. unfold tm_urgent in U.
    assert (ACT : forall l s' e, m_step p (t_st x) l = Some (s', e) -> tm_who l < n -> due mst mlab tm_who (tm_expiry ms) x l = true -> quick (t_st x) l ->
      exists l s' e x' es, quick (t_st x) l /\ m_step p (t_st x) l = Some (s', e) /\ tstep x (TAct l) = Some (x', es) /\ t_st x' = s' /\ t_now x' = t_now x).
    { intros l s' e E W D Q. exists l, s', e. unfold tm_timed, t_step. apply Nat.ltb_lt in W. rewrite W, D, E. cbn [andb]. eexists _, _. repeat split; auto. }
    destruct (forallb _ (seq 0 n)) eqn:F; cbn [andb] in U.
    - destruct (m_nat (t_st x)) eqn:EN; try discriminate.
      + destruct (m_step p (t_st x) XNat) as [[s' e]|] eqn:E; [apply (ACT XNat s' e E); cbn; auto; congruence|].
        exfalso. cbn in E. rewrite EN in E. destruct (m_active (t_st x) || m_end (t_st x)); discriminate.
      + apply Z.ltb_ge in U. destruct (m_step p (t_st x) XTimeout) as [[s' e]|] eqn:E.
        * apply (ACT XTimeout s' e E); cbn; auto. unfold due. cbn. now apply Z.leb_le.
        * exfalso. cbn in E. rewrite EN in E. destruct (negb (m_active (t_st x)) || m_end (t_st x)); discriminate.
      + destruct (m_step p (t_st x) XNat) as [[s' e]|] eqn:E; [apply (ACT XNat s' e E); cbn; auto; congruence|].
        exfalso. cbn in E. rewrite EN in E. destruct (negb (m_active (t_st x)) || m_end (t_st x)); discriminate.
      + destruct (m_step p (t_st x) XNat) as [[s' e]|] eqn:E; [apply (ACT XNat s' e E); cbn; auto; congruence|].
        exfalso. cbn in E. rewrite EN in E. discriminate.
      + destruct (m_step p (t_st x) XNat) as [[s' e]|] eqn:E; [apply (ACT XNat s' e E); cbn; auto; congruence|].
        exfalso. cbn in E. rewrite EN in E. discriminate.
    - apply forallb_ex in F. destruct F as (t & T & F). apply in_seq in T.
      destruct (m_step p (t_st x) (XStep t)) as [[s' e]|] eqn:E; [|discriminate].
      apply (ACT (XStep t) s' e E); cbn; auto. lia.
  Qed.
  Lemma goes_on : forall k x, qinv2 x -> meas2 n (t_st x) <= k ->
    exists ls x1 es1, length ls <= k /\ exec tstep x ls = Some (x1, es1) /\ t_now x1 = t_now x /\
      tstep x1 TTick = Some (mkT (t_st x1) (t_now x + 1)%Z (t_since x1), []).
  Proof.
    induction k as [|k IH]; intros x Q M.
    - exists [], x, []. cbn. split; [lia|]. split; [reflexivity|]. split; [reflexivity|]. unfold tm_timed, t_step.
      destruct (tm_urgent p ms n x) eqn:U; [reflexivity|]. exfalso.
      destruct (can_act x Q U) as (l & s' & e & x' & es & QK & E & _). pose proof (meas2_step p n _ _ _ _ (proj1 Q) (proj2 Q) QK E). lia.
    - destruct (tm_urgent p ms n x) eqn:U.
      + exists [], x, []. cbn. split; [lia|]. split; [reflexivity|]. split; [reflexivity|]. unfold tm_timed, t_step. now rewrite U.
      + destruct (can_act x Q U) as (l & s' & e & x' & es & QK & E & S & ST & NOW).
        pose proof (meas2_step p n _ _ _ _ (proj1 Q) (proj2 Q) QK E) as D. subst s'.
        destruct (IH x') as (ls & x1 & es1 & A & A2 & A3 & A4); [eapply qinv2_step; eassumption|lia|].
        exists (TAct l :: ls), x1, (es ++ es1). split; [cbn; lia|]. split; [cbn [exec]; rewrite S, A2; reflexivity|].
        split; [now rewrite A3|]. rewrite <- NOW. exact A4.
  Qed.
  Theorem tm_clock_goes_on ls0 x es0 : exec tstep (t_init m_init) ls0 = Some (x, es0) ->
    exists ls x1 es1, length ls <= n * (4 * n + 30) + (4 * n + 20) /\ exec tstep x ls = Some (x1, es1) /\ t_now x1 = t_now x /\
      tstep x1 TTick = Some (mkT (t_st x1) (t_now x + 1)%Z (t_since x1), []).
  Proof. intros E. apply (goes_on _ x (qinv2_exec _ _ _ _ E) (meas2_bound n _)). Qed.
End Goes.

(** * how long start, stop and destroy take *)
Open Scope Z_scope.
Lemma pending_status (sp : mstate -> nat -> mcall -> mres -> mstate -> Prop) (es : list (Z * event mcall mres)) t t0 c f s :
  pending es t t0 c -> lin_run sp (fun _ => Out) m_new (map snd es) f s -> f t = Pending c \/ exists r, f t = Done r.
Proof.
  intros (a & b & -> & H) L. rewrite map_app in L. apply lin_run_app_inv in L. destruct L as (f1 & s1 & _ & L). cbn in L. inversion L; subst.
  match goal with h : lin_run sp _ _ (map snd b) _ _ |- _ => rename h into L2 end.
  assert (G : set_st f1 t (Pending c) t = Pending c \/ exists r, set_st f1 t (Pending c) t = Done r) by (left; unfold set_st; now rewrite Nat.eqb_refl).
  revert L2 G. generalize (set_st f1 t (Pending c)). clear L. revert s1.
  induction b as [|[z [u k|u k r|u r]] b IH]; intros s1 g L2 G; cbn in L2; inversion L2; subst.
  - exact G.
  - refine (IH _ _ _ ltac:(eassumption) _); [intros y Y; apply H; now right|].
    specialize (H (z, Call u k) (or_introl eq_refl)). cbn in H. apply Nat.eqb_neq in H. unfold set_st. destruct (Nat.eqb_spec t u); [congruence|exact G].
  - refine (IH _ _ _ ltac:(eassumption) _); [intros y Y; apply H; now right|].
    unfold set_st. destruct (Nat.eqb t u); eauto.
  - refine (IH _ _ _ ltac:(eassumption) _); [intros y Y; apply H; now right|].
    specialize (H (z, Ret u r) (or_introl eq_refl)). cbn in H. apply Nat.eqb_neq in H. unfold set_st. destruct (Nat.eqb_spec t u); [congruence|exact G].
Qed.

Section Waits.
  Variables (p : bool) (ms : Z) (n : nat).
  Notation tstep := (tm_timed p ms n (tm_urgent p ms n)).

  Lemma untimed ls x es : exec tstep (t_init m_init) ls = Some (x, es) -> exec (m_step p) m_init (acts mlab ls) = Some (t_st x, map snd es).
  Proof. intros E. exact (timed_exec _ _ _ _ _ _ _ _ _ _ _ _ _ _ E). Qed.
  (** while time passes, a call in progress sleeps *)
  Lemma tick_pending ls x es t t0 c : exec tstep (t_init m_init) ls = Some (x, es) -> tm_urgent p ms n x = true -> pending es t t0 c ->
    (m_thr (t_st x) t = MAsleep c /\ (c = MStart \/ c = MStop)) \/
    (m_thr (t_st x) t = MJoin /\ m_end (t_st x) = true /\ m_nat (t_st x) <> LDone /\ t <> 0%nat).
  Proof.
    intros E U PD. pose proof (qinv2_exec p ms n _ _ _ _ E) as (I & B). apply untimed in E. pose proof (linto_exec _ _ _ _ E) as (f & L & F).
    pose proof (pending_status _ _ _ _ _ _ _ PD L) as G. rewrite F in G. unfold tm_urgent in U. apply andb_prop in U. destruct U as (U1 & U2).
    assert (NC : m_nat (t_st x) <> LClear) by (intros X; rewrite X in U2; discriminate).
    assert (ST : stof (t_st x) t = st_of (m_thr (t_st x) t)).
    { unfold stof. destruct (Nat.eqb_spec t 0) as [->|]; [|reflexivity]. destruct (m_nat (t_st x)); try reflexivity; congruence. }
    rewrite ST in G. assert (T : (t < n)%nat).
    { destruct (Nat.lt_ge_cases t n) as [|X]; [assumption|]. unfold beyond, m_idle in B. rewrite (B t X) in G. cbn in G. destruct G as [G|(r & G)]; discriminate G. }
    assert (NX : m_step p (t_st x) (XStep t) = None).
    { apply forallb_seq with (t := t) in U1; [|exact T]. destruct (m_step p (t_st x) (XStep t)); [discriminate|reflexivity]. }
    pose proof (mi_thr _ _ I t) as MK.
    destruct (stuck_thread p _ t I NX) as [H|[H|[H|(H & H1 & H2)]]]; rewrite H in G, MK; cbn in G, MK.
    - destruct G as [G|(r & G)]; discriminate.
    - left. destruct G as [G|(r & G)]; [|discriminate]. injection G as <-. auto.
    - left. destruct G as [G|(r & G)]; [|discriminate]. injection G as <-. auto.
    - right. tauto.
  Qed.
  Lemma tick_nat x : minv p (t_st x) -> tm_urgent p ms n x = true -> m_end (t_st x) = true -> m_nat (t_st x) = LDone \/ m_nat (t_st x) = LRun.
  Proof.
    intros [_ FL _] U X. unfold tm_urgent in U. apply andb_prop in U. destruct U as (_ & U). rewrite X in FL.
    destruct (m_nat (t_st x)); try discriminate; auto; cbn in FL; rewrite ?andb_false_r in FL; discriminate.
  Qed.
  Lemma tick_running x es s : linto p (t_st x) es -> sp_run (mspec p) m_new (effects es) s -> m_nat (t_st x) = LRun -> m_phase s = Running.
  Proof. intros L SP N. rewrite (abs_of _ _ _ _ L SP). cbn. now rewrite N. Qed.

  (** destroy waits for nothing but a running callback *)
  Theorem tm_destroy_waits ls x es x' t t0 s : exec tstep (t_init m_init) ls = Some (x, es) -> tstep x TTick = Some (x', []) ->
    pending es t t0 MDestroy -> sp_run (mspec p) m_new (effects (map snd es)) s -> m_phase s = Running.
  Proof.
    intros E S PD SP. unfold tm_timed in S. apply t_tick_inv in S. destruct S as (U & _ & _).
    pose proof (qinv2_exec p ms n _ _ _ _ E) as (I & _). pose proof (linto_exec _ _ _ _ (untimed _ _ _ E)) as L.
    destruct (tick_pending ls x es t t0 MDestroy E U PD) as [(_ & [H|H])|(_ & H & H1 & _)]; try discriminate.
    apply (tick_running x _ s L SP). destruct (tick_nat x I U H); [contradiction|assumption].
  Qed.

  Lemma instant_stamp sel now e : forall es, instant sel now es -> instant sel now (es ++ stamp now e).
  Proof.
    induction e as [|a e IH]; intros es H; [now rewrite app_nil_r|]. cbn [map].
    change (es ++ (now, a) :: stamp now e) with (es ++ [(now, a)] ++ stamp now e). rewrite app_assoc. apply IH. destruct H as (A & B). split.
    - intros t t0 c S PD. apply pending_snoc in PD. destruct PD as [PD|(_ & PD)]; [now injection PD as -> _|exact (A t t0 c S PD)].
    - intros t t0 c t1 r S TK. apply took_snoc in TK. destruct TK as [(TK & PD)|TK]; [|exact (B _ _ _ _ _ S TK)].
      injection TK as -> ->. exact (A t t0 c S PD).
  Qed.
  Lemma instant_exec (sel : mcall -> Prop) (ok : list (event mcall mres) -> Prop) :
    (forall ls x es a b, exec tstep (t_init m_init) ls = Some (x, es) -> map snd es = a -> ok (a ++ b) -> ok a) ->
    (forall ls x es t t0 c, exec tstep (t_init m_init) ls = Some (x, es) -> ok (map snd es) -> sel c -> tm_urgent p ms n x = true -> pending es t t0 c -> False) ->
    forall ls x es, exec tstep (t_init m_init) ls = Some (x, es) -> ok (map snd es) -> instant sel (t_now x) es.
  Proof.
    intros PRE NT ls. induction ls as [|l ls IH] using rev_ind; intros x es E OK.
    - cbn in E. injection E as <- <-. split; intros * _ H; exfalso; [exact (pending_nil _ _ _ _ _ H)|exact (took_nil _ _ _ _ _ _ _ H)].
    - rewrite exec_app in E. destruct (exec tstep (t_init m_init) ls) as [[x1 es1]|] eqn:E1; [|discriminate]. cbn [exec] in E.
      destruct (tstep x1 l) as [[x2 e2]|] eqn:S; [|discriminate]. injection E as <- <-. rewrite app_nil_r in *. rewrite map_app in OK.
      pose proof (PRE _ _ _ _ _ E1 eq_refl OK) as OK1. specialize (IH x1 es1 eq_refl OK1). unfold tm_timed in S. destruct l as [l|].
      + apply t_act_inv in S. destruct S as (_ & _ & s' & e & _ & -> & ->). cbn [t_now]. now apply instant_stamp.
      + apply t_tick_inv in S. destruct S as (U & -> & ->). rewrite app_nil_r. destruct IH as (A & B). split; [|exact B].
        intros t t0 c S PD. exfalso. exact (NT _ _ _ _ _ _ E1 OK1 S U PD).
  Qed.
End Waits.

Lemma not_ended p ls s es : exec (m_step p) m_init ls = Some (s, es) -> never_calls MDestroy es -> m_end s = false.
Proof.
  intros E ND. destruct (basic_exec _ _ _ _ E) as (_ & _ & _ & N). destruct (m_end s) eqn:X; [|reflexivity]. destruct (N X) as (t & T). elim (ND t T).
Qed.
(** one-shot, no start or stop disturbed by another one, no stop during the callback: no call takes any time *)
Theorem tm_calm_instant ms n ls x es : exec (tm_timed false ms n (tm_urgent false ms n)) (t_init m_init) ls = Some (x, es) ->
  undisturbed (map snd es) -> no_late_stop false (map snd es) -> never_calls MDestroy (map snd es) -> instant (fun _ => True) (t_now x) es.
Proof.
  intros E UD NL ND.
  apply (instant_exec false ms n (fun _ => True) (fun es => undisturbed es /\ no_late_stop false es /\ never_calls MDestroy es)) with (ls := ls); [| |exact E|auto].
  - intros ls1 x1 es1 a b E1 <- (A & B & C). apply untimed in E1. split; [exact (undisturbed_prefix _ _ A)|].
    split; [exact (late_prefix false (t_st x1) _ _ (linto_exec _ _ _ _ E1) B)|exact (never_prefix _ _ _ C)].
  - clear. intros ls x es t t0 c E (UD & NL & ND) _ U PD. pose proof (qinv2_exec false ms n _ _ _ _ E) as (I & _). pose proof (mi_flags _ _ I) as FL.
    pose proof (linto_exec _ _ _ _ (untimed _ _ _ _ _ _ E)) as L.
    pose proof (calm_waits _ _ _ (untimed _ _ _ _ _ _ E) UD NL) as W.
    pose proof (not_ended _ _ _ _ (untimed _ _ _ _ _ _ E) ND) as NE. rewrite NE in FL.
    pose proof (tick_pending false ms n ls x es t t0 c E U PD) as TP. unfold tm_urgent in U. apply andb_prop in U. destruct U as (_ & U).
    destruct TP as [(H & [-> | ->])|(H & H1 & H2 & T)]; [| |congruence].
    + pose proof (wi_start _ W t (or_introl H)) as A. pose proof (wi_astart _ W t H) as B.
      assert (N : m_nat (t_st x) <> LRun) by (intros N; exact (off_running_is_late _ _ I L A (or_intror (or_introl N)) NL)).
      rewrite A, B in FL. destruct (m_nat (t_st x)); try discriminate; cbn in FL; rewrite ?andb_false_r in FL; try discriminate. congruence.
    + pose proof (wi_stop _ W t (or_introl H)) as A. pose proof (wi_astop _ W t H) as B.
      rewrite A, B in FL. destruct (m_nat (t_st x)); try discriminate; cbn in FL; rewrite ?andb_false_r in FL; discriminate.
Qed.
(** periodic, one thread starts and one stops: only start takes time, and only while the callback runs *)
Section Periodic.
  Variables (ms : Z) (n c d : nat).
  Notation tstep := (tm_timed true ms n (tm_urgent true ms n)).
  Lemma tick_disc ls x es t t0 k : exec tstep (t_init m_init) ls = Some (x, es) -> disciplined c d (map snd es) -> tm_urgent true ms n x = true ->
    pending es t t0 k -> k = MStart /\ m_nat (t_st x) = LRun.
  Proof.
    intros E D U PD. pose proof (disc_exec c d _ _ _ (untimed _ _ _ _ _ _ E) D) as DI. pose proof (di_end _ _ _ DI) as NE.
    pose proof (tick_pending true ms n ls x es t t0 k E U PD) as TP. unfold tm_urgent in U. apply andb_prop in U. destruct U as (_ & U).
    destruct TP as [(H & K)|(_ & H & _)]; [|congruence].
    assert (R : ready (t_st x) k = false).
    { destruct K as [-> | ->]; cbn; [exact (wi_astart _ (di_wait _ _ _ DI) t H)|exact (wi_astop _ (di_wait _ _ _ DI) t H)]. }
    destruct (unready_nat c d _ t k DI (or_introl H) R) as [(-> & _ & _ & N)|(_ & _ & _ & N)].
    - split; [reflexivity|]. destruct N as [N|[N|N]]; rewrite N in U; try discriminate. exact N.
    - rewrite N in U. discriminate.
  Qed.
  Theorem tm_disciplined_instant ls x es : exec tstep (t_init m_init) ls = Some (x, es) -> disciplined c d (map snd es) ->
    instant (fun k => k <> MStart) (t_now x) es.
  Proof.
    intros E D. apply (instant_exec true ms n (fun k => k <> MStart) (disciplined c d)) with (ls := ls); [| |exact E|exact D].
    - intros ls1 x1 es1 a b _ _ H. exact (disciplined_prefix _ _ _ _ H).
    - intros ls1 x1 es1 t t0 k E1 D1 K U PD. apply K. exact (proj1 (tick_disc _ _ _ _ _ _ E1 D1 U PD)).
  Qed.
  Theorem tm_start_waits ls x es x' t t0 s : exec tstep (t_init m_init) ls = Some (x, es) -> disciplined c d (map snd es) ->
    tstep x TTick = Some (x', []) -> pending es t t0 MStart -> sp_run (mspec true) m_new (effects (map snd es)) s -> m_phase s = Running.
  Proof.
    intros E D S PD SP. unfold tm_timed in S. apply t_tick_inv in S. destruct S as (U & _ & _).
    apply (tick_running true x _ s (linto_exec _ _ _ _ (untimed _ _ _ _ _ _ E)) SP). exact (proj2 (tick_disc _ _ _ _ _ _ E D U PD)).
  Qed.
End Periodic.

(** * the k-th callback of a periodic timer *)
Lemma last_armed_snoc a z k : arms k = true -> last_armed (a ++ [(z, k)]) = Some z.
Proof. intros A. rewrite last_armed_app. cbn. now rewrite A. Qed.
Lemma kth_begin ms : forall ps a t0 m b d, on_time ms m -> m = a ++ pairs ps ++ (b, KBegin) :: d -> last_armed a = Some t0 ->
  b = t0 + (Z.of_nat (length ps) + 1) * ms + durations ps.
Proof.
  induction ps as [|[b1 e1] ps IH]; intros a t0 m b d H E LA.
  - cbn in E. specialize (H a b d E). rewrite LA in H. injection H as H. cbn [length durations fold_right]. lia.
  - pose proof (H a b1 ((e1, KEnd) :: pairs ps ++ (b, KBegin) :: d)) as H1. cbn in E. specialize (H1 E). rewrite LA in H1. injection H1 as H1.
    specialize (IH (a ++ [(b1, KBegin); (e1, KEnd)]) e1 m b d H).
    rewrite IH; [cbn [length durations fold_right fst snd]; fold (durations ps); lia| |].
    + rewrite <- app_assoc. exact E.
    + change [(b1, KBegin); (e1, KEnd)] with ([(b1, KBegin)] ++ [(e1, KEnd)]). rewrite app_assoc. now apply last_armed_snoc.
Qed.
Theorem tm_kth_callback p ms n ls x es a t0 ps b d : 0 <= ms -> exec (tm_timed p ms n (tm_urgent p ms n)) (t_init m_init) ls = Some (x, es) ->
  timer_marks p es = a ++ (t0, KStart) :: pairs ps ++ (b, KBegin) :: d -> b = t0 + (Z.of_nat (length ps) + 1) * ms + durations ps.
Proof.
  intros MS E M. apply (kth_begin ms ps (a ++ [(t0, KStart)]) t0 _ b d (tm_on_time p ms n MS ls x es E)).
  - rewrite <- app_assoc. exact M.
  - now apply last_armed_snoc.
Qed.
(** callbacks of 5 with period 10 *)
Definition fixed_rate_schedule : list (tlab mlab) :=
  map TAct [XNat; XCall 1%nat MStart; XStep 1; XStep 1; XNat; XNat] ++ repeat TTick 10 ++ map TAct [XTimeout; XNat] ++ repeat TTick 5 ++
  map TAct [XNat; XNat] ++ repeat TTick 10 ++ map TAct [XTimeout; XNat] ++ repeat TTick 5 ++ map TAct [XNat; XNat] ++ repeat TTick 10 ++ map TAct [XTimeout; XNat].
Lemma fixed_rate_run :
  match exec (tm_timed true 10 2 (tm_urgent true 10 2)) (t_init m_init) fixed_rate_schedule with
  | Some (_, es) => timer_marks true es = [(0, KStart); (10, KBegin); (15, KEnd); (25, KBegin); (30, KEnd); (40, KBegin)]
  | None => False
  end.
Proof. vm_compute. reflexivity. Qed.
Theorem fixed_rate_refuted :
  ~ (forall (ms : Z) (n : nat) (ls : list (tlab mlab)) (x : tst mst) (es : list (Z * event mcall mres)) a t1 e1 t2 d,
       exec (tm_timed true ms n (tm_urgent true ms n)) (t_init m_init) ls = Some (x, es) ->
       timer_marks true es = a ++ (t1, KBegin) :: (e1, KEnd) :: (t2, KBegin) :: d -> t2 = t1 + ms).
Proof.
  intros H. pose proof fixed_rate_run as R.
  destruct (exec (tm_timed true 10 2 (tm_urgent true 10 2)) (t_init m_init) fixed_rate_schedule) as [[x es]|] eqn:E; [|exact R].
  specialize (H 10 2%nat fixed_rate_schedule x es [(0, KStart)] 10 15 25 [(30, KEnd); (40, KBegin)] E R). lia.
Qed.
