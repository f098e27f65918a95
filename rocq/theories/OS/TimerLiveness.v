(** Liveness of the timers: what can block, and what cannot. *)
From Coq Require Import List ZArith Bool Lia Arith.
Import ListNotations.
From Verif Require Import Spec.Linear Spec.TimerSpec OS.Sched OS.TimerModel OS.TimerProofs.

(** * marks along a run *)
Lemma mmarks_app p l1 : forall s s1 l2, sp_run (mspec p) s l1 s1 -> mmarks p s (l1 ++ l2) = mmarks p s l1 ++ mmarks p s1 l2.
Proof.
  induction l1 as [|[[t c] r] l1 IH]; intros s s1 l2 H; inversion H; subst; [reflexivity|].
  match goal with h : mspec _ _ _ _ _ _ |- _ => rename h into P end. match goal with h : sp_run _ ?x l1 s1 |- _ => rename h into Q; rename x into sx end.
  destruct s as [on ph dead]. destruct c; cbn [mspec mmarks app m_on m_phase m_dead] in *.
  - destruct P as (_ & P). destruct on; [subst sx|destruct P as (-> & ->)]; now rewrite (IH _ _ l2 Q).
  - destruct P as (_ & ->). destruct on; [destruct ph|]; now rewrite (IH _ _ l2 Q).
  - destruct P as (_ & ->). now rewrite (IH _ _ l2 Q).
  - destruct P as (_ & ->). now rewrite (IH _ _ l2 Q).
  - destruct P as (_ & -> & -> & -> & ->). now rewrite (IH _ _ l2 Q).
  - destruct P as (_ & -> & ->). now rewrite (IH _ _ l2 Q).
  - destruct P as (_ & -> & ->). destruct p; now rewrite (IH _ _ l2 Q).
Qed.
Lemma linto_effects p s es : linto p s es -> sp_run (mspec p) m_new (effects es) (abs s).
Proof. intros (f & L & _). exact (lin_run_effects _ _ _ _ _ _ _ _ _ L). Qed.
Lemma effects_app (a b : mout) : effects (a ++ b) = effects a ++ effects b.
Proof. unfold effects. apply flat_map_app. Qed.
Lemma late_prefix p s a b : linto p s a -> no_late_stop p (a ++ b) -> no_late_stop p a.
Proof.
  intros L N X. apply N. rewrite effects_app. rewrite (mmarks_app p _ _ _ _ (linto_effects _ _ _ L)). apply in_app_iff. now left.
Qed.
Lemma undisturbed_prefix a b : undisturbed (a ++ b) -> undisturbed a.
Proof. intros U es1 t c es2 u c' r es3 -> . apply (U es1 t c es2 u c' r (es3 ++ b)). now rewrite <- !app_assoc, !app_comm_cons, <- !app_assoc. Qed.
Lemma never_prefix c a b : never_calls c (a ++ b) -> never_calls c a.
Proof. intros N t H. apply (N t). apply in_app_iff. now left. Qed.
Lemma only_prefix t c a b : only_called_by t c (a ++ b) -> only_called_by t c a.
Proof. intros N u H. apply N. apply in_app_iff. now left. Qed.

(** off while the callback is due or running: there was a late stop *)
Lemma off_running_is_late s es : minv false s -> linto false s es -> m_active s = false -> (m_nat s = LFire \/ m_nat s = LRun \/ m_nat s = LClear) -> ~ no_late_stop false es.
Proof.
  intros I L A N NL. apply NL. pose proof (linto_effects _ _ _ L) as R.
  destruct (os_rounds (effects es) [] m_new (abs s)) as (now & (r & E & _) & O); [exists []; split; [exists []; auto|cbn; auto]|exact R|].
  cbn [app] in E. rewrite E. apply in_app_iff. right. unfold os_now, abs in O. cbn in O. rewrite A in O.
  destruct N as [N|[N|N]]; rewrite N in O; cbn in O.
  - rewrite O. cbn; auto.
  - destruct O as [-> | ->]; cbn; auto.
  - destruct O as [-> | ->]; cbn; auto.
Qed.
(** the calls recorded in the events *)
Definition in_call (q : mpc) (c : mcall) : Prop := q = MAt c \/ q = MAsleep c \/ q = MWoken c.
Definition pending_since (es : mout) (t : nat) (c : mcall) : Prop :=
  exists es1 es2, es = es1 ++ Call t c :: es2 /\ forall r, ~ In (Eff t c r) es2.
Lemma pending_app es e t c : pending_since es t c -> (forall r, ~ In (Eff t c r) e) -> pending_since (es ++ e) t c.
Proof.
  intros (a & b & -> & N) H. exists a, (b ++ e). split; [now rewrite <- app_assoc|]. intros r X. apply in_app_iff in X. destruct X; [now apply (N r)|now apply (H r)].
Qed.
Lemma pending_call es t c : pending_since (es ++ [Call t c]) t c.
Proof. exists es, []. split; [reflexivity|]. intros r []. Qed.
Lemma undisturbed_eff es t c u c' r : undisturbed (es ++ [Eff u c' r]) -> pending_since es t c -> u <> t -> disturbs c c' = false.
Proof.
  intros U (a & b & -> & N) D. refine (U a t c b u c' r [] _ N D). now rewrite <- app_assoc.
Qed.

(** * the callers that wait on a condition variable *)
Definition wants (s : mst) (t : nat) (c : mcall) : Prop := m_thr s t = MAsleep c \/ m_thr s t = MWoken c.
Record waitinv (s : mst) : Prop := {
  wi_start : forall t, wants s t MStart -> m_active s = false;
  wi_stop : forall t, wants s t MStop -> m_active s = true;
  wi_astart : forall t, m_thr s t = MAsleep MStart -> m_stopped s = false;
  wi_astop : forall t, m_thr s t = MAsleep MStop -> m_started s = false
}.
Lemma waitinv_init : waitinv m_init.
Proof. constructor; cbn; intros t; unfold wants; cbn; try discriminate; intros [H|H]; discriminate. Qed.
(** a client moves to [q] and the flags become a, st, sp *)
Lemma waitinv_client s t q a st sp e n :
  waitinv s -> let s' := mkM a st sp e n (fupd (m_thr s) t q) in
  (q = MAsleep MStart \/ q = MWoken MStart -> a = false) -> (q = MAsleep MStop \/ q = MWoken MStop -> a = true) ->
  (q = MAsleep MStart -> sp = false) -> (q = MAsleep MStop -> st = false) ->
  (m_active s = false -> a = true -> forall u, wants s u MStart -> u = t) ->
  (m_active s = true -> a = false -> forall u, wants s u MStop -> u = t) ->
  (m_stopped s = false -> sp = false) -> (m_started s = false -> st = false) -> waitinv s'.
Proof.
  intros [W1 W2 W3 W4] s' Q1 Q2 Q3 Q4 H1 H2 H3 H4. subst s'.
  constructor; intros u; unfold wants; cbn [m_thr m_active m_started m_stopped]; rewrite fupd_eq; destruct (Nat.eqb_spec u t) as [->|N]; auto.
  - intros H. pose proof (W1 u H) as A. destruct a; [|reflexivity]. elim N. now apply H1.
  - intros H. pose proof (W2 u H) as A. destruct a; [reflexivity|]. elim N. now apply H2.
  - intros H. apply H3, (W3 u H).
  - intros H. apply H4, (W4 u H).
Qed.
Lemma wants_other s t c c' : in_call (m_thr s t) c -> wants s t c' -> c' = c.
Proof. unfold in_call, wants. intros [H|[H|H]] [X|X]; congruence. Qed.
(** the condition on the other callers *)
Definition undist_step (p : bool) (s : mst) (l : mlab) (s' : mst) : Prop :=
  (m_active s = false -> m_active s' = true -> forall t, wants s t MStart -> l = XStep t) /\
  (m_active s = true -> m_active s' = false -> forall t, wants s t MStop -> l = XStep t) /\
  (m_nat s = LClear -> l = XNat -> forall t, m_thr s t <> MAsleep MStart).
Lemma waitinv_step p s l s' e : minv p s -> waitinv s -> m_step p s l = Some (s', e) -> undist_step p s l s' -> waitinv s'.
Proof.
  intros I W E (U1 & U2 & U3). pose proof I as [Z FL TH]. pose proof W as [W1 W2 W3 W4].
  destruct l as [t c|t|t| | |]; cbn in E.
  - destruct (m_thr s t) eqn:ET; try discriminate. destruct (callable t (m_nat s) c) eqn:CC; [|discriminate]. injection E as <- <-.
    apply waitinv_client; auto; try (intros [H|H]; discriminate); try discriminate; intros; congruence.
  - pose proof (TH t) as MT. destruct (m_thr s t) as [|c|c|c| |r] eqn:ET; try discriminate.
    + unfold start_body, stop_body in E.
      destruct c; try discriminate.
      * destruct (m_active s) eqn:EA; [|destruct (m_stopped s) eqn:ES]; injection E as <- <-; cbn [m_active m_go] in *;
          (apply waitinv_client; auto; rewrite ?EA, ?ES; try (intros [H|H]; discriminate); try discriminate; auto; try congruence).
        intros _ _ u H. specialize (U1 eq_refl eq_refl u H). congruence.
      * destruct (m_active s) eqn:EA; [destruct (m_started s) eqn:ES|]; injection E as <- <-; cbn [m_active m_go] in *;
          (apply waitinv_client; auto; rewrite ?EA, ?ES; try (intros [H|H]; discriminate); try discriminate; auto; try congruence).
        intros _ _ u H. specialize (U2 eq_refl eq_refl u H). congruence.
      * injection E as <- <-. apply waitinv_client; auto; try (intros [H|H]; discriminate); try discriminate; intros; congruence.
      * injection E as <- <-. apply waitinv_client; auto; try (intros [H|H]; discriminate); try discriminate; intros; congruence.
    + unfold start_body, stop_body in E.
      destruct c; try discriminate.
      * assert (EA : m_active s = false) by (apply (W1 t); right; exact ET).
        destruct (m_stopped s) eqn:ES; injection E as <- <-; cbn [m_active m_go] in *;
          (apply waitinv_client; auto; rewrite ?EA, ?ES; try (intros [H|H]; discriminate); try discriminate; auto; try congruence).
        intros _ _ u H. specialize (U1 EA eq_refl u H). congruence.
      * assert (EA : m_active s = true) by (apply (W2 t); right; exact ET).
        destruct (m_started s) eqn:ES; injection E as <- <-; cbn [m_active m_go] in *;
          (apply waitinv_client; auto; rewrite ?EA, ?ES; try (intros [H|H]; discriminate); try discriminate; auto; try congruence).
        intros _ _ u H. specialize (U2 EA eq_refl u H). congruence.
    + destruct (m_nat s) eqn:EN; try discriminate. injection E as <- <-.
      apply waitinv_client; auto; try (intros [H|H]; discriminate); try discriminate; intros; congruence.
    + injection E as <- <-. apply waitinv_client; auto; try (intros [H|H]; discriminate); try discriminate; intros; congruence.
  - destruct (m_thr s t) as [|c|c|c| |r] eqn:ET; try discriminate. injection E as <- <-.
    apply waitinv_client; auto; try discriminate; try (intros; congruence).
    + intros [H|H]; [discriminate|]. injection H as ->. apply (W1 t). now left.
    + intros [H|H]; [discriminate|]. injection H as ->. apply (W2 t). now left.
  - assert (WS : forall (b : bool) u c, (if b then wake_started (m_thr s u) else wake_stopped (m_thr s u)) = MAsleep c \/ (if b then wake_started (m_thr s u) else wake_stopped (m_thr s u)) = MWoken c -> wants s u c)
      by (intros b u c; unfold wants; destruct b; destruct (m_thr s u) as [|?|[]|?| |]; cbn; intros [H|H]; try discriminate; try injection H as <-; auto).
    destruct (m_nat s) eqn:EN; try discriminate.
    + destruct (m_active s || m_end s) eqn:EA; injection E as <- <-.
      * constructor; intros u; unfold wants; cbn; intros H.
        { apply (W1 u). exact (WS true u _ H). }
        { apply (W2 u). exact (WS true u _ H). }
        { apply (W3 u). destruct (m_thr s u) as [|?|[]|?| |]; cbn in H; congruence. }
        { exfalso. destruct (m_thr s u) as [|?|[]|?| |]; cbn in H; congruence. }
      * constructor; assumption.
    + destruct (negb (m_active s) || m_end s) eqn:EA; injection E as <- <-.
      * constructor; intros u; unfold wants; cbn; intros H.
        { apply (W1 u). exact (WS false u _ H). }
        { apply (W2 u). exact (WS false u _ H). }
        { exfalso. destruct (m_thr s u) as [|?|[]|?| |]; cbn in H; congruence. }
        { apply (W4 u). destruct (m_thr s u) as [|?|[]|?| |]; cbn in H; congruence. }
      * constructor; assumption.
    + injection E as <- <-. constructor; assumption.
    + destruct (m_thr s 0) eqn:E0; try discriminate. destruct p; injection E as <- <-; constructor; assumption.
    + injection E as <- <-. cbn [m_active] in *. constructor; intros u; unfold wants; cbn; intros H.
      * reflexivity.
      * exfalso. pose proof (W2 u H) as A. specialize (U2 A eq_refl u H). discriminate.
      * elim (U3 eq_refl eq_refl u H).
      * reflexivity.
  - destruct (m_nat s) eqn:EN; try discriminate.
    destruct (negb (m_active s) || m_end s) eqn:EA; injection E as <- <-; [|constructor; assumption].
    assert (WS : forall u c, wake_stopped (m_thr s u) = MAsleep c \/ wake_stopped (m_thr s u) = MWoken c -> wants s u c)
      by (intros u c; unfold wants; destruct (m_thr s u) as [|?|[]|?| |]; cbn; intros [H|H]; try discriminate; try injection H as <-; auto).
    constructor; intros u; unfold wants; cbn; intros H.
    + apply (W1 u). exact (WS u _ H).
    + apply (W2 u). exact (WS u _ H).
    + exfalso. destruct (m_thr s u) as [|?|[]|?| |]; cbn in H; congruence.
    + apply (W4 u). destruct (m_thr s u) as [|?|[]|?| |]; cbn in H; congruence.
  - destruct (m_nat s) eqn:EN; try discriminate; injection E as <- <-; constructor; assumption.
Qed.
(** who turns the timer on and off *)
Ltac stepcases E :=
  repeat match type of E with
  | Some _ = Some _ => injection E as <- <-
  | None = Some _ => discriminate E
  | (if ?b then _ else _) = Some _ => destruct b eqn:?
  | match ?x with _ => _ end = Some _ => destruct x eqn:?
  | Some (if ?b then _ else _) = Some _ => destruct b eqn:?
  end.
Lemma active_up p s l s' e : m_step p s l = Some (s', e) -> m_active s = false -> m_active s' = true ->
  exists u, l = XStep u /\ e = [Eff u MStart MVoid].
Proof.
  intros E A A'. destruct l as [t c|t|t| | |]; cbn in E; unfold start_body, stop_body, leave_wait in E; stepcases E; cbn in A'; try congruence; eauto.
Qed.
Lemma active_down p s l s' e : m_step p s l = Some (s', e) -> m_active s = true -> m_active s' = false ->
  (exists u, l = XStep u /\ e = [Eff u MStop MVoid]) \/ (l = XNat /\ e = [Eff 0 MEnd MVoid; Ret 0 MVoid] /\ m_nat s = LClear).
Proof.
  intros E A A'. destruct l as [t c|t|t| | |]; cbn in E; unfold start_body, stop_body, leave_wait in E; stepcases E; cbn in A'; try congruence; eauto.
Qed.
Lemma in_call_client s a st sp e n t q u c : in_call (m_thr (mkM a st sp e n (fupd (m_thr s) t q)) u) c -> (u = t /\ in_call q c) \/ (u <> t /\ in_call (m_thr s u) c).
Proof. cbn [m_thr]. rewrite fupd_eq. destruct (Nat.eqb_spec u t) as [->|]; auto. Qed.
Lemma in_call_wake q c : in_call (wake_started q) c \/ in_call (wake_stopped q) c -> in_call q c.
Proof. unfold in_call. destruct q as [|?|[]|?| |]; cbn; intros [H|H]; repeat destruct H as [H|H]; try discriminate; try injection H as <-; auto. Qed.
Lemma in_call_kind s t c : mok s t (m_thr s t) -> in_call (m_thr s t) c -> c <> MBegin /\ c <> MEnd /\ c <> MDue.
Proof. unfold in_call. intros M [H|[H|H]]; rewrite H in M; cbn in M; destruct c; try contradiction; try (destruct M; discriminate); repeat split; discriminate. Qed.
Definition pendinv (s : mst) (es : mout) : Prop := forall t c, in_call (m_thr s t) c -> pending_since es t c.
Lemma pendinv_step p s es l s' e : minv p s -> pendinv s es -> m_step p s l = Some (s', e) -> pendinv s' (es ++ e).
Proof.
  intros I P E. pose proof (mi_thr _ _ I) as TH.
  assert (CL : forall a st sp en n t q ev, s' = mkM a st sp en n (fupd (m_thr s) t q) -> e = ev ->
    (forall c, in_call q c -> in_call (m_thr s t) c /\ ev = [] \/ ev = [Call t c]) ->
    (forall u c r, In (Eff u c r) ev -> u = t) -> pendinv s' (es ++ e)).
  { intros a st sp en n t q ev -> -> H1 H2 u c IC. apply in_call_client in IC. destruct IC as [(-> & IC)|(N & IC)].
    - destruct (H1 c IC) as [(A & ->)| ->]; [rewrite app_nil_r; exact (P t c A)|apply pending_call].
    - apply pending_app; [exact (P u c IC)|]. intros r X. apply N. exact (H2 _ _ _ X). }
  assert (NT : (forall u c, in_call (m_thr s' u) c -> in_call (m_thr s u) c) -> (forall u c r, In (Eff u c r) e -> c = MDue \/ c = MBegin \/ c = MEnd) -> pendinv s' (es ++ e)).
  { intros H1 H2 u c IC. apply H1 in IC. apply pending_app; [exact (P u c IC)|]. intros r X. pose proof (in_call_kind s u c (TH u) IC) as K. destruct (H2 _ _ _ X) as [H|[H|H]]; tauto. }
  assert (NQ : forall q c, (q = MIdle \/ q = MJoin \/ exists r, q = MRet r) -> ~ in_call q c) by (unfold in_call; intros q c [-> |[-> |(r & ->)]] [X|[X|X]]; discriminate).
  destruct l as [t c|t|t| | |]; cbn in E; unfold start_body, stop_body, leave_wait in E.
  - stepcases E. eapply CL; [reflexivity|reflexivity| |].
    + intros c' H. right. unfold in_call in H. destruct H as [H|[H|H]]; try discriminate. now injection H as ->.
    + intros u c0 r [X|[]]; discriminate.
  - stepcases E; (eapply CL; [reflexivity|reflexivity| |]);
      try solve [intros c' H; exfalso; revert H; apply NQ; eauto];
      try (intros ? ? ? [X|[]]; congruence); try (intros ? ? ? []).
    all: intros c' H; left; (split; [|reflexivity]); unfold in_call in H; destruct H as [H|[H|H]]; try discriminate; injection H as <-;
      match goal with X : m_thr _ _ = _ |- _ => rewrite X; unfold in_call; auto end.
  - stepcases E. eapply CL; [reflexivity|reflexivity| |intros u c0 r []].
    intros c' H; left; (split; [|reflexivity]); unfold in_call in H; destruct H as [H|[H|H]]; try discriminate; injection H as <-;
      match goal with X : m_thr _ _ = _ |- _ => rewrite X; unfold in_call; auto end.
  - stepcases E; (apply NT; cbn; [intros u c0 H; try exact H; try (apply in_call_wake; auto; fail)|intros u c0 r X; repeat destruct X as [X|X]; try discriminate; try contradiction; injection X as <- <- <-; auto]).
  - stepcases E; (apply NT; cbn; [intros u c0 H; try exact H; try (apply in_call_wake; auto; fail)|intros u c0 r X; repeat destruct X as [X|X]; try discriminate; try contradiction; injection X as <- <- <-; auto]).
  - stepcases E; (apply NT; cbn; [intros u c0 H; exact H|intros u c0 r []]).
Qed.
Lemma pendinv_init : pendinv m_init [].
Proof. intros t c [H|[H|H]]; discriminate. Qed.
Lemma wants_in_call s t c : wants s t c -> in_call (m_thr s t) c.
Proof. unfold wants, in_call. tauto. Qed.
Lemma pending_call_in es t c : pending_since es t c -> In (Call t c) es.
Proof. intros (a & b & -> & _). apply in_app_iff. right. now left. Qed.

(** * invariants along executions *)
Definition endinv (s : mst) (es : mout) : Prop := m_end s = true -> exists t, In (Call t MDestroy) es.
Lemma endinv_step p s es l s' e : pendinv s es -> endinv s es -> m_step p s l = Some (s', e) -> endinv s' (es ++ e).
Proof.
  intros P N E H. assert (K : m_end s = true -> exists t, In (Call t MDestroy) (es ++ e)) by (intros X; destruct (N X) as (t & T); exists t; apply in_app_iff; now left).
  destruct l as [t c|t|t| | |]; cbn in E; unfold start_body, stop_body, leave_wait in E; stepcases E; cbn in H; auto.
  exists t. apply in_app_iff. left. apply pending_call_in, P. left. assumption.
Qed.
Lemma basic_exec p ls s es : exec (m_step p) m_init ls = Some (s, es) -> minv p s /\ linto p s es /\ pendinv s es /\ endinv s es.
Proof.
  intros E. refine (exec_inv _ _ _ (m_step p) (fun s es => minv p s /\ linto p s es /\ pendinv s es /\ endinv s es) _ ls m_init [] s es _ E).
  - intros s0 es0 l s1 es1 (I & L & P & N) H. split; [exact (minv_step p s0 l s1 es1 I H)|]. split; [exact (linto_step p s0 es0 l s1 es1 I L H)|].
    split; [exact (pendinv_step p s0 es0 l s1 es1 I P H)|exact (endinv_step p s0 es0 l s1 es1 P N H)].
  - split; [apply minv_init|]. split; [apply linto_init|]. split; [apply pendinv_init|]. intros H. discriminate.
Qed.
(** an invariant that needs the basic ones *)
Lemma exec_with p (J : mst -> mout -> Prop) :
  J m_init [] -> (forall s es l s' e, minv p s -> linto p s es -> pendinv s es -> endinv s es -> J s es -> m_step p s l = Some (s', e) -> J s' (es ++ e)) ->
  forall ls s es, exec (m_step p) m_init ls = Some (s, es) -> J s es.
Proof.
  intros J0 JS ls s es E. refine (proj2 (exec_inv _ _ _ (m_step p) (fun s es => (minv p s /\ linto p s es /\ pendinv s es /\ endinv s es) /\ J s es) _ ls m_init [] s es _ E)).
  - intros s0 es0 l s1 es1 ((I & L & P & N) & H) X. split; [|exact (JS _ _ _ _ _ I L P N H X)].
    split; [exact (minv_step p s0 l s1 es1 I X)|]. split; [exact (linto_step p s0 es0 l s1 es1 I L X)|].
    split; [exact (pendinv_step p s0 es0 l s1 es1 I P X)|exact (endinv_step p s0 es0 l s1 es1 P N X)].
  - split; [|exact J0]. split; [apply minv_init|]. split; [apply linto_init|]. split; [apply pendinv_init|]. intros H. discriminate.
Qed.

(** ** one-shot, calm *)
Lemma calm_waits ls s es : exec (m_step false) m_init ls = Some (s, es) -> undisturbed es -> no_late_stop false es -> waitinv s.
Proof.
  refine (exec_with false (fun s es => undisturbed es -> no_late_stop false es -> waitinv s) (fun _ _ => waitinv_init) _ ls s es).
  clear. intros s es l s' e I L P N J E U NL.
  assert (W : waitinv s) by (apply J; [exact (undisturbed_prefix _ _ U)|exact (late_prefix false s es e L NL)]).
  apply (waitinv_step false s l s' e I W E). split; [|split].
  - intros A A' t WT. destruct (active_up _ _ _ _ _ E A A') as (u & -> & ->). f_equal. destruct (Nat.eq_dec u t) as [|D]; [assumption|exfalso].
    pose proof (undisturbed_eff es t MStart u MStart MVoid U (P _ _ (wants_in_call _ _ _ WT)) D). discriminate.
  - intros A A' t WT. destruct (active_down _ _ _ _ _ E A A') as [(u & -> & ->)|(-> & -> & EN)].
    + f_equal. destruct (Nat.eq_dec u t) as [|D]; [assumption|exfalso].
      pose proof (undisturbed_eff es t MStop u MStop MVoid U (P _ _ (wants_in_call _ _ _ WT)) D). discriminate.
    + exfalso. assert (D : 0 <> t) by (intros <-; rewrite (mi_zero _ _ I) in EN; [discriminate|]; destruct WT as [X|X]; rewrite X; discriminate).
      assert (U' : undisturbed (es ++ [Eff 0 MEnd MVoid])) by (apply (undisturbed_prefix _ [Ret 0 MVoid]); now rewrite <- app_assoc).
      pose proof (undisturbed_eff es t MStop 0 MEnd MVoid U' (P _ _ (wants_in_call _ _ _ WT)) D). discriminate.
  - intros EN _ t X. apply (off_running_is_late s es I L); [apply (wi_start _ W t); now left|auto|exact (late_prefix false s es e L NL)].
Qed.
(** what a stuck state looks like *)
Lemma stuck_thread p s t : minv p s -> m_step p s (XStep t) = None ->
  m_thr s t = MIdle \/ m_thr s t = MAsleep MStart \/ m_thr s t = MAsleep MStop \/ (m_thr s t = MJoin /\ m_nat s <> LDone /\ m_end s = true).
Proof.
  intros I H. pose proof (mi_thr _ _ I t) as M. cbn in H. destruct (m_thr s t) as [|c|c|c| |r] eqn:ET; cbn in M.
  - auto.
  - destruct c; try contradiction; try discriminate; destruct (m_active s); discriminate.
  - destruct M as [-> | ->]; auto.
  - destruct M as [-> | ->]; discriminate.
  - right. right. right. repeat split; [|tauto]. intros X. rewrite X in H. discriminate.
  - discriminate.
Qed.
Lemma stuck_nat p s : minv p s -> m_stuck p s -> m_nat s = LSleep \/ m_nat s = LDone \/ (m_nat s = LRun /\ m_thr s 0 <> MIdle).
Proof.
  intros I (_ & H & H'). cbn in H, H'. destruct (m_nat s); auto.
  - destruct (m_active s || m_end s); discriminate.
  - destruct (negb (m_active s) || m_end s); discriminate.
  - destruct (negb (m_active s) || m_end s); discriminate.
  - discriminate.
  - right. right. split; [reflexivity|]. intros X. rewrite X in H. destruct p; discriminate.
  - discriminate.
Qed.
Theorem one_shot_calm_no_hang ls s es :
  exec (m_step false) m_init ls = Some (s, es) -> undisturbed es -> no_late_stop false es -> never_calls MDestroy es ->
  m_stuck false s -> (forall t, m_idle s t) /\ m_active s = false.
Proof.
  intros E U NL ND ST. destruct (basic_exec _ _ _ _ E) as (I & L & P & N). pose proof (calm_waits ls s es E U NL) as W.
  pose proof (mi_flags _ _ I) as FL.
  assert (NE : m_end s = false) by (destruct (m_end s) eqn:X; [|reflexivity]; destruct (N X) as (t & T); elim (ND t T)).
  assert (NR : ~ (m_nat s = LRun /\ m_thr s 0 <> MIdle)).
  { intros (R & X). destruct (stuck_thread false s 0 I (proj1 ST 0)) as [H|[H|[H|(H & _ & H')]]].
    - contradiction.
    - apply (off_running_is_late s es I L); [apply (wi_start _ W 0); now left|auto|exact NL].
    - assert (A : m_active s = true) by (apply (wi_stop _ W 0); now left). pose proof (wi_astop _ W 0 H) as B.
      rewrite R, A, B in FL. cbn in FL. rewrite andb_false_r in FL. discriminate.
    - congruence. }
  destruct (stuck_nat false s I ST) as [R|[R|R]]; [|rewrite R in FL; cbn in FL; congruence|contradiction].
  rewrite R in FL. cbn in FL. apply andb_prop in FL. destruct FL as (FL & _). apply andb_prop in FL. destruct FL as (FL & A). apply andb_prop in FL. destruct FL as (_ & S).
  apply negb_true_iff in A. split; [|exact A].
  intros t. destruct (stuck_thread false s t I (proj1 ST t)) as [H|[H|[H|(H & _ & H')]]]; [exact H|exfalso..].
  - rewrite (wi_astart _ W t H) in S. discriminate.
  - assert (A' : m_active s = true) by (apply (wi_stop _ W t); now left). congruence.
  - congruence.
Qed.
(** ** no stop at all: any number of starters, both kinds of timer *)
Lemma no_stops_no_waits p ls s es : exec (m_step p) m_init ls = Some (s, es) -> never_calls MStop es ->
  m_active s || m_stopped s = true /\ forall t c, ~ wants s t c.
Proof.
  refine (exec_with p (fun s es => never_calls MStop es -> m_active s || m_stopped s = true /\ forall t c, ~ wants s t c) _ _ ls s es).
  - intros _. split; [reflexivity|]. intros t c [H|H]; discriminate.
  - clear. intros s es l s' e I L P N J E NS. destruct (J (never_prefix _ _ _ NS)) as (A & W). clear J.
    assert (NI : forall t, ~ in_call (m_thr s t) MStop) by (intros t H; apply (NS t); apply in_app_iff; left; exact (pending_call_in _ _ _ (P _ _ H))).
    assert (CL : forall a st sp en n t q, (forall c, q <> MAsleep c /\ q <> MWoken c) -> forall u c, ~ wants (mkM a st sp en n (fupd (m_thr s) t q)) u c).
    { intros a st sp en n t q Q u c H. unfold wants in H. cbn [m_thr] in H. rewrite fupd_eq in H. destruct (Nat.eqb_spec u t); [destruct (Q c); tauto|exact (W u c H)]. }
    assert (WK : forall u c, ~ (wake_started (m_thr s u) = MAsleep c \/ wake_started (m_thr s u) = MWoken c) /\ ~ (wake_stopped (m_thr s u) = MAsleep c \/ wake_stopped (m_thr s u) = MWoken c)).
    { intros u c. pose proof (W u) as X. unfold wants in X. destruct (m_thr s u) as [|?|k|k| |]; cbn; try (split; intros [H|H]; discriminate); elim (X k); auto. }
    destruct l as [t c|t|t| | |]; cbn in E; unfold start_body, stop_body, leave_wait in E.
    + stepcases E. split; [exact A|]. apply CL. split; discriminate.
    + pose proof (mi_thr _ _ I t) as M. pose proof (NI t) as NT. pose proof (W t) as WT. destruct (m_thr s t) as [|c|c|c| |r] eqn:ET; try discriminate.
      * destruct c; try discriminate; [|elim NT; now left|..].
        { destruct (m_active s) eqn:EA; [|destruct (m_stopped s) eqn:ES; [|discriminate A]]; injection E as <- <-; cbn;
            (split; [rewrite ?EA; reflexivity|]; apply CL; split; discriminate). }
        all: injection E as <- <-; cbn; (split; [exact A|]; apply CL; split; discriminate).
      * elim (WT c). right. exact ET.
      * destruct (m_nat s); try discriminate. injection E as <- <-; cbn; (split; [exact A|]; apply CL; split; discriminate).
      * injection E as <- <-; cbn; (split; [exact A|]; apply CL; split; discriminate).
    + pose proof (W t) as WT. destruct (m_thr s t) as [|c|c|c| |r] eqn:ET; try discriminate. elim (WT c). left. exact ET.
    + stepcases E; cbn; (split; [first [exact A|apply orb_true_r|reflexivity]|]); intros u c0; try apply (proj1 (WK u c0)); try apply (proj2 (WK u c0)); try exact (W u c0).
    + stepcases E; cbn; (split; [first [exact A|apply orb_true_r|reflexivity]|]); intros u c0; try apply (proj2 (WK u c0)); try exact (W u c0).
    + stepcases E; cbn; (split; [exact A|exact W]).
Qed.
Theorem no_stops_no_hang p ls s es :
  exec (m_step p) m_init ls = Some (s, es) -> never_calls MStop es -> m_stuck p s -> forall t, m_idle s t.
Proof.
  intros E NS ST. destruct (basic_exec _ _ _ _ E) as (I & L & P & N). destruct (no_stops_no_waits p ls s es E NS) as (_ & W).
  assert (TT : forall t, m_thr s t = MIdle \/ (m_thr s t = MJoin /\ m_nat s <> LDone /\ m_end s = true)).
  { intros t. destruct (stuck_thread p s t I (proj1 ST t)) as [H|[H|[H|H]]]; auto; exfalso; eapply W; left; exact H. }
  intros t. destruct (TT t) as [H|(H & D & X)]; [exact H|exfalso].
  destruct (stuck_nat p s I ST) as [R|[R|(R & Z)]]; [|contradiction|].
  - pose proof (mi_flags _ _ I) as FL. rewrite R, X in FL. cbn in FL. rewrite andb_false_r in FL. discriminate.
  - destruct (TT 0) as [Y|(Y & _)]; [contradiction|]. pose proof (mi_thr _ _ I 0) as M. rewrite Y in M. cbn in M. tauto.
Qed.
(** ** a stuck one-shot timer has fired; destroy *)
Theorem one_shot_stuck_rests ls s es :
  exec (m_step false) m_init ls = Some (s, es) -> never_calls MDestroy es -> m_stuck false s -> m_idle s 0 ->
  m_active s = false /\ sp_run (mspec false) m_new (effects es) (mkMS false Rest false) /\
  exists rounds, mmarks false m_new (effects es) = concat rounds /\ Forall one_shot_round rounds.
Proof.
  intros E ND ST Z. destruct (basic_exec _ _ _ _ E) as (I & L & P & N).
  assert (NE : m_end s = false) by (destruct (m_end s) eqn:X; [|reflexivity]; destruct (N X) as (t & T); elim (ND t T)).
  pose proof (mi_flags _ _ I) as FL. pose proof (linto_effects _ _ _ L) as R.
  destruct (stuck_nat false s I ST) as [H|[H|(H & Y)]]; [|rewrite H in FL; cbn in FL; congruence|contradiction].
  assert (A : m_active s = false) by (rewrite H in FL; cbn in FL; destruct (m_active s); [rewrite !andb_false_r in FL; discriminate|reflexivity]).
  unfold abs in R. rewrite H, A, NE in R. cbn in R. split; [exact A|]. split; [exact R|].
  destruct (one_shot_rounds _ _ R) as (r & now & EQ & F & X). cbn in X. subst now. exists r. split; [now rewrite app_nil_r in EQ|exact F].
Qed.
Theorem stuck_destroy_returned p ls s es : exec (m_step p) m_init ls = Some (s, es) -> m_stuck p s -> m_idle s 0 -> forall t, m_thr s t <> MJoin.
Proof.
  intros E ST Z t H. destruct (basic_exec _ _ _ _ E) as (I & L & P & N).
  destruct (stuck_thread p s t I (proj1 ST t)) as [X|[X|[X|(X & D & EN)]]]; try congruence.
  destruct (stuck_nat p s I ST) as [R|[R|(R & Y)]]; [|contradiction|contradiction].
  pose proof (mi_flags _ _ I) as FL. rewrite R, EN in FL. cbn in FL. rewrite andb_false_r in FL. discriminate.
Qed.
(** a destroy that has returned: the timer thread has ended and nothing is called back ever after *)
Definition destroyinv (s : mst) (es : mout) : Prop :=
  forall d, In (Call d MDestroy) es -> m_thr s d = MAt MDestroy \/ m_thr s d = MJoin \/ m_nat s = LDone.
Lemma done_stays p s l s' e : m_step p s l = Some (s', e) -> m_nat s = LDone -> m_nat s' = LDone.
Proof. intros E N. destruct l as [t c|t|t| | |]; cbn in E; unfold start_body, stop_body, leave_wait in E; stepcases E; cbn; rewrite ?N; cbn; congruence. Qed.
Lemma destroyinv_step p s es l s' e : minv p s -> destroyinv s es -> m_step p s l = Some (s', e) -> destroyinv s' (es ++ e).
Proof.
  intros I J E d D.
  destruct (match m_nat s with LDone => true | _ => false end) eqn:ED.
  { right. right. apply (done_stays p s l s' e E). destruct (m_nat s); congruence. }
  assert (ND : m_nat s <> LDone) by (intros X; now rewrite X in ED). clear ED.
  assert (K : In (Call d MDestroy) e -> m_thr s' d = MAt MDestroy).
  { clear D. intros D. destruct l as [t c|t|t| | |]; cbn in E; unfold start_body, stop_body, leave_wait in E; stepcases E; cbn in D;
      repeat destruct D as [D|D]; try discriminate; try contradiction. injection D as -> ->. cbn. apply fupd_same. }
  apply in_app_iff in D. destruct D as [D|D]; [|left; auto]. clear K.
  destruct (J d D) as [H|[H|H]]; [| |contradiction].
  - destruct l as [t c|t|t| | |]; cbn in E; unfold start_body, stop_body, leave_wait in E.
    + stepcases E. left. cbn. rewrite fupd_other; [exact H|]. intros ->. congruence.
    + destruct (Nat.eq_dec d t) as [->|X].
      * rewrite H in E. injection E as <- <-. right. left. cbn. apply fupd_same.
      * left. stepcases E; cbn; rewrite fupd_other by exact X; exact H.
    + destruct (Nat.eq_dec d t) as [->|X]; [rewrite H in E; discriminate|]. left. stepcases E; cbn; rewrite fupd_other by exact X; exact H.
    + left. stepcases E; cbn; rewrite ?H; auto.
    + left. stepcases E; cbn; rewrite ?H; auto.
    + left. stepcases E; cbn; rewrite ?H; auto.
  - destruct l as [t c|t|t| | |]; cbn in E; unfold start_body, stop_body, leave_wait in E.
    + stepcases E. right. left. cbn. rewrite fupd_other; [exact H|]. intros ->. congruence.
    + destruct (Nat.eq_dec d t) as [->|X].
      * rewrite H in E. destruct (m_nat s); try discriminate. now elim ND.
      * right. left. stepcases E; cbn; rewrite fupd_other by exact X; exact H.
    + destruct (Nat.eq_dec d t) as [->|X]; [rewrite H in E; discriminate|]. right. left. stepcases E; cbn; rewrite fupd_other by exact X; exact H.
    + right. left. stepcases E; cbn; rewrite ?H; auto.
    + right. left. stepcases E; cbn; rewrite ?H; auto.
    + right. left. stepcases E; cbn; rewrite ?H; auto.
Qed.
Theorem timer_destroyed p ls s es d :
  exec (m_step p) m_init ls = Some (s, es) -> In (Call d MDestroy) es -> m_idle s d ->
  m_nat s = LDone /\ forall ls' s' es', exec (m_step p) s ls' = Some (s', es') -> forall c, ~ In (Call 0 c) es'.
Proof.
  intros E D Z. assert (I : minv p s) by (apply (minv_exec p ls s es E)).
  assert (J : destroyinv s es).
  { refine (exec_with p destroyinv _ _ ls s es E); [intros k []|]. intros; eapply destroyinv_step; eauto. }
  destruct (J d D) as [H|[H|H]]; [unfold m_idle in Z; congruence|unfold m_idle in Z; congruence|].
  split; [exact H|]. intros ls' s' es' E'.
  refine (proj2 (proj2 (exec_inv _ _ _ (m_step p) (fun s es => minv p s /\ m_nat s = LDone /\ forall c, ~ In (Call 0 c) es) _ ls' s [] s' es' _ E'))).
  - clear. intros s es l s' e (I & N & K) E. split; [exact (minv_step p s l s' e I E)|]. split; [exact (done_stays p s l s' e E N)|].
    intros c X. apply in_app_iff in X. destruct X as [X|X]; [exact (K c X)|].
    destruct l as [t c'|t|t| | |]; cbn in E; unfold start_body, stop_body, leave_wait in E; stepcases E; cbn in X;
      repeat destruct X as [X|X]; try discriminate; try contradiction; try congruence.
    injection X as -> ->. match goal with h : callable 0 _ c = true |- _ => rewrite N in h; destruct c; discriminate h end.
  - split; [exact I|]. split; [exact H|]. intros c [].
Qed.

(** * the one-shot timer comes to rest *)
Definition wn (n : nat) (s : mst) : nat :=
  match m_nat s with
  | LSleep | LDone => 0
  | LCheck => if m_active s && negb (m_end s) then 2 * n + 6 else n + 1
  | LTimed => n + 5 | LTCheck => 2 * n + 6 | LFire => n + 4 | LRun => n + 3 | LClear => n + 2
  end.
Definition wq (n : nat) (q : mpc) : nat :=
  match q with MIdle => 0 | MRet _ => 1 | MJoin => 2 | MAsleep _ => 2 * n + 8 | MWoken _ => 2 * n + 9 | MAt _ => 2 * n + 10 end.
Definition meas (n : nat) (s : mst) : nat := sumn (fun t => wq n (m_thr s t)) n + wn n s.
Lemma meas_client n s t q a st sp e nn : t < n ->
  wq n q + wn n (mkM a st sp e nn (fupd (m_thr s) t q)) < wq n (m_thr s t) + wn n s -> meas n (mkM a st sp e nn (fupd (m_thr s) t q)) < meas n s.
Proof.
  intros T H. unfold meas. cbn [m_thr].
  pose proof (sumn_change n (fun u => wq n (m_thr s u)) (fun u => wq n (fupd (m_thr s) t q u)) t T) as X.
  cbn beta in X. rewrite fupd_same in X. specialize (X ltac:(intros u Hu; now rewrite fupd_other)). lia.
Qed.
Lemma sumn_up n w w' : (forall k, k < n -> w' k <= w k + 1) -> sumn w' n <= sumn w n + n.
Proof.
  revert w w'. induction n; intros w w' H; cbn; [lia|]. assert (w' n <= w n + 1) by (apply H; lia).
  assert (sumn w' n <= sumn w n + n) by (apply IHn; intros; apply H; lia). lia.
Qed.
Lemma meas_wake n s a st sp e nn f : (forall u, f u = wake_started (m_thr s u) \/ f u = wake_stopped (m_thr s u)) ->
  n + wn n (mkM a st sp e nn f) < wn n s -> meas n (mkM a st sp e nn f) < meas n s.
Proof.
  intros F H. unfold meas. cbn [m_thr].
  assert (X : sumn (fun t => wq n (f t)) n <= sumn (fun t => wq n (m_thr s t)) n + n); [|lia].
  apply sumn_up. intros k _. destruct (F k) as [-> | ->]; destruct (m_thr s k) as [|?|[]|?| |]; cbn; lia.
Qed.
Definition beyond (n : nat) (s : mst) : Prop := forall t, n <= t -> m_idle s t.
Lemma beyond_step p n s l s' e : beyond n s -> m_own_step l -> m_step p s l = Some (s', e) -> beyond n s'.
Proof.
  intros B O E t T. specialize (B t T). unfold m_idle in *.
  destruct l as [u c|u|u| | |]; try contradiction; cbn in E; unfold start_body, stop_body, leave_wait in E.
  - assert (u <> t) by (intros ->; rewrite B in E; discriminate). stepcases E; cbn; rewrite fupd_other by auto; exact B.
  - stepcases E; cbn; rewrite ?B; auto.
  - stepcases E; cbn; rewrite ?B; auto.
Qed.
Lemma meas_step n s l s' e : minv false s -> beyond n s -> m_own_step l -> m_step false s l = Some (s', e) -> meas n s' < meas n s.
Proof.
  intros I B O E. pose proof (mi_flags _ _ I) as FL.
  destruct l as [u c|u|u| | |]; try contradiction; cbn in E; unfold start_body, stop_body, leave_wait in E.
  - assert (U : u < n) by (destruct (Nat.lt_ge_cases u n) as [|G]; [assumption|]; specialize (B u G); unfold m_idle in B; rewrite B in E; discriminate).
    destruct (m_thr s u) as [|c|c|c| |r] eqn:ET; try discriminate.
    + destruct c; try discriminate; stepcases E; (apply meas_client; [exact U|]; rewrite ET; unfold wn; cbn; revert FL;
        repeat match goal with H : m_active s = _ |- _ => rewrite H; clear H | H : m_stopped s = _ |- _ => rewrite H; clear H | H : m_started s = _ |- _ => rewrite H; clear H end;
        destruct (m_nat s); cbn; try lia; destruct (m_active s); cbn; try lia; destruct (m_end s); cbn; try lia; rewrite ?andb_false_r; cbn; try discriminate; try lia).
    + destruct c; try discriminate; stepcases E; (apply meas_client; [exact U|]; rewrite ET; unfold wn; cbn; revert FL;
        repeat match goal with H : m_stopped s = _ |- _ => rewrite H; clear H | H : m_started s = _ |- _ => rewrite H; clear H end;
        destruct (m_nat s); cbn; try lia; destruct (m_active s); cbn; try lia; destruct (m_end s); cbn; try lia; rewrite ?andb_false_r; cbn; try discriminate; try lia).
    + stepcases E. apply meas_client; [exact U|]. rewrite ET. unfold wn. cbn. rewrite Heql. lia.
    + stepcases E. apply meas_client; [exact U|]. rewrite ET. unfold wn. cbn. lia.
  - destruct (m_nat s) eqn:EN; try discriminate.
    + destruct (m_active s || m_end s) eqn:EA; injection E as <- <-.
      * apply meas_wake; [auto|]. unfold wn. cbn. rewrite EN. destruct (m_active s), (m_end s); cbn in *; try discriminate; lia.
      * unfold meas, wn. cbn. rewrite EN. destruct (m_active s), (m_end s); cbn in *; try discriminate; lia.
    + destruct (negb (m_active s) || m_end s) eqn:EA; injection E as <- <-.
      * apply meas_wake; [auto|]. unfold wn. cbn. rewrite EN. destruct (m_active s), (m_end s); cbn in *; try discriminate; lia.
      * unfold meas, wn. cbn. rewrite EN. lia.
    + injection E as <- <-. unfold meas, wn. cbn. rewrite EN. lia.
    + stepcases E. unfold meas, wn. cbn. rewrite EN. lia.
    + injection E as <- <-. unfold meas, wn. cbn. rewrite EN. lia.
  - destruct (m_nat s) eqn:EN; try discriminate. cbn in FL. rewrite !andb_true_iff in FL. destruct FL as ((_ & A) & X). rewrite A in E. destruct (m_end s); [discriminate|].
    cbn in E. injection E as <- <-. unfold meas, wn. cbn. rewrite EN. lia.
Qed.
Theorem one_shot_comes_to_rest n ls0 s es0 ls s' es :
  exec (m_step false) m_init ls0 = Some (s, es0) -> (forall t, n <= t -> m_idle s t) -> (forall l, In l ls -> m_own_step l) ->
  exec (m_step false) s ls = Some (s', es) -> length ls <= n * (2 * n + 10) + 2 * n + 6.
Proof.
  intros E0 B O E. pose proof (minv_exec false ls0 s es0 E0) as I.
  pose proof (exec_measure _ _ _ (m_step false) (fun s => minv false s /\ beyond n s) m_own_step (meas n)) as X.
  assert (H : length ls + meas n s' <= meas n s).
  { apply (X (fun s l s' e h o x => conj (conj (minv_step false s l s' e (proj1 h) x) (beyond_step false n s l s' e (proj2 h) o x)) (meas_step n s l s' e (proj1 h) (proj2 h) o x)) ls s s' es (conj I B) O E). }
  assert (Y : meas n s <= n * (2 * n + 10) + (2 * n + 6)); [|lia].
  unfold meas. assert (sumn (fun t => wq n (m_thr s t)) n <= n * (2 * n + 10)) by (apply sumn_bound; intros k _; destruct (m_thr s k); cbn; lia).
  assert (wn n s <= 2 * n + 6) by (unfold wn; destruct (m_nat s); try lia; destruct (m_active s && negb (m_end s)); lia). lia.
Qed.

(** * the periodic timer with one starting and one stopping thread *)
Lemma eff_in_call p s u s' e v k r : m_step p s (XStep u) = Some (s', e) -> In (Eff v k r) e -> v = u /\ in_call (m_thr s u) k.
Proof.
  intros E H. cbn in E; unfold start_body, stop_body in E. stepcases E; cbn in H; repeat destruct H as [H|H]; try discriminate; try contradiction;
    injection H as <- <- <-; (split; [reflexivity|]); unfold in_call; auto.
Qed.
Lemma disciplined_prefix c d a b : disciplined c d (a ++ b) -> disciplined c d a.
Proof. intros (C0 & A & B & C). split; [exact C0|]. split; [exact (only_prefix _ _ _ _ A)|]. split; [exact (only_prefix _ _ _ _ B)|exact (never_prefix _ _ _ C)]. Qed.
Record disc (c d : nat) (s : mst) : Prop := {
  di_c : c <> 0;
  di_min : minv true s;
  di_wait : waitinv s;
  di_end : m_end s = false;
  di_start : forall u, in_call (m_thr s u) MStart -> u = c;
  di_stop : forall u, in_call (m_thr s u) MStop -> u = d
}.
Lemma no_clear s : minv true s -> m_nat s <> LClear.
Proof. intros I H. pose proof (mi_flags _ _ I) as FL. rewrite H in FL. cbn in FL. rewrite andb_false_r in FL. discriminate. Qed.
Lemma disc_exec c d ls s es : exec (m_step true) m_init ls = Some (s, es) -> disciplined c d es -> disc c d s.
Proof.
  intros E D. destruct (basic_exec _ _ _ _ E) as (I & L & P & N).
  assert (W : waitinv s).
  { revert D. refine (exec_with true (fun s es => disciplined c d es -> waitinv s) (fun _ => waitinv_init) _ ls s es E).
    clear. intros s es l s' e I L P N J E D. pose proof (J (disciplined_prefix _ _ _ _ D)) as W.
    apply disciplined_prefix in D. destruct D as (C0 & DS & DT & _).
    apply (waitinv_step true s l s' e I W E). split; [|split].
    - intros A A' t WT. destruct (active_up _ _ _ _ _ E A A') as (u & -> & ->). f_equal.
      pose proof (DS t (pending_call_in _ _ _ (P _ _ (wants_in_call _ _ _ WT)))) as ->. apply DS. apply pending_call_in, P.
      exact (proj2 (eff_in_call _ _ _ _ _ _ _ _ E (or_introl eq_refl))).
    - intros A A' t WT. destruct (active_down _ _ _ _ _ E A A') as [(u & -> & ->)|(-> & -> & EN)]; [|elim (no_clear s I EN)]. f_equal.
      pose proof (DT t (pending_call_in _ _ _ (P _ _ (wants_in_call _ _ _ WT)))) as ->. apply DT. apply pending_call_in, P.
      exact (proj2 (eff_in_call _ _ _ _ _ _ _ _ E (or_introl eq_refl))).
    - intros EN. elim (no_clear s I EN). }
  destruct D as (C0 & DS & DT & ND). constructor; try assumption.
  - destruct (m_end s) eqn:X; [|reflexivity]. destruct (N X) as (t & T). elim (ND t T).
  - intros u H. apply DS, pending_call_in, P, H.
  - intros u H. apply DT, pending_call_in, P, H.
Qed.
Definition ready (s : mst) (x : mcall) : bool := match x with MStart => m_stopped s | _ => m_started s end.
Definition rank (s : mst) : nat := match m_nat s with LCheck | LTCheck => 1 | LRun => 2 | LFire => 3 | _ => 0 end.
(** not ready: where the timer thread is *)
Lemma unready_nat c d s t x : disc c d s -> wants s t x -> ready s x = false ->
  (x = MStart /\ m_active s = false /\ m_started s = false /\ (m_nat s = LTCheck \/ m_nat s = LRun \/ m_nat s = LFire)) \/
  (x = MStop /\ m_active s = true /\ m_stopped s = false /\ m_nat s = LCheck).
Proof.
  intros D W R. pose proof (mi_flags _ _ (di_min _ _ _ D)) as FL. rewrite (di_end _ _ _ D) in FL.
  pose proof (mi_thr _ _ (di_min _ _ _ D) t) as M.
  assert (X : x = MStart \/ x = MStop) by (destruct W as [W|W]; rewrite W in M; exact M).
  destruct X as [-> | ->]; cbn in R.
  - left. pose proof (wi_start _ (di_wait _ _ _ D) t W) as A. rewrite A, R in FL. split; [reflexivity|]. split; [exact A|].
    destruct (m_nat s); cbn in FL; rewrite ?andb_false_r in FL; cbn in FL; try discriminate; destruct (m_started s); cbn in FL; try discriminate; auto.
  - right. pose proof (wi_stop _ (di_wait _ _ _ D) t W) as A. rewrite A, R in FL. split; [reflexivity|]. split; [exact A|].
    destruct (m_nat s); cbn in FL; rewrite ?andb_false_r in FL; cbn in FL; try discriminate; destruct (m_stopped s); cbn in FL; try discriminate; auto.
Qed.
Definition fin (q : mpc) : Prop := q = MIdle \/ exists r, q = MRet r.
Definition is_nat (l : mlab) : nat := match l with XNat | XTimeout => 1 | _ => 0 end.
(** one step, seen by a waiting caller *)
Lemma waiter_step c d s l s' e t x : disc c d s -> disc c d s' -> m_step true s l = Some (s', e) -> wants s t x ->
  (l = XStep t /\ ready s x = true /\ exists r, m_thr s' t = MRet r) \/
  (wants s' t x /\ (ready s x = true -> ready s' x = true /\ l <> XStep t) /\
   (ready s x = false -> ready s' x = true \/ (rank s' + is_nat l <= rank s)) /\
   (l = XStep t -> m_thr s t = MWoken x /\ m_thr s' t = MAsleep x) /\
   (m_thr s t = MAsleep x -> m_thr s' t = MAsleep x \/ ready s' x = true \/ l = XSpurious t) /\
   (m_thr s t = MWoken x -> l <> XStep t -> m_thr s' t = MWoken x)).
Proof.
  intros D D' E W.
  pose proof (mi_thr _ _ (di_min _ _ _ D) t) as M.
  assert (X : x = MStart \/ x = MStop) by (destruct W as [W|W]; rewrite W in M; exact M).
  assert (TX : t = match x with MStart => c | _ => d end).
  { pose proof (wants_in_call _ _ _ W) as IC. destruct X as [-> | ->]; [exact (di_start _ _ _ D t IC)|exact (di_stop _ _ _ D t IC)]. }
  assert (KEEP : forall a st sp en n u q, s' = mkM a st sp en n (fupd (m_thr s) u q) -> u <> t -> l <> XStep t -> is_nat l = 0 ->
    (n = m_nat s \/ n = wake_active (m_nat s)) ->
    (ready s x = true -> ready s' x = true) -> 
    (wants s' t x /\ (ready s x = true -> ready s' x = true /\ l <> XStep t) /\
     (ready s x = false -> ready s' x = true \/ (rank s' + is_nat l <= rank s)) /\
     (l = XStep t -> m_thr s t = MWoken x /\ m_thr s' t = MAsleep x) /\
     (m_thr s t = MAsleep x -> m_thr s' t = MAsleep x \/ ready s' x = true \/ l = XSpurious t) /\
     (m_thr s t = MWoken x -> l <> XStep t -> m_thr s' t = MWoken x))).
  { intros a st sp en n u q -> NU NL IL HN HR.
    assert (T : m_thr (mkM a st sp en n (fupd (m_thr s) u q)) t = m_thr s t) by (cbn; apply fupd_other; auto).
    unfold wants. rewrite T. split; [exact W|]. split; [auto|]. split; [|split; [contradiction|split; auto]].
    intros R. right. rewrite IL. destruct (unready_nat c d s t x D W R) as [(_ & _ & _ & K)|(_ & _ & _ & K)]; unfold rank; cbn [m_nat].
    - destruct K as [K|[K|K]]; destruct HN as [-> | ->]; rewrite K; cbn; lia.
    - destruct HN as [-> | ->]; rewrite K; cbn; lia. }
  destruct l as [u k|u|u| | |].
  - right. cbn in E. destruct (m_thr s u) eqn:EU; try discriminate. destruct (callable u (m_nat s) k); [|discriminate]. injection E as <- <-.
    eapply KEEP; [reflexivity|intros ->; destruct W; congruence|discriminate|reflexivity|auto|auto].
  - destruct (Nat.eq_dec u t) as [Q|NU].
    + rewrite Q in *. clear Q u. cbn in E. destruct W as [W|W]; rewrite W in E; [discriminate|].
      destruct (ready s x) eqn:R.
      * left. split; [reflexivity|]. split; [reflexivity|]. exists MVoid.
        destruct X as [-> | ->]; cbn in R; unfold start_body, stop_body in E; rewrite R in E; injection E as <- <-; cbn; apply fupd_same.
      * right. assert (S' : s' = m_go s t (MAsleep x)) by (destruct X as [-> | ->]; cbn in R; unfold start_body, stop_body in E; rewrite R in E; now injection E as <- <-).
        subst s'. assert (T : m_thr (m_go s t (MAsleep x)) t = MAsleep x) by (cbn; apply fupd_same).
        unfold wants. rewrite T. split; [now left|]. split; [discriminate|]. split; [intros _; right; cbn; unfold rank; cbn; lia|]. split; [auto|]. split; [auto|intros _ H; now elim H].
    + right. assert (NL : XStep u <> XStep t) by congruence.
      assert (WA : t = match x with MStart => c | _ => d end -> x = MStart -> in_call (m_thr s u) MStart -> False).
      { intros Q -> IC. apply NU. rewrite Q. exact (di_start _ _ _ D u IC). }
      assert (WB : t = match x with MStart => c | _ => d end -> x = MStop -> in_call (m_thr s u) MStop -> False).
      { intros Q -> IC. apply NU. rewrite Q. exact (di_stop _ _ _ D u IC). }
      assert (RS : forall a st sp en n q, (x = MStart -> sp = m_stopped s) -> (x = MStop -> st = m_started s) -> ready s x = true -> ready (mkM a st sp en n (fupd (m_thr s) u q)) x = true).
      { intros a st sp en n q H1 H2 R. destruct X as [-> | ->]; cbn in *; [rewrite H1|rewrite H2]; auto. }
      cbn in E. unfold start_body, stop_body in E. destruct (m_thr s u) as [|k|k|k| |r] eqn:EU; try discriminate.
      * destruct k; try discriminate; stepcases E; (eapply KEEP; [reflexivity|exact NU|exact NL|reflexivity|auto|apply RS; auto]);
          intros ->; exfalso; [eapply WA|eapply WB]; eauto; unfold in_call; auto.
      * destruct k; try discriminate; stepcases E; (eapply KEEP; [reflexivity|exact NU|exact NL|reflexivity|auto|apply RS; auto]);
          intros ->; exfalso; [eapply WA|eapply WB]; eauto; unfold in_call; auto.
      * stepcases E. eapply KEEP; [reflexivity|exact NU|exact NL|reflexivity|auto|apply RS; auto].
      * stepcases E. eapply KEEP; [reflexivity|exact NU|exact NL|reflexivity|auto|apply RS; auto].
  - right. cbn in E. destruct (m_thr s u) as [|k|k|k| |r] eqn:EU; try discriminate. injection E as <- <-.
    destruct (Nat.eq_dec u t) as [Q|NU].
    + rewrite Q in *. clear Q u. assert (k = x) as -> by (destruct W; congruence). assert (T : m_thr (m_go s t (MWoken x)) t = MWoken x) by (cbn; apply fupd_same).
      unfold wants. rewrite T. split; [now right|]. split; [intros R; split; [destruct x; exact R|discriminate]|].
      split; [intros _; right; unfold rank; cbn; lia|]. split; [discriminate|]. split; [auto|]. auto.
    + eapply KEEP; [reflexivity|exact NU|discriminate|reflexivity|auto|]. destruct x; auto.
  - right. pose proof (unready_nat c d s t x D W) as UN.
    assert (NE := di_end _ _ _ D). cbn in E. rewrite NE in E.
    destruct (m_nat s) eqn:EN; try discriminate.
    + destruct (m_active s) eqn:EA; injection E as <- <-.
      * assert (x = MStop) as -> by (destruct X as [-> | ->]; [|reflexivity]; rewrite (wi_start _ (di_wait _ _ _ D) t W) in EA; discriminate).
        cbn [wants m_thr ready m_started].
        unfold wants. cbn. destruct W as [W|W]; rewrite W; cbn; repeat split; auto; try discriminate.
      * assert (R : ready s x = true).
        { destruct (ready s x) eqn:R; [reflexivity|]. destruct (UN eq_refl) as [(_ & _ & _ & K)|(_ & A & _)]; [destruct K as [K|[K|K]]; discriminate|congruence]. }
        rewrite R. split; [exact W|]. split; [intros _; split; [destruct x; exact R|discriminate]|]. split; [discriminate|]. split; [discriminate|]. split; auto.
    + destruct (negb (m_active s)) eqn:EA; cbn in E; injection E as <- <-.
      * assert (x = MStart) as -> by (destruct X as [-> | ->]; [reflexivity|]; rewrite (wi_stop _ (di_wait _ _ _ D) t W) in EA; discriminate).
        unfold wants, leave_wait. cbn. destruct W as [W|W]; rewrite W; cbn; repeat split; auto; try discriminate.
      * assert (R : ready s x = true).
        { destruct (ready s x) eqn:R; [reflexivity|]. destruct (UN eq_refl) as [(_ & A & _)|(_ & _ & _ & K)]; [rewrite A in EA; discriminate|discriminate K]. }
        rewrite R. split; [exact W|]. split; [intros _; split; [destruct x; exact R|discriminate]|]. split; [discriminate|]. split; [discriminate|]. split; auto.
    + injection E as <- <-. split; [exact W|]. split; [intros R; split; [destruct x; exact R|discriminate]|].
      split; [intros _; right; unfold rank; cbn; rewrite EN; cbn; lia|]. split; [discriminate|]. split; auto.
    + destruct (m_thr s 0) eqn:E0; try discriminate. injection E as <- <-. split; [exact W|]. split; [intros R; split; [destruct x; exact R|discriminate]|].
      split; [intros _; right; unfold rank; cbn; rewrite EN; cbn; lia|]. split; [discriminate|]. split; auto.
    + elim (no_clear s (di_min _ _ _ D) EN).
  - right. cbn in E. destruct (m_nat s) eqn:EN; try discriminate. rewrite (di_end _ _ _ D) in E.
    pose proof (mi_flags _ _ (di_min _ _ _ D)) as FL. rewrite EN in FL. cbn in FL. rewrite !andb_true_iff in FL. destruct FL as ((_ & A) & _). rewrite A in E. cbn in E. injection E as <- <-.
    assert (R : ready s x = true).
    { destruct (ready s x) eqn:R; [reflexivity|]. destruct (unready_nat c d s t x D W R) as [(_ & K & _)|(_ & _ & _ & K)]; congruence. }
    rewrite R. split; [exact W|]. split; [intros _; split; [destruct x; exact R|discriminate]|]. split; [discriminate|]. split; [discriminate|]. split; auto.
  - right. cbn in E. destruct (m_nat s) eqn:EN; try discriminate; injection E as <- <-;
      (split; [exact W|]; split; [intros R; split; [destruct x; exact R|discriminate]|]; split; [|split; [discriminate|split; auto]]);
      intros R; exfalso; destruct (unready_nat c d s t x D W R) as [(_ & _ & _ & K)|(_ & _ & _ & K)]; rewrite EN in K; repeat destruct K as [K|K]; discriminate.
Qed.
Lemma fin_step p s l s' e t : m_step p s l = Some (s', e) -> fin (m_thr s t) -> (forall k, l <> XCall t k) -> fin (m_thr s' t).
Proof.
  intros E F NC.
  assert (O : forall u q, u <> t -> fin (fupd (m_thr s) u q t)) by (intros u q N; rewrite fupd_other by auto; exact F).
  assert (WK : fin (wake_started (m_thr s t)) /\ fin (wake_stopped (m_thr s t))) by (destruct F as [F|(r & F)]; rewrite F; unfold fin; cbn; split; eauto).
  destruct l as [u k|u|u| | |]; cbn in E; unfold start_body, stop_body, leave_wait in E.
  - stepcases E. apply O. intros ->. now elim (NC k).
  - destruct (Nat.eq_dec u t) as [->|N].
    + destruct F as [F|(r & F)]; rewrite F in E; [discriminate|]. injection E as <- <-. cbn. rewrite fupd_same. now left.
    + stepcases E; apply O; exact N.
  - destruct (Nat.eq_dec u t) as [->|N].
    + destruct F as [F|(r & F)]; rewrite F in E; discriminate.
    + stepcases E; apply O; exact N.
  - stepcases E; cbn; try exact F; apply WK.
  - stepcases E; cbn; try exact F; apply WK.
  - stepcases E; exact F.
Qed.
Lemma disc_step c d ls0 s es0 l s' e : exec (m_step true) m_init ls0 = Some (s, es0) -> m_step true s l = Some (s', e) -> disciplined c d (es0 ++ e) ->
  disc c d s /\ disc c d s' /\ exec (m_step true) m_init (ls0 ++ [l]) = Some (s', es0 ++ e).
Proof.
  intros E0 E D.
  assert (X : exec (m_step true) m_init (ls0 ++ [l]) = Some (s', es0 ++ e)) by (rewrite exec_app, E0; cbn [exec]; rewrite E; cbn; now rewrite app_nil_r).
  split; [exact (disc_exec c d ls0 s es0 E0 (disciplined_prefix _ _ _ _ D))|]. split; [exact (disc_exec c d _ s' _ X D)|exact X].
Qed.
Lemma waiter_run c d t x : forall ls ls0 s es0 s' es k,
  exec (m_step true) m_init ls0 = Some (s, es0) -> exec (m_step true) s ls = Some (s', es) -> disciplined c d (es0 ++ es) ->
  (forall y, ~ In (XCall t y) ls) ->
  fin (m_thr s t) \/ (wants s t x /\ (ready s x = true \/ k + rank s <= 3)) ->
  fin (m_thr s' t) \/ (wants s' t x /\ (ready s' x = true \/ k + timer_steps ls + rank s' <= 3)).
Proof.
  induction ls as [|l ls IH]; intros ls0 s es0 s' es k E0 E D NC H.
  - cbn in E. injection E as <- <-. unfold timer_steps. cbn. rewrite Nat.add_0_r. exact H.
  - cbn [exec] in E. destruct (m_step true s l) as [[s1 e1]|] eqn:E1; [|discriminate]. destruct (exec (m_step true) s1 ls) as [[s2 e2]|] eqn:E2; [|discriminate]. injection E as <- <-.
    rewrite app_assoc in D. destruct (disc_step c d ls0 s es0 l s1 e1 E0 E1 (disciplined_prefix _ _ _ _ D)) as (DS & DS1 & X).
    assert (TS : timer_steps (l :: ls) = is_nat l + timer_steps ls) by (unfold timer_steps; destruct l; reflexivity).
    rewrite TS, Nat.add_assoc. apply (IH (ls0 ++ [l]) s1 (es0 ++ e1) s2 e2 (k + is_nat l) X E2 D).
    + intros y Hy. exact (NC y (or_intror Hy)).
    + destruct H as [F|(W & H)].
      * left. exact (fin_step true s l s1 e1 t E1 F ltac:(intros y ->; exact (NC y (or_introl eq_refl)))).
      * destruct (waiter_step c d s l s1 e1 t x DS DS1 E1 W) as [(_ & _ & r & R)|(W1 & A & B & _)]; [left; right; now exists r|]. right. split; [exact W1|].
        destruct (ready s x) eqn:R; [left; apply A; reflexivity|]. destruct H as [H|H]; [discriminate|]. destruct (B eq_refl) as [B'|B']; [now left|right; lia].
Qed.
Theorem sleeper_is_woken c d t ls0 s es0 ls s' es :
  exec (m_step true) m_init ls0 = Some (s, es0) -> exec (m_step true) s ls = Some (s', es) -> disciplined c d (es0 ++ es) ->
  (forall y, ~ In (XCall t y) ls) -> (exists x, m_thr s t = MAsleep x) -> (exists y, m_thr s' t = MAsleep y) -> timer_steps ls <= 2.
Proof.
  intros E0 E D NC (x & A) (y & A').
  assert (X : exec (m_step true) m_init (ls0 ++ ls) = Some (s', es0 ++ es)) by (rewrite exec_app, E0, E; reflexivity).
  pose proof (disc_exec c d _ s' _ X D) as D'. pose proof (disc_exec c d _ s _ E0 (disciplined_prefix _ _ _ _ D)) as DS.
  assert (W : wants s t x) by now left.
  assert (K : ready s x = true \/ 0 + rank s <= 3) by (right; unfold rank; destruct (m_nat s); lia).
  destruct (waiter_run c d t x ls ls0 s es0 s' es 0 E0 E D NC (or_intror (conj W K))) as [[F|(r & F)]|(W' & R)]; [congruence|congruence|].
  assert (y = x) as -> by (destruct W'; congruence).
  assert (NR : ready s' x = false).
  { pose proof (mi_thr _ _ (di_min _ _ _ D') t) as M. rewrite A' in M. destruct M as [-> | ->]; [exact (wi_astart _ (di_wait _ _ _ D') t A')|exact (wi_astop _ (di_wait _ _ _ D') t A')]. }
  destruct R as [R|R]; [congruence|].
  assert (1 <= rank s'); [|lia]. unfold rank. destruct (unready_nat c d s' t x D' W' NR) as [(_ & _ & _ & N)|(_ & _ & _ & N)]; [destruct N as [N|[N|N]]|]; rewrite N; lia.
Qed.
(** own steps of a call *)
Definition cm (s : mst) (t : nat) : nat :=
  match m_thr s t with MIdle => 0 | MRet _ => 1 | MWoken x => if ready s x then 2 else 4 | MAsleep _ => 3 | MAt _ => 4 | MJoin => 1 end.
Definition is_own (t : nat) (l : mlab) : nat := match l with XStep u => if Nat.eqb u t then 1 else 0 | _ => 0 end.
Lemma cm_step c d s l s' e t : disc c d s -> disc c d s' -> m_step true s l = Some (s', e) ->
  (forall k, l <> XCall t k) -> l <> XSpurious t -> cm s' t + is_own t l <= cm s t.
Proof.
  intros D D' E NC NS.
  destruct (m_thr s t) as [|k|k|k| |r] eqn:ET.
  - assert (F : m_thr s' t = MIdle).
    { pose proof (fin_step true s l s' e t E (or_introl ET) NC) as F. destruct F as [F|(r & F)]; [exact F|exfalso].
      destruct l as [u y|u|u| | |]; cbn in E; unfold start_body, stop_body, leave_wait in E.
      all: try (destruct (Nat.eq_dec u t) as [->|N]; [rewrite ET in E; try discriminate; stepcases E; now elim (NC y)|]).
      all: stepcases E; cbn in F; rewrite ?fupd_other in F by auto; rewrite ?ET in F; discriminate. }
    unfold cm. rewrite F, ET. destruct l; cbn; try lia. cbn in E. destruct (Nat.eqb_spec t0 t) as [->|]; [rewrite ET in E; discriminate|lia].
  - unfold cm at 2. rewrite ET. destruct (Nat.eq_dec (is_own t l) 1) as [Y|Y].
    + destruct l as [u y|u|u| | |]; cbn in Y; try lia. destruct (Nat.eqb_spec u t) as [->|]; [|lia]. cbn in E. rewrite ET in E. unfold start_body, stop_body in E. unfold is_own. rewrite Nat.eqb_refl.
      destruct k; try discriminate; stepcases E; unfold cm; cbn; rewrite fupd_same; cbn; lia.
    + assert (T : m_thr s' t = MAt k).
      { destruct l as [u y|u|u| | |]; cbn in E; unfold start_body, stop_body, leave_wait in E.
        - assert (u <> t) by (intros ->; now elim (NC y)). stepcases E; cbn; rewrite fupd_other by auto; exact ET.
        - assert (u <> t) by (intros ->; cbn in Y; rewrite Nat.eqb_refl in Y; lia). stepcases E; cbn; rewrite fupd_other by auto; exact ET.
        - assert (u <> t) by congruence. stepcases E; cbn; rewrite fupd_other by auto; exact ET.
        - stepcases E; cbn; rewrite ?ET; auto.
        - stepcases E; cbn; rewrite ?ET; auto.
        - stepcases E; cbn; rewrite ?ET; auto. }
      unfold cm. rewrite T. destruct l; cbn in *; try lia. destruct (Nat.eqb t0 t); lia.
  - assert (W : wants s t k) by now left. unfold cm at 2. rewrite ET.
    destruct (waiter_step c d s l s' e t k D D' E W) as [(-> & _)|(W1 & _ & _ & B & C & _)]; [cbn in E; rewrite ET in E; discriminate|].
    assert (NL : l <> XStep t) by (intros ->; destruct (B eq_refl); congruence).
    assert (is_own t l = 0) as -> by (destruct l as [u|u|u| | |]; try reflexivity; cbn; destruct (Nat.eqb_spec u t); congruence).
    unfold cm. destruct (C ET) as [C'|[C'|C']]; [rewrite C'; lia| |contradiction]. destruct W1 as [-> | ->]; [lia|]. rewrite C'. lia.
  - assert (W : wants s t k) by now right. unfold cm at 2. rewrite ET.
    destruct (waiter_step c d s l s' e t k D D' E W) as [(-> & R & r & F)|(W1 & A & _ & B & _ & G)].
    + rewrite R. unfold cm. rewrite F. unfold is_own. rewrite Nat.eqb_refl. lia.
    + destruct (Nat.eq_dec (is_own t l) 1) as [Y|Y].
      * destruct l as [u y|u|u| | |]; cbn in Y; try lia. destruct (Nat.eqb_spec u t) as [->|]; [|lia].
        destruct (ready s k) eqn:R; [destruct (A eq_refl) as (_ & X); now elim X|]. destruct (B eq_refl) as (_ & F). unfold cm. rewrite F. unfold is_own. rewrite Nat.eqb_refl. lia.
      * assert (NL : l <> XStep t) by (intros ->; cbn in Y; rewrite Nat.eqb_refl in Y; lia).
        assert (is_own t l = 0) as -> by (destruct l as [u|u|u| | |]; try reflexivity; cbn; destruct (Nat.eqb_spec u t); congruence).
        unfold cm. rewrite (G ET NL). destruct (ready s k) eqn:R; [rewrite (proj1 (A eq_refl)); lia|]. destruct (ready s' k); lia.
  - exfalso. pose proof (mi_thr _ _ (di_min _ _ _ D) t) as M. rewrite ET in M. cbn in M. destruct M as (_ & M). rewrite (di_end _ _ _ D) in M. discriminate.
  - unfold cm at 2. rewrite ET.
    destruct (Nat.eq_dec (is_own t l) 1) as [Y|Y].
    + destruct l as [u y|u|u| | |]; cbn in Y; try lia. destruct (Nat.eqb_spec u t) as [->|]; [|lia]. cbn in E. rewrite ET in E. injection E as <- <-.
      unfold cm, is_own. cbn. rewrite fupd_same, Nat.eqb_refl. lia.
    + assert (is_own t l = 0) as ->.
      { destruct l as [u|u|u| | |]; try reflexivity. cbn in *. destruct (Nat.eqb u t); [lia|reflexivity]. }
      unfold cm. destruct (fin_step true s l s' e t E (or_intror (ex_intro _ r ET)) NC) as [F|(r' & F)]; rewrite F; lia.
Qed.
Theorem own_steps_bounded c d t : forall ls ls0 s es0 s' es,
  exec (m_step true) m_init ls0 = Some (s, es0) -> exec (m_step true) s ls = Some (s', es) -> disciplined c d (es0 ++ es) ->
  (forall y, ~ In (XCall t y) ls) -> ~ In (XSpurious t) ls -> steps_of t ls <= 4.
Proof.
  assert (G : forall ls ls0 s es0 s' es, exec (m_step true) m_init ls0 = Some (s, es0) -> exec (m_step true) s ls = Some (s', es) -> disciplined c d (es0 ++ es) ->
    (forall y, ~ In (XCall t y) ls) -> ~ In (XSpurious t) ls -> steps_of t ls + cm s' t <= cm s t).
  { induction ls as [|l ls IH]; intros ls0 s es0 s' es E0 E D NC NS.
    - cbn in E. injection E as <- <-. cbn. lia.
    - cbn [exec] in E. destruct (m_step true s l) as [[s1 e1]|] eqn:E1; [|discriminate]. destruct (exec (m_step true) s1 ls) as [[s2 e2]|] eqn:E2; [|discriminate]. injection E as <- <-.
      rewrite app_assoc in D. destruct (disc_step c d ls0 s es0 l s1 e1 E0 E1 (disciplined_prefix _ _ _ _ D)) as (DS & DS1 & X).
      assert (TS : steps_of t (l :: ls) = is_own t l + steps_of t ls) by (unfold steps_of; destruct l; try reflexivity; cbn; destruct (Nat.eqb t0 t); reflexivity).
      pose proof (cm_step c d s l s1 e1 t DS DS1 E1 ltac:(intros y ->; exact (NC y (or_introl eq_refl))) ltac:(intros ->; exact (NS (or_introl eq_refl)))) as C1.
      specialize (IH (ls0 ++ [l]) s1 (es0 ++ e1) s2 e2 X E2 D ltac:(intros y Hy; exact (NC y (or_intror Hy))) ltac:(intros Hy; exact (NS (or_intror Hy)))). lia. }
  intros ls ls0 s es0 s' es E0 E D NC NS. specialize (G ls ls0 s es0 s' es E0 E D NC NS).
  assert (cm s t <= 4) by (unfold cm; destruct (m_thr s t); try destruct (ready s c0); lia). lia.
Qed.
(** a caller that is not asleep can move; a sleeping one waits for the timer thread, which can move or is in a callback that can *)
Theorem disciplined_progress c d ls s es t :
  exec (m_step true) m_init ls = Some (s, es) -> disciplined c d es -> ~ m_idle s t ->
  m_step true s (XStep t) <> None \/ m_step true s XNat <> None \/ m_step true s (XStep 0) <> None.
Proof.
  intros E D NI. pose proof (disc_exec c d ls s es E D) as DS. pose proof (di_min _ _ _ DS) as I.
  destruct (m_step true s (XStep t)) eqn:ES; [left; discriminate|right].
  assert (A : exists x, m_thr s t = MAsleep x).
  { destruct (stuck_thread true s t I ES) as [H|[H|[H|(_ & _ & H)]]]; [contradiction|eauto|eauto|]. rewrite (di_end _ _ _ DS) in H. discriminate. }
  destruct A as (x & A). assert (W : wants s t x) by now left.
  assert (NR : ready s x = false).
  { pose proof (mi_thr _ _ I t) as M. rewrite A in M. destruct M as [-> | ->]; [exact (wi_astart _ (di_wait _ _ _ DS) t A)|exact (wi_astop _ (di_wait _ _ _ DS) t A)]. }
  assert (Z : m_nat s = LRun -> m_thr s 0 = MIdle \/ m_step true s (XStep 0) <> None).
  { intros R. destruct (m_step true s (XStep 0)) eqn:E0; [right; discriminate|left].
    destruct (stuck_thread true s 0 I E0) as [H|[H|[H|(_ & _ & H)]]]; [exact H|exfalso..].
    - assert (0 = c) by (apply (di_start _ _ _ DS); right; left; exact H). apply (di_c _ _ _ DS). congruence.
    - assert (AC : m_active s = true) by (apply (wi_stop _ (di_wait _ _ _ DS) 0); now left). pose proof (wi_astop _ (di_wait _ _ _ DS) 0 H) as B.
      pose proof (mi_flags _ _ I) as FL. rewrite R, AC, B in FL. cbn in FL. rewrite andb_false_r in FL. discriminate.
    - rewrite (di_end _ _ _ DS) in H. discriminate. }
  destruct (unready_nat c d s t x DS W NR) as [(_ & AC & _ & N)|(_ & AC & _ & N)].
  - destruct N as [N|[N|N]].
    + left. cbn. rewrite N. destruct (negb (m_active s) || m_end s); discriminate.
    + destruct (Z N) as [Z'|Z']; [left|right; exact Z']. cbn. rewrite N, Z'. discriminate.
    + left. cbn. rewrite N. discriminate.
  - left. cbn. rewrite N. destruct (m_active s || m_end s); discriminate.
Qed.

(** * after stop *)
Lemma mspec_det p s t c r s1 s2 : mspec p s t c r s1 -> mspec p s t c r s2 -> s1 = s2.
Proof.
  destruct c; cbn; try (intuition congruence).
  - intros (_ & A) (_ & B). destruct (m_on s); [congruence|]. destruct A, B; congruence.
Qed.
Lemma begins_effects es : begins (effects es) = begun es.
Proof. unfold begins, begun. induction es as [|[t c|t c r|t r] es IH]; cbn; auto. destruct c; cbn; auto. Qed.
Lemma dues_begins p es : forall s, sp_run (mspec p) m_new (effects es) s -> dues es = begun es + match m_phase s with Due => 1 | _ => 0 end.
Proof.
  induction es as [|e es IH] using rev_ind; intros s H.
  - cbn in H. inversion H; subst. reflexivity.
  - unfold dues, begun in *. rewrite !filter_app, !app_length.
    rewrite effects_app in H. apply sp_run_app_inv in H. destruct H as (s1 & H1 & H2). specialize (IH s1 H1). rewrite IH.
    destruct e as [t c|t c r|t r]; cbn in H2; inversion H2; subst; cbn; try lia.
    match goal with h : sp_run _ _ [] _ |- _ => inversion h; subst end. match goal with h : mspec _ _ _ _ _ _ |- _ => rename h into P end.
    destruct c; cbn in P; cbn.
    + destruct P as (_ & P). destruct (m_on s1); [subst s; lia|]. destruct P as (-> & ->). cbn. lia.
    + destruct P as (_ & ->). destruct (m_on s1); [cbn; destruct (m_phase s1)|]; lia.
    + destruct P as (_ & ->). lia.
    + destruct P as (_ & ->). cbn. lia.
    + destruct P as (_ & _ & -> & _ & ->). cbn. lia.
    + destruct P as (_ & -> & ->). cbn. lia.
    + destruct P as (_ & -> & ->). destruct p; cbn; [destruct (m_on s1)|]; lia.
Qed.
Lemma off_stays p l : forall s s', sp_run (mspec p) s l s' -> m_on s = false -> no_start l ->
  m_on s' = false /\ forall t r, In (t, MIsStarted, r) l -> r = MBool false.
Proof.
  induction l as [|[[t c] r] l IH]; intros s s' H OFF NS; inversion H; subst; [split; [exact OFF|intros t r []]|].
  match goal with h : mspec _ _ _ _ _ _ |- _ => rename h into P end. match goal with h : sp_run _ _ l s' |- _ => rename h into Q end.
  assert (NS' : no_start l) by (intros u x X; exact (NS u x (or_intror X))).
  assert (K : forall s1, sp_run (mspec p) s1 l s' -> m_on s1 = false -> (c = MIsStarted -> r = MBool false) -> m_on s' = false /\ forall t0 r0, In (t0, MIsStarted, r0) ((t, c, r) :: l) -> r0 = MBool false).
  { intros sq Q' O' R. destruct (IH sq s' Q' O' NS') as (A & B). split; [exact A|]. intros t0 r0 [X|X]; [injection X as -> -> ->; now apply R|exact (B _ _ X)]. }
  destruct c; cbn [mspec] in P; rewrite ?OFF in P.
  - elim (NS t r). now left.
  - destruct P as (_ & ->). exact (K _ Q OFF ltac:(discriminate)).
  - destruct P as (-> & ->). exact (K _ Q OFF (fun _ => eq_refl)).
  - destruct P as (_ & ->). exact (K _ Q eq_refl ltac:(discriminate)).
  - destruct P as (_ & X & _). discriminate.
  - destruct P as (_ & _ & ->). exact (K _ Q eq_refl ltac:(discriminate)).
  - destruct P as (_ & _ & ->). destruct p; exact (K _ Q eq_refl ltac:(discriminate)).
Qed.
Lemma off_not_armed p l s : sp_run (mspec p) m_new l s -> m_on s = false -> m_phase s <> Armed.
Proof.
  intros R O A. destruct p.
  - destruct (pe_rounds l [] m_new s) as (now & _ & H); [exists []; split; [exists []; auto|cbn; auto]|exact R|]. unfold pe_now in H. now rewrite O, A in H.
  - destruct (os_rounds l [] m_new s) as (now & _ & H); [exists []; split; [exists []; auto|cbn; auto]|exact R|]. unfold os_now in H. rewrite A, O in H. destruct H; discriminate.
Qed.
Theorem after_stop p ls s es es1 u c r es2 :
  exec (m_step p) m_init ls = Some (s, es) -> es = es1 ++ Eff u c r :: es2 -> c = MStop \/ (c = MEnd /\ p = false) ->
  (forall t r', ~ In (Eff t MStart r') es2) ->
  m_active s = false /\ (forall t r', In (Eff t MIsStarted r') es2 -> r' = MBool false) /\
  begun es2 <= 1 /\ (dues es1 = begun es1 -> begun es2 = 0).
Proof.
  intros E EQ C NS. pose proof (linto_effects _ _ _ (linto_exec p ls s es E)) as R. rewrite EQ in R.
  rewrite effects_app in R. apply sp_run_app_inv in R. destruct R as (s1 & R1 & R2).
  change (effects (Eff u c r :: es2)) with ((u, c, r) :: effects es2) in R2. inversion R2; subst. match goal with h : mspec _ _ _ _ _ _ |- _ => rename h into P end. match goal with h : sp_run _ ?x (effects es2) _ |- _ => rename h into Q; rename x into sx end.
  assert (IE : forall t k r', In (t, k, r') (effects es2) <-> In (Eff t k r') es2).
  { clear. intros t k r'. unfold effects. rewrite in_flat_map. split.
    - intros ([x y|x y z|x y] & H & X); cbn in X; try contradiction. destruct X as [X|[]]. injection X as -> -> ->. exact H.
    - intros H. exists (Eff t k r'). split; [exact H|now left]. }
  assert (NS' : no_start (effects es2)) by (intros t r' X; apply (NS t r'), IE, X).
  assert (R1' : sp_run (mspec p) m_new (effects es1 ++ [(u, c, r)]) sx) by (eapply sp_run_app; [exact R1|]; econstructor; [exact P|constructor]).
  assert (OFF : m_on sx = false).
  { destruct C as [-> |(-> & ->)]; cbn in P.
    - destruct P as (_ & ->). destruct (m_on s1) eqn:O; [reflexivity|exact O].
    - destruct P as (_ & _ & ->). reflexivity. }
  destruct (off_stays p _ _ _ Q OFF NS') as (A & B).
  destruct (late_callbacks p _ _ _ Q OFF (off_not_armed _ _ _ R1' OFF) NS') as (_ & LB). rewrite begins_effects in LB.
  split; [exact A|]. split; [intros t r' X; apply (B t r'), IE, X|]. split; [destruct (m_phase sx); lia|].
  intros DB. pose proof (dues_begins p es1 s1 R1) as DD.
  assert (PH : m_phase sx <> Due).
  { destruct C as [-> |(-> & ->)]; cbn in P.
    - destruct P as (_ & ->). destruct (m_on s1); [cbn; destruct (m_phase s1); try discriminate; lia|destruct (m_phase s1); try discriminate; lia].
    - destruct P as (_ & _ & ->). discriminate. }
  destruct (m_phase sx); try contradiction; lia.
Qed.

(** * histories that go wrong *)
Lemma refute_stuck p ls (C : mst -> mout -> Prop) :
  match exec (m_step p) m_init ls with Some (s, es) => C s es /\ m_stuck p s /\ ~ (forall t, m_idle s t) | None => False end ->
  ~ (forall ls s es, exec (m_step p) m_init ls = Some (s, es) -> C s es -> m_stuck p s -> forall t, m_idle s t).
Proof. intros H A. destruct (exec (m_step p) m_init ls) as [[s es]|] eqn:E; [|contradiction]. destruct H as (X & Y & Z). exact (Z (A ls s es E X Y)). Qed.
(** stop() while the callback runs, then start(): one controlling thread *)
Definition hang_start : list mlab :=
  [XCall 1 MStart; XStep 1; XStep 1; XNat; XTimeout; XNat; XCall 1 MStop; XStep 1; XStep 1; XCall 1 MStart; XStep 1; XNat; XNat; XNat].
(** start(short) and stop() at once *)
Definition hang_stop : list mlab :=
  [XCall 1 MStart; XStep 1; XStep 1; XCall 1 MStop; XStep 1; XNat; XTimeout; XNat; XNat; XNat; XStep 1; XNat].
(** the callback itself calls stop() and start() *)
Definition hang_callback : list mlab :=
  [XCall 1 MStart; XStep 1; XStep 1; XNat; XTimeout; XNat; XCall 0 MStop; XStep 0; XStep 0; XCall 0 MStart; XStep 0].
Definition hang_two_starts : list mlab :=
  [XCall 1 MStart; XStep 1; XStep 1; XNat; XCall 1 MStop; XStep 1; XStep 1; XCall 1 MStart; XStep 1; XCall 2 MStart; XStep 2; XNat; XStep 1; XStep 2; XStep 1; XNat; XTimeout; XNat; XNat; XNat; XNat].
Definition hang_two_stops : list mlab :=
  [XCall 1 MStart; XStep 1; XStep 1; XCall 1 MStop; XStep 1; XCall 2 MStop; XStep 2; XNat; XStep 1; XStep 1; XStep 2; XNat; XNat].
(** periodic: the callback throws (agent 0 stops) while the controlling thread is in stop() *)
Definition hang_throw : list mlab :=
  [XCall 1 MStart; XStep 1; XStep 1; XCall 1 MStop; XStep 1; XNat; XNat; XTimeout; XNat; XCall 0 MStop; XStep 0; XStep 0; XStep 1; XNat; XNat; XNat].
Ltac stuck_tac := split; [intros t; do 3 (destruct t as [|t]; [reflexivity|]); reflexivity|split; reflexivity].
Ltac in_list := repeat match goal with H : _ \/ _ |- _ => destruct H as [H|H] | H : False |- _ => contradiction H | H : @eq (event _ _) _ _ |- _ => first [discriminate H|injection H; intros; subst; clear H] end.
Theorem start_can_hang :
  ~ (forall ls s es, exec (m_step false) m_init ls = Some (s, es) -> (one_controller es /\ callback_calls_nothing es /\ never_calls MDestroy es) ->
     m_stuck false s -> forall t, m_idle s t).
Proof.
  apply (refute_stuck false hang_start (fun s es => one_controller es /\ callback_calls_nothing es /\ never_calls MDestroy es)). cbn.
  split; [|split; [stuck_tac|intros H; specialize (H 1); discriminate H]].
  split; [|split]; [intros t c H|intros c H|intros t H]; cbn in H; in_list; auto.
Qed.
Theorem stop_can_hang :
  ~ (forall ls s es, exec (m_step false) m_init ls = Some (s, es) ->
     (one_controller es /\ callback_calls_nothing es /\ never_calls MDestroy es /\ no_late_stop false es) ->
     m_stuck false s -> forall t, m_idle s t).
Proof.
  apply (refute_stuck false hang_stop (fun s es => one_controller es /\ callback_calls_nothing es /\ never_calls MDestroy es /\ no_late_stop false es)). cbn.
  split; [|split; [stuck_tac|intros H; specialize (H 1); discriminate H]].
  split; [|split; [|split]]; [intros t c H|intros c H|intros t H|intros H]; cbn in H; in_list; auto; repeat destruct H as [H|H]; try discriminate H; contradiction H.
Qed.
Theorem callback_can_hang :
  ~ (forall ls s es, exec (m_step false) m_init ls = Some (s, es) -> (one_controller es /\ (forall c, In (Call 1 c) es -> c = MStart)) ->
     m_stuck false s -> forall t, m_idle s t).
Proof.
  apply (refute_stuck false hang_callback (fun s es => one_controller es /\ (forall c, In (Call 1 c) es -> c = MStart))). cbn.
  split; [|split; [stuck_tac|intros H; specialize (H 0); discriminate H]].
  split; [intros t c H|intros c H]; cbn in H; in_list; auto.
Qed.
Theorem two_starts_can_hang :
  ~ (forall ls s es, exec (m_step false) m_init ls = Some (s, es) ->
     (callback_calls_nothing es /\ never_calls MDestroy es /\ no_late_stop false es /\ only_called_by 1 MStop es) ->
     m_stuck false s -> forall t, m_idle s t).
Proof.
  apply (refute_stuck false hang_two_starts (fun s es => callback_calls_nothing es /\ never_calls MDestroy es /\ no_late_stop false es /\ only_called_by 1 MStop es)). cbn.
  split; [|split; [stuck_tac|intros H; specialize (H 2); discriminate H]].
  split; [|split; [|split]]; [intros c H|intros t H|intros H|intros t H]; cbn in H; in_list; auto; repeat destruct H as [H|H]; try discriminate H; contradiction H.
Qed.
Theorem two_stops_can_hang p :
  ~ (forall ls s es, exec (m_step p) m_init ls = Some (s, es) ->
     (callback_calls_nothing es /\ never_calls MDestroy es /\ no_late_stop p es /\ only_called_by 1 MStart es) ->
     m_stuck p s -> forall t, m_idle s t).
Proof.
  apply (refute_stuck p hang_two_stops (fun s es => callback_calls_nothing es /\ never_calls MDestroy es /\ no_late_stop p es /\ only_called_by 1 MStart es)).
  destruct p; cbn; (split; [|split; [stuck_tac|intros H; specialize (H 2); discriminate H]]);
  (split; [|split; [|split]]; [intros c H|intros t H|intros H|intros t H]; cbn in H; in_list; auto; repeat destruct H as [H|H]; try discriminate H; contradiction H).
Qed.
Theorem throw_can_hang :
  ~ (forall ls s es, exec (m_step true) m_init ls = Some (s, es) ->
     (one_controller es /\ (forall c, In (Call 0 c) es -> c = MStop \/ c = MDue \/ c = MBegin \/ c = MEnd) /\ never_calls MDestroy es) ->
     m_stuck true s -> forall t, m_idle s t).
Proof.
  apply (refute_stuck true hang_throw (fun s es => one_controller es /\ (forall c, In (Call 0 c) es -> c = MStop \/ c = MDue \/ c = MBegin \/ c = MEnd) /\ never_calls MDestroy es)). cbn.
  split; [|split; [stuck_tac|intros H; specialize (H 1); discriminate H]].
  split; [|split]; [intros t c H|intros c H|intros t H]; cbn in H; in_list; auto.
Qed.
(** periodic: of two threads that start the timer at the same time one may wait until the timer is next stopped *)
Definition wait_two_starts : list mlab :=
  [XCall 1 MStart; XStep 1; XStep 1; XNat; XNat; XCall 1 MStop; XStep 1; XStep 1; XCall 1 MStart; XStep 1; XCall 2 MStart; XStep 2; XNat; XStep 1; XStep 2; XStep 1].
Record waits_on (s : mst) : Prop := {
  wo_a : m_active s = true; wo_s : m_stopped s = false; wo_e : m_end s = false;
  wo_t : m_thr s 2 = MAsleep MStart; wo_i : forall t, t <> 2 -> m_thr s t = MIdle
}.
Lemma waits_on_step s l s' e : minv true s -> waits_on s -> m_own_step l -> m_step true s l = Some (s', e) -> waits_on s'.
Proof.
  intros I [A S EN T J] O E. destruct l as [u c|u|u| | |]; try contradiction; cbn in E.
  - destruct (Nat.eq_dec u 2) as [->|N]; [rewrite T in E; discriminate|]. rewrite (J u N) in E. discriminate.
  - rewrite A, EN in E. destruct (m_nat s) eqn:ENN; cbn in E; try discriminate.
    + injection E as <- <-. constructor; cbn; try assumption; try reflexivity; [rewrite T; reflexivity|]. intros t N. rewrite (J t N). reflexivity.
    + injection E as <- <-. constructor; cbn; assumption.
    + injection E as <- <-. constructor; cbn; assumption.
    + rewrite (J 0) in E by discriminate. injection E as <- <-. constructor; cbn; assumption.
    + elim (no_clear s I ENN).
  - rewrite A, EN in E. destruct (m_nat s) eqn:ENN; cbn in E; try discriminate. injection E as <- <-. constructor; cbn; assumption.
Qed.
Theorem second_starter_can_wait_forever :
  ~ (forall ls s es, exec (m_step true) m_init ls = Some (s, es) ->
     callback_calls_nothing es -> never_calls MDestroy es -> only_called_by 1 MStop es ->
     forall t, exists ls' s' es', (forall l, In l ls' -> m_own_step l) /\ exec (m_step true) s ls' = Some (s', es') /\ m_idle s' t).
Proof.
  intros H. destruct (exec (m_step true) m_init wait_two_starts) as [[s es]|] eqn:E; [|discriminate E].
  assert (W : waits_on s).
  { cbn in E. injection E as <- _. constructor; cbn; try reflexivity. intros t N. destruct t as [|[|[|t]]]; try reflexivity. now elim N. }
  specialize (H wait_two_starts s es E). pose proof (minv_exec true _ _ _ E) as I.
  assert (C : callback_calls_nothing es /\ never_calls MDestroy es /\ only_called_by 1 MStop es).
  { cbn in E. injection E as _ <-. split; [|split]; [intros c X|intros t X|intros t X]; cbn in X; in_list; auto. }
  destruct C as (C1 & C2 & C3). destruct (H C1 C2 C3 2) as (ls' & s' & es' & O & E' & Z).
  assert (W' : minv true s' /\ waits_on s').
  { clear - I W O E'. revert s es' I W E'. induction ls' as [|l ls' IH]; intros s es' I W E; cbn in E.
    - injection E as <- <-. auto.
    - destruct (m_step true s l) as [[s1 e1]|] eqn:E1; [|discriminate]. destruct (exec (m_step true) s1 ls') as [[s2 e2]|] eqn:E2; [|discriminate]. injection E as <- <-.
      apply (IH (fun x hx => O x (or_intror hx)) s1 e2); [exact (minv_step _ _ _ _ _ I E1)|exact (waits_on_step s l s1 e1 I W (O l (or_introl eq_refl)) E1)|exact E2]. }
  unfold m_idle in Z. rewrite (wo_t _ (proj2 W')) in Z. discriminate.
Qed.
(** stop() returned before the callback began, and the callback begins nevertheless *)
Definition late_call : list mlab :=
  [XCall 1 MStart; XStep 1; XStep 1; XNat; XTimeout; XCall 1 MStop; XStep 1; XStep 1; XNat].
Theorem stop_can_come_too_late :
  ~ (forall ls s es h1 h2, exec (m_step false) m_init ls = Some (s, es) -> history es = h1 ++ [Call 1 MStop; Ret 1 MVoid] ++ h2 ->
     (forall t, ~ In (Call t MStart) h2) -> ~ In (Call 0 MBegin) h1 -> ~ In (Call 0 MBegin) h2).
Proof.
  intros H. destruct (exec (m_step false) m_init late_call) as [[s es]|] eqn:E; [|discriminate E].
  apply (H late_call s es [Call 1 MStart; Ret 1 MVoid; Call 0 MDue; Ret 0 MVoid] [Call 0 MBegin; Ret 0 MVoid] E).
  - cbn in E. injection E as _ <-. reflexivity.
  - intros t X. cbn in X. in_list.
  - intros X. cbn in X. in_list.
  - now left.
Qed.

(** deciding [undisturbed], for the examples *)
Definition mcall_eqb (a b : mcall) : bool :=
  match a, b with MStart, MStart | MStop, MStop | MIsStarted, MIsStarted | MDestroy, MDestroy | MDue, MDue | MBegin, MBegin | MEnd, MEnd => true | _, _ => false end.
Fixpoint chk (t : nat) (c : mcall) (l : mout) : bool :=
  match l with
  | [] => true
  | Eff u c' _ :: l' => if Nat.eqb u t then (if mcall_eqb c c' then true else chk t c l') else negb (disturbs c c') && chk t c l'
  | _ :: l' => chk t c l'
  end.
Fixpoint undisturbed_b (l : mout) : bool :=
  match l with [] => true | Call t c :: l' => chk t c l' && undisturbed_b l' | _ :: l' => undisturbed_b l' end.
Lemma chk_sound t c : forall es2 l u c' r es3, chk t c l = true -> l = es2 ++ Eff u c' r :: es3 -> (forall r', ~ In (Eff t c r') es2) -> u <> t -> disturbs c c' = false.
Proof.
  induction es2 as [|x es2 IH]; intros l u c' r es3 K -> N D; cbn in K.
  - destruct (Nat.eqb_spec u t); [contradiction|]. apply andb_prop in K. destruct K as (K & _). now apply negb_true_iff in K.
  - assert (N' : forall r', ~ In (Eff t c r') es2) by (intros r' X; exact (N r' (or_intror X))).
    destruct x as [v k|v k z|v z]; [exact (IH _ u c' r es3 K eq_refl N' D)| |exact (IH _ u c' r es3 K eq_refl N' D)].
    destruct (Nat.eqb_spec v t) as [->|].
    + destruct (mcall_eqb c k) eqn:Q; [|exact (IH _ u c' r es3 K eq_refl N' D)]. exfalso. apply (N z). left. f_equal. destruct c, k; try reflexivity; discriminate Q.
    + apply andb_prop in K. exact (IH _ u c' r es3 (proj2 K) eq_refl N' D).
Qed.
Lemma undisturbed_b_sound : forall es, undisturbed_b es = true -> undisturbed es.
Proof.
  intros es H es1 t c es2 u c' r es3 E N D. subst es. induction es1 as [|x es1 IH]; cbn in H.
  - apply andb_prop in H. exact (chk_sound t c es2 _ u c' r es3 (proj1 H) eq_refl N D).
  - apply IH. destruct x; try exact H. now apply andb_prop in H.
Qed.

Theorem one_shot_atomic ls s es : exec (m_step false) m_init ls = Some (s, es) ->
  linearizable (mspec false) m_new (history es) /\
  exists st, sp_run (mspec false) m_new (effects es) st /\ m_on st = m_active s /\ one_shot_history st (mmarks false m_new (effects es)).
Proof.
  intros E. destruct (linto_exec false ls s es E) as (f & L & _). pose proof (lin_run_effects _ _ _ _ _ _ _ _ _ L) as R. split.
  - exists es, f, (abs s). split; [reflexivity|exact L].
  - exists (abs s). split; [exact R|]. split; [reflexivity|exact (one_shot_rounds _ _ R)].
Qed.
Theorem periodic_atomic ls s es : exec (m_step true) m_init ls = Some (s, es) ->
  linearizable (mspec true) m_new (history es) /\
  exists st, sp_run (mspec true) m_new (effects es) st /\ m_on st = m_active s /\ periodic_history st (mmarks true m_new (effects es)).
Proof.
  intros E. destruct (linto_exec true ls s es E) as (f & L & _). pose proof (lin_run_effects _ _ _ _ _ _ _ _ _ L) as R. split.
  - exists es, f, (abs s). split; [reflexivity|exact L].
  - exists (abs s). split; [exact R|]. split; [reflexivity|exact (periodic_rounds _ _ R)].
Qed.
