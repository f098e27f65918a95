(** Proofs about when timers fire. *)
From Coq Require Import List ZArith Bool Arith Lia.
Import ListNotations.
From Verif Require Import Spec.Linear Spec.TimerSpec Spec.TimerTimeSpec OS.Sched OS.TimerModel OS.TimerProofs OS.TimerLiveness OS.TimedModel OS.TimedProofs OS.TimerTimeModel.
Open Scope Z_scope.

Notation stamp now := (map (fun e : event mcall mres => (now, e))).
Notation at_now now := (map (fun k : mmark => (now, k))).

(** * stamped marks *)
Lemma mnext_spec p s t c r s' : mspec p s t c r s' -> s' = mnext p s c.
Proof.
  destruct c; cbn.
  - intros (_ & A). destruct (m_on s); [exact A|apply A].
  - intros (_ & ->). destruct (m_on s); reflexivity.
  - intros (_ & ->). reflexivity.
  - intros (_ & ->). reflexivity.
  - intros (_ & _ & _ & _ & ->). reflexivity.
  - intros (_ & _ & ->). reflexivity.
  - intros (_ & _ & ->). reflexivity.
Qed.
Lemma mmarks_cons p s t c r l : mmarks p s ((t, c, r) :: l) = mmarks p s [(t, c, r)] ++ mmarks p (mnext p s c) l.
Proof. destruct s as [[] [] d], c; reflexivity. Qed.
Lemma effects_at_snd es : map snd (effects_at es) = effects (map snd es).
Proof.
  induction es as [|[z [t c|t c r|t r]] es IH]; cbn; [reflexivity|exact IH| |exact IH].
  f_equal. exact IH.
Qed.
Lemma effects_at_app a b : effects_at (a ++ b) = effects_at a ++ effects_at b.
Proof. apply flat_map_app. Qed.
Lemma marks_at_app p l1 : forall s s1 l2, sp_run (mspec p) s (map snd l1) s1 -> marks_at p s (l1 ++ l2) = marks_at p s l1 ++ marks_at p s1 l2.
Proof.
  induction l1 as [|[z [[t c] r]] l1 IH]; intros s s1 l2 H; cbn in H; inversion H; subst; [reflexivity|].
  match goal with h : mspec _ _ _ _ _ _ |- _ => rename h into P end. apply mnext_spec in P. subst.
  cbn [marks_at app]. rewrite <- app_assoc. f_equal. apply IH. assumption.
Qed.
Lemma marks_at_stamp p now e : forall s, marks_at p s (effects_at (stamp now e)) = at_now now (mmarks p s (effects e)).
Proof.
  induction e as [|[t c|t c r|t r] e IH]; intros s; [reflexivity|exact (IH s)| |exact (IH s)].
  cbn [map effects_at flat_map snd fst app]. cbn [marks_at]. change (effects (Eff t c r :: e)) with ((t, c, r) :: effects e).
  rewrite (mmarks_cons p s t c r (effects e)), map_app. f_equal. apply IH.
Qed.
Lemma timer_marks_app p es s now e : linto p s (map snd es) ->
  timer_marks p (es ++ stamp now e) = timer_marks p es ++ at_now now (mmarks p (abs s) (effects e)).
Proof.
  intros L. unfold timer_marks. rewrite effects_at_app. rewrite (marks_at_app p _ m_new (abs s)).
  - f_equal. apply marks_at_stamp.
  - rewrite effects_at_snd. now apply linto_effects.
Qed.
(** the stamped marks are the marks of Spec/TimerSpec *)
Lemma timer_marks_snd p es : map snd (timer_marks p es) = mmarks p m_new (effects (map snd es)).
Proof.
  unfold timer_marks. rewrite <- effects_at_snd. generalize m_new. generalize (effects_at es). clear es.
  induction l as [|[z [[t c] r]] l IH]; intros s; [reflexivity|]. cbn [marks_at map snd]. rewrite (mmarks_cons p s t c r (map snd l)), map_app, IH, map_map. f_equal. apply map_id.
Qed.

(** * one step *)
(** a step of a client *)
Lemma client_marks p s l s' e : minv p s -> m_step p s l = Some (s', e) -> (match l with XCall _ _ | XStep _ | XSpurious _ => True | _ => False end) ->
  let K := mmarks p (abs s) (effects e) in
  (K = [] /\ (m_nat s' = m_nat s \/ m_nat s' = wake_active (m_nat s)) /\ m_active s' = m_active s) \/
  (K = [KStart] /\ (m_nat s = LCheck \/ m_nat s = LSleep \/ m_nat s = LDone) /\ m_nat s' = wake_active (m_nat s) /\ m_active s' = true) \/
  ((K = [KCancel] \/ K = [KLate]) /\ m_nat s' = wake_active (m_nat s) /\ m_active s' = false).
Proof.
  intros [_ FL _] E Hl K. subst K. destruct l as [t c|t|t| | |]; try contradiction; cbn in E.
  - destruct (m_thr s t); try discriminate. destruct (callable _ _ _); [|discriminate]. injection E as <- <-. left. cbn. auto.
  - destruct (m_thr s t) as [|c|c|c| |r]; try discriminate.
    + destruct c; try discriminate; unfold start_body, stop_body in E.
      * destruct (m_active s) eqn:EA; [injection E as <- <-; left; cbn; rewrite EA; auto|]. destruct (m_stopped s) eqn:ES; injection E as <- <-.
        -- right. left. cbn. rewrite EA. split; [reflexivity|]. split; [|auto]. revert FL. destruct (m_nat s); cbn; try congruence; auto.
        -- left. cbn. auto.
      * destruct (m_active s) eqn:EA; [|injection E as <- <-; left; cbn; rewrite EA; auto]. destruct (m_started s) eqn:ES; injection E as <- <-.
        -- right. right. cbn. rewrite EA. destruct (m_nat s); cbn; auto.
        -- left. cbn. auto.
      * injection E as <- <-. left. cbn. auto.
      * injection E as <- <-. left. cbn. auto.
    + destruct c; try discriminate; unfold start_body, stop_body in E.
      * destruct (m_stopped s) eqn:ES; injection E as <- <-; [|left; cbn; auto].
        destruct (m_active s) eqn:EA; [left|right; left]; cbn; rewrite EA; auto.
        split; [reflexivity|]. split; [|auto]. revert FL. destruct (m_nat s); cbn; try congruence; auto.
      * destruct (m_started s) eqn:ES; injection E as <- <-; [|left; cbn; auto].
        destruct (m_active s) eqn:EA; [right; right|left]; cbn; rewrite EA; [destruct (m_nat s); cbn; auto|auto].
    + destruct (m_nat s) eqn:EN; try discriminate. injection E as <- <-. left. cbn. auto.
    + injection E as <- <-. left. cbn. auto.
  - destruct (m_thr s t); try discriminate. injection E as <- <-. left. cbn. auto.
Qed.
(** a step of the timer thread *)
Lemma timer_marks_step p s l s' e : m_step p s l = Some (s', e) -> (match l with XNat | XTimeout | XNatSpurious => True | _ => False end) ->
  let K := mmarks p (abs s) (effects e) in
  match l, m_nat s with
  | XNat, LCheck => K = [] /\ m_active s' = m_active s /\ (m_nat s' = LDone \/ m_nat s' = LTCheck \/ m_nat s' = LTimed \/ (m_nat s' = LSleep))
  | XNat, LTCheck => K = [] /\ m_active s' = m_active s /\ (m_nat s' = LTimed \/ m_nat s' = LDone \/ m_nat s' = LCheck /\ m_active s = false)
  | XNat, LFire => K = [KBegin] /\ m_nat s' = LRun
  | XNat, LRun => (p = true /\ K = [KEnd] /\ m_nat s' = LTCheck) \/ (p = false /\ K = [] /\ m_nat s' = LClear)
  | XNat, LClear => K = [KEnd] /\ m_nat s' = LCheck /\ m_active s' = false
  | XTimeout, LTimed => K = [] /\ m_active s' = m_active s /\ (m_nat s' = LFire \/ m_nat s' = LDone \/ m_nat s' = LCheck /\ m_active s = false)
  | XNatSpurious, LSleep => K = [] /\ m_active s' = m_active s /\ m_nat s' = LCheck
  | XNatSpurious, LTimed => K = [] /\ m_active s' = m_active s /\ m_nat s' = LTCheck
  | _, _ => False
  end.
Proof.
  intros E Hl K. subst K. destruct l as [t c|t|t| | |]; try contradiction; cbn in E.
  - destruct (m_nat s) eqn:EN; try discriminate.
    + destruct (m_active s) eqn:EA, (m_end s) eqn:EE; injection E as <- <-; cbn; rewrite ?EA, ?EE; cbn; destruct p; intuition congruence.
    + destruct (m_active s) eqn:EA, (m_end s) eqn:EE; injection E as <- <-; cbn; rewrite ?EA, ?EE; cbn; intuition congruence.
    + injection E as <- <-. cbn. auto.
    + destruct (m_thr s 0%nat); try discriminate. destruct p; injection E as <- <-; [left|right]; cbn; auto.
    + injection E as <- <-. cbn. destruct p; auto.
  - destruct (m_nat s) eqn:EN; try discriminate.
    destruct (m_active s) eqn:EA, (m_end s) eqn:EE; injection E as <- <-; cbn; rewrite ?EA, ?EE; cbn; intuition congruence.
  - destruct (m_nat s) eqn:EN; try discriminate; injection E as <- <-; cbn; auto.
Qed.

(** * lists of marks *)
Lemma last_armed_app a b : last_armed (a ++ b) = fold_left (fun acc x => if arms (snd x) then Some (fst x) else acc) b (last_armed a).
Proof. apply fold_left_app. Qed.
Lemma snoc_begin_inv (m : list (Z * mmark)) z k a t1 d : m ++ [(z, k)] = a ++ (t1, KBegin) :: d ->
  (exists d', m = a ++ (t1, KBegin) :: d') \/ (k = KBegin /\ t1 = z /\ a = m).
Proof.
  intros E. destruct d as [|y d] using rev_ind.
  - right. apply app_inj_tail in E. destruct E as (-> & E). injection E as -> ->. auto.
  - left. rewrite app_comm_cons, app_assoc in E. apply app_inj_tail in E. exists d. exact (proj1 E).
Qed.
Lemma never_early_snoc ms m z k : never_early ms m -> (k = KBegin -> forall t0 j, In (t0, j) m -> arms j = true -> t0 + ms <= z) ->
  never_early ms (m ++ [(z, k)]).
Proof.
  intros H K a t0 j b t1 d E A. replace (a ++ (t0, j) :: b ++ (t1, KBegin) :: d) with ((a ++ (t0, j) :: b) ++ (t1, KBegin) :: d) in E
    by (rewrite <- app_assoc; reflexivity).
  apply snoc_begin_inv in E. destruct E as [(d' & E)|(-> & -> & E)].
  - rewrite <- app_assoc in E. exact (H _ _ _ _ _ _ E A).
  - apply (K eq_refl t0 j); [|exact A]. rewrite <- E. apply in_or_app. right. now left.
Qed.
Lemma on_time_snoc ms m z k : on_time ms m -> (k = KBegin -> last_armed m = Some (z - ms)) -> on_time ms (m ++ [(z, k)]).
Proof.
  intros H K a t1 d E. apply snoc_begin_inv in E. destruct E as [(d' & E)|(-> & -> & ->)]; [exact (H _ _ _ E)|now apply K].
Qed.

Ltac four := split; [|split; [|split]].
(** * not early *)
Section Timer.
  Variables (p : bool) (ms : Z) (n : nat).

  Definition early_ok (s : mst) (now sn : Z) (M : list (Z * mmark)) : Prop :=
    (forall z k, In (z, k) M -> z <= now) /\ sn <= now /\
    match m_nat s with
    | LTimed | LTCheck => forall z k, In (z, k) M -> arms k = true -> z <= sn
    | LFire => forall z k, In (z, k) M -> arms k = true -> z + ms <= now
    | _ => True
    end /\ never_early ms M.
  Definition einv (x : tst mst) (es : list (Z * event mcall mres)) : Prop :=
    minv p (t_st x) /\ linto p (t_st x) (map snd es) /\ early_ok (t_st x) (t_now x) (t_since x 0%nat) (timer_marks p es).

  Lemma in_snoc (M : list (Z * mmark)) z k z' k' : In (z, k) (M ++ [(z', k')]) -> In (z, k) M \/ (z = z' /\ k = k').
  Proof. intros H. apply in_app_or in H. destruct H as [H|[H|[]]]; [auto|injection H as -> ->; auto]. Qed.

  Lemma early_client s s' now sn M K : early_ok s now sn M ->
    (K = [] /\ (m_nat s' = m_nat s \/ m_nat s' = wake_active (m_nat s)) /\ m_active s' = m_active s) \/
    (K = [KStart] /\ (m_nat s = LCheck \/ m_nat s = LSleep \/ m_nat s = LDone) /\ m_nat s' = wake_active (m_nat s) /\ m_active s' = true) \/
    ((K = [KCancel] \/ K = [KLate]) /\ m_nat s' = wake_active (m_nat s) /\ m_active s' = false) ->
    early_ok s' now sn (M ++ at_now now K).
  Proof.
    intros (A & B & C & D) [(-> & N & _)|[(-> & N0 & N & _)|(K' & N & _)]].
    - cbn [map]. rewrite app_nil_r. four; auto. destruct N as [-> | ->]; destruct (m_nat s); cbn; auto.
    - cbn [map]. four; auto.
      + intros z k H. apply in_snoc in H. destruct H as [H|(-> & _)]; [eauto|lia].
      + rewrite N. destruct N0 as [-> |[-> | ->]]; cbn; auto.
      + apply never_early_snoc; [exact D|discriminate].
    - assert (X : exists k, K = [k] /\ arms k = false /\ k <> KBegin) by (destruct K' as [-> | ->]; eexists; (split; [reflexivity|split; [reflexivity|discriminate]])).
      destruct X as (k & -> & Ak & Nk). cbn [map]. four; auto.
      + intros z j H. apply in_snoc in H. destruct H as [H|(-> & _)]; [eauto|lia].
      + rewrite N. destruct (m_nat s); cbn; auto; intros z j H Aj; apply in_snoc in H; (destruct H as [H|(_ & ->)]; [eauto|congruence]).
      + apply never_early_snoc; [exact D|tauto].
  Qed.

  Lemma early_init : early_ok m_init 0 0 [].
  Proof.
    split; [intros z k []|]. split; [lia|]. split; [exact I|]. intros a t0 k b t1 d E. destruct a; discriminate.
  Qed.

  Variable may_tick : tst mst -> bool.
  Notation tstep := (tm_timed p ms n may_tick).

  Lemma einv_step x es l x' es' : einv x es -> tstep x l = Some (x', es') -> einv x' (es ++ es').
  Proof.
    intros (I & L & EO) S. destruct l as [l|].
    - unfold tm_timed in S. apply t_act_inv in S. destruct S as (_ & DUE & s' & e & E & -> & ->).
      assert (L' : linto p s' (map snd es ++ e)) by (eapply linto_step; eassumption).
      split; [cbn; eapply minv_step; eassumption|].
      split; [cbn [t_st]; rewrite map_app, map_map; cbn [snd]; rewrite map_id; exact L'|].
      cbn [t_st t_now t_since]. rewrite (timer_marks_app p es (t_st x) (t_now x) e L).
      destruct (match l with XCall _ _ | XStep _ | XSpurious _ => true | _ => false end) eqn:CL.
      + replace (tm_starts (t_st x) l) with false by (destruct l; try discriminate; reflexivity).
        apply (early_client _ _ _ _ _ _ EO). apply (client_marks p _ l); [exact I|exact E|destruct l; try discriminate; exact Logic.I].
      + pose proof (timer_marks_step p (t_st x) l s' e E ltac:(destruct l; try discriminate; exact Logic.I)) as T. cbv zeta in T.
        set (K := mmarks p (abs (t_st x)) (effects e)) in *. clearbody K. destruct EO as (A & B & C & D). unfold early_ok.
        destruct l as [t c|t|t| | |]; try discriminate; cbn [tm_starts tm_who].
        * destruct (m_nat (t_st x)) eqn:EN; cbn [fupd Nat.eqb]; rewrite ?fupd_same; try contradiction.
          -- destruct T as (-> & _ & T). cbn [map]. rewrite app_nil_r. four; [exact A|lia| |exact D].
             destruct T as [-> |[-> |[-> | ->]]]; auto; intros z k H _; exact (A z k H).
          -- destruct T as (-> & _ & T). cbn [map]. rewrite app_nil_r. four; [exact A|lia| |exact D].
             destruct T as [-> |[-> |(-> & _)]]; auto.
          -- destruct T as (-> & ->). cbn [map]. four; [|lia|exact Logic.I|].
             ++ intros z k H. apply in_snoc in H. destruct H as [H|(-> & _)]; [eauto|lia].
             ++ apply never_early_snoc; [exact D|]. intros _ t0 j H Aj. exact (C t0 j H Aj).
          -- destruct T as [(_ & -> & ->)|(_ & -> & ->)]; cbn [map]; rewrite ?app_nil_r.
             ++ four; [|lia| |].
                ** intros z k H. apply in_snoc in H. destruct H as [H|(-> & _)]; [eauto|lia].
                ** intros z k H _. apply in_snoc in H. destruct H as [H|(-> & _)]; [eauto|lia].
                ** apply never_early_snoc; [exact D|discriminate].
             ++ four; [exact A|lia|exact Logic.I|exact D].
          -- destruct T as (-> & -> & _). cbn [map]. four; [|lia|exact Logic.I|].
             ++ intros z k H. apply in_snoc in H. destruct H as [H|(-> & _)]; [eauto|lia].
             ++ apply never_early_snoc; [exact D|discriminate].
        * destruct (m_nat (t_st x)) eqn:EN; try contradiction. specialize (DUE ms eq_refl). cbn in DUE.
          destruct T as (-> & _ & T). cbn [map]. rewrite app_nil_r. four; [exact A|lia| |exact D].
          destruct T as [-> |[-> |(-> & _)]]; auto. intros z k H Ak. specialize (C z k H Ak). lia.
        * destruct (m_nat (t_st x)) eqn:EN; try contradiction; destruct T as (-> & _ & ->); cbn [map]; rewrite app_nil_r; four; auto.
    - unfold tm_timed in S. apply t_tick_inv in S. destruct S as (_ & -> & ->). rewrite app_nil_r. split; [exact I|]. split; [exact L|].
      destruct EO as (A & B & C & D). cbn [t_st t_now t_since]. four; [|lia| |exact D].
      + intros z k H. specialize (A z k H). lia.
      + destruct (m_nat (t_st x)); auto. intros z k H Ak. specialize (C z k H Ak). lia.
  Qed.
  Lemma einv_exec ls x es : exec tstep (t_init m_init) ls = Some (x, es) -> einv x es.
  Proof.
    intros E. apply (exec_inv _ _ _ tstep einv (fun s es l s' es' => einv_step s es l s' es') ls (t_init m_init) [] x es); [|exact E].
    split; [apply minv_init|]. split; [apply linto_init|exact early_init].
  Qed.
  Theorem tm_never_early ls x es : exec tstep (t_init m_init) ls = Some (x, es) -> never_early ms (timer_marks p es).
  Proof. intros E. apply einv_exec in E. apply E. Qed.
End Timer.
