(** Lemmas about the clock of OS/TimedModel: invariants of pending calls and facts about finished ones. *)
From Coq Require Import List ZArith Bool Arith Lia.
Import ListNotations.
From Verif Require Import Spec.Linear Spec.TimedSpec OS.Sched OS.TimedModel.
Open Scope Z_scope.

Section Calls.
  Variables C R : Type.
  Implicit Types es : list (Z * event C R).
  Notation stamp now := (map (fun e : event C R => (now, e))).

  Lemma pending_nil t t0 c : ~ pending (@nil (Z * event C R)) t t0 c.
  Proof. intros (a & b & E & _). destruct a; discriminate. Qed.
  Lemma took_nil t t0 c t1 r : ~ took (@nil (Z * event C R)) t t0 c t1 r.
  Proof. intros (a & b & d & E & _). destruct a; discriminate. Qed.

  Lemma pending_snoc es x t t0 c : pending (es ++ [x]) t t0 c ->
    x = (t0, Call t c) \/ (about t (snd x) = false /\ pending es t t0 c).
  Proof.
    intros (a & b & E & H). destruct b as [|y b] using rev_ind; clear - E H.
    - left. apply app_inj_tail in E. exact (proj2 E).
    - right. rewrite app_comm_cons, app_assoc in E. apply app_inj_tail in E. destruct E as (E & ->). split.
      + apply H. apply in_or_app. right. now left.
      + exists a, b. split; [exact E|]. intros z Y. apply H. apply in_or_app. now left.
  Qed.
  Lemma took_snoc es x t t0 c t1 r : took (es ++ [x]) t t0 c t1 r ->
    (x = (t1, Ret t r) /\ pending es t t0 c) \/ took es t t0 c t1 r.
  Proof.
    intros (a & b & d & E & H). destruct d as [|y d] using rev_ind; clear - E H.
    - left. change (a ++ (t0, Call t c) :: b ++ [(t1, Ret t r)]) with (a ++ ((t0, Call t c) :: b) ++ [(t1, Ret t r)]) in E.
      rewrite app_assoc in E. apply app_inj_tail in E. destruct E as (E & ->). split; [reflexivity|]. exists a, b. auto.
    - right. exists a, b, d. split; [|exact H].
      replace (a ++ (t0, Call t c) :: b ++ (t1, Ret t r) :: d ++ [y]) with ((a ++ (t0, Call t c) :: b ++ (t1, Ret t r) :: d) ++ [y]) in E
        by (rewrite <- !app_assoc; cbn; rewrite <- app_assoc; reflexivity).
      apply app_inj_tail in E. exact (proj1 E).
  Qed.
  Lemma pending_effs e : (forall y, In y e -> exists u c r, snd y = Eff u c r) -> forall es t t0 c, pending (es ++ e) t t0 c -> pending es t t0 c.
  Proof.
    induction e as [|y e IH] using rev_ind; intros H es t t0 c X; [now rewrite app_nil_r in X|].
    rewrite app_assoc in X. apply pending_snoc in X. destruct X as [X|(_ & X)].
    - destruct (H y) as (u & d & r & Y); [apply in_or_app; right; now left|]. rewrite X in Y. discriminate.
    - apply (IH (fun z Z => H z (in_or_app _ _ _ (or_introl Z)))). exact X.
  Qed.
  Lemma took_effs e : (forall y, In y e -> exists u c r, snd y = Eff u c r) -> forall es t t0 c t1 r, took (es ++ e) t t0 c t1 r -> took es t t0 c t1 r.
  Proof.
    induction e as [|y e IH] using rev_ind; intros H es t t0 c t1 r X; [now rewrite app_nil_r in X|].
    rewrite app_assoc in X. apply took_snoc in X. destruct X as [(X & _)|X].
    - destruct (H y) as (u & d & q & Y); [apply in_or_app; right; now left|]. rewrite X in Y. discriminate.
    - apply (IH (fun z Z => H z (in_or_app _ _ _ (or_introl Z)))). exact X.
  Qed.
End Calls.

(** the shapes of the events of one step *)
Inductive one_event {C R} (t : nat) : list (event C R) -> Prop :=
| oe_none : one_event t []
| oe_eff c r : one_event t [Eff t c r]
| oe_call c : one_event t [Call t c]
| oe_ret r : one_event t [Ret t r]
| oe_effs es : (forall e, In e es -> exists u c r, e = Eff u c r) -> one_event t es.    (* e.g. one step that completes the calls of other threads *)

Section Timed.
  Notation stamp now := (map (fun e => (now, e))).
  Variables St Lab C R : Type.
  Variable step : St -> Lab -> option (St * list (event C R)).
  Variable who : Lab -> nat.
  Variable n : nat.
  Variable starts : St -> Lab -> bool.
  Variable expiry : St -> Lab -> option Z.
  Variable may_tick : tst St -> bool.
  Notation tstep := (t_step St Lab C R step who n starts expiry may_tick).
  Notation tst := (tst St).

  Lemma t_act_inv x l x' es : tstep x (TAct l) = Some (x', es) ->
    (who l < n)%nat /\ (forall m, expiry (t_st x) l = Some m -> t_since x (who l) + m <= t_now x) /\
    exists s' e, step (t_st x) l = Some (s', e) /\ es = map (fun e => (t_now x, e)) e /\
      x' = mkT s' (t_now x) (if starts (t_st x) l then fupd (t_since x) (who l) (t_now x) else t_since x).
  Proof.
    unfold t_step. intros E. destruct ((who l <? n)%nat && due St Lab who expiry x l) eqn:G; [|discriminate].
    apply andb_prop in G. destruct G as (G1 & G2). apply Nat.ltb_lt in G1.
    destruct (step (t_st x) l) as [[s' e]|] eqn:S; [|discriminate]. injection E as <- <-.
    split; [exact G1|]. split; [|exists s', e; auto]. intros m X. unfold due in G2. rewrite X in G2. apply Z.leb_le. exact G2.
  Qed.
  Lemma t_tick_inv x x' es : tstep x TTick = Some (x', es) ->
    may_tick x = true /\ es = [] /\ x' = mkT (t_st x) (t_now x + 1) (t_since x).
  Proof. unfold t_step. destruct (may_tick x); [|discriminate]. intros E. now injection E as <- <-. Qed.

  (** the timed model runs the untimed one *)
  Definition acts (ls : list (tlab Lab)) : list Lab := flat_map (fun l => match l with TAct l => [l] | TTick => [] end) ls.
  Lemma timed_exec ls : forall x x' es, exec tstep x ls = Some (x', es) ->
    exec step (t_st x) (acts ls) = Some (t_st x', map snd es).
  Proof.
    induction ls as [|l ls IH]; intros x x' es E; cbn in E.
    - injection E as <- <-. reflexivity.
    - destruct (tstep x l) as [[x1 e1]|] eqn:E1; [|discriminate].
      destruct (exec tstep x1 ls) as [[x2 e2]|] eqn:E2; [|discriminate]. injection E as <- <-.
      destruct l as [l|].
      + apply t_act_inv in E1. destruct E1 as (_ & _ & s' & e & S & -> & ->). cbn. rewrite S.
        apply IH in E2. cbn in E2. fold (acts ls). rewrite E2. rewrite map_app, map_map. cbn. now rewrite map_id.
      + apply t_tick_inv in E1. destruct E1 as (_ & -> & ->). apply IH in E2. cbn in E2 |- *. exact E2.
  Qed.

  (** [P x t t0 c]: what holds in state [x] of the call [c] thread [t] made at [t0] and which is still running;
      [Q t t0 c t1 r]: what holds of a call that has returned *)
  Variable L : Lab -> Prop.                     (* the labels considered *)
  Variable J : tst -> Prop.
  Variable P : tst -> nat -> Z -> C -> Prop.
  Variable Q : nat -> Z -> C -> Z -> R -> Prop.
  Hypothesis shape : forall s l s' e, step s l = Some (s', e) -> one_event (who l) e.
  Hypothesis P_call : forall x l x' t c, J x -> L l -> tstep x (TAct l) = Some (x', [(t_now x, Call t c)]) -> P x' t (t_now x) c.
  Hypothesis P_act : forall x l x' es t t0 c, J x -> L l -> P x t t0 c -> tstep x (TAct l) = Some (x', es) ->
    (forall x, In x es -> about t (snd x) = false) -> P x' t t0 c.
  Hypothesis P_tick : forall x x' es t t0 c, J x -> P x t t0 c -> tstep x TTick = Some (x', es) -> P x' t t0 c.
  Hypothesis Q_ret : forall x l x' t t0 c r, J x -> L l -> P x t t0 c -> tstep x (TAct l) = Some (x', [(t_now x, Ret t r)]) -> Q t t0 c (t_now x) r.

  Definition calls_ok (x : tst) (es : list (Z * event C R)) : Prop :=
    (forall t t0 c, pending es t t0 c -> P x t t0 c) /\ (forall t t0 c t1 r, took es t t0 c t1 r -> Q t t0 c t1 r).

  Lemma calls_step x es l x' es' : J x -> (forall m, l = TAct m -> L m) -> calls_ok x es -> tstep x l = Some (x', es') -> calls_ok x' (es ++ es').
  Proof.
    intros HJ HL (HP & HQ) E. destruct l as [l|].
    - pose proof (t_act_inv x l x' es' E) as (_ & _ & s' & e & S & -> & X'). pose proof (shape _ _ _ _ S) as SH.
      pose proof (HL l eq_refl) as Ll. set (t := who l) in *. inversion SH as [EQ|c r EQ|c EQ|r EQ|es1 EF EQ]; subst e; cbn [map] in *.
      + rewrite app_nil_r. split; [|exact HQ]. intros u t0 c H. eapply P_act; [exact HJ|exact Ll|apply HP; exact H|exact E|intros y []].
      + split.
        * intros u t0 d H. apply pending_snoc in H. destruct H as [H|(A & H)]; [discriminate|].
          eapply P_act; [exact HJ|exact Ll|apply HP; exact H|exact E|]. intros y [<-|[]]. exact A.
        * intros u t0 d t1 q H. apply took_snoc in H. destruct H as [(H & _)|H]; [discriminate|exact (HQ _ _ _ _ _ H)].
      + split.
        * intros u t0 d H. apply pending_snoc in H. destruct H as [H|(A & H)].
          -- injection H as <- <- <-. eapply P_call; [exact HJ|exact Ll|exact E].
          -- eapply P_act; [exact HJ|exact Ll|apply HP; exact H|exact E|]. intros y [<-|[]]. exact A.
        * intros u t0 d t1 q H. apply took_snoc in H. destruct H as [(H & _)|H]; [discriminate|exact (HQ _ _ _ _ _ H)].
      + split.
        * intros u t0 d H. apply pending_snoc in H. destruct H as [H|(A & H)]; [discriminate|].
          eapply P_act; [exact HJ|exact Ll|apply HP; exact H|exact E|]. intros y [<-|[]]. exact A.
        * intros u t0 d t1 q H. apply took_snoc in H. destruct H as [(H & K)|H]; [|exact (HQ _ _ _ _ _ H)].
          injection H as <- <- <-. eapply Q_ret; [exact HJ|exact Ll|apply HP; exact K|exact E].
      + assert (EF' : forall y, In y (stamp (t_now x) es1) -> exists u c r, snd y = Eff u c r).
        { intros y Y. apply in_map_iff in Y. destruct Y as (z & <- & Z). exact (EF z Z). }
        split.
        * intros u t0 d H. apply pending_effs in H; [|exact EF']. eapply P_act; [exact HJ|exact Ll|apply HP; exact H|exact E|].
          intros y Y. destruct (EF' y Y) as (v & f & r & G). rewrite G. reflexivity.
        * intros u t0 d t1 q H. apply took_effs in H; [|exact EF']. exact (HQ _ _ _ _ _ H).
    - pose proof (t_tick_inv x x' es' E) as (_ & -> & X'). rewrite app_nil_r.
      split; [|exact HQ]. intros u t0 c H. eapply P_tick; [exact HJ|apply HP; exact H|exact E].
  Qed.
  Definition prefixes_ok (x0 : tst) (ls : list (tlab Lab)) : Prop :=
    forall ls1 ls2 x1 e1, ls = ls1 ++ ls2 -> exec tstep x0 ls1 = Some (x1, e1) -> J x1.
  Lemma timed_calls_from ls : forall x0 es0 x es, (forall m, In (TAct m) ls -> L m) -> prefixes_ok x0 ls -> calls_ok x0 es0 ->
    exec tstep x0 ls = Some (x, es) -> calls_ok x (es0 ++ es).
  Proof.
    induction ls as [|l ls IH]; intros x0 es0 x es HL HJ H E; cbn [exec] in E.
    - injection E as <- <-. now rewrite app_nil_r.
    - destruct (tstep x0 l) as [[x1 e1]|] eqn:E1; [|discriminate].
      destruct (exec tstep x1 ls) as [[x2 e2]|] eqn:E2; [|discriminate]. injection E as <- <-.
      rewrite app_assoc. apply (IH x1); [intros m M; apply HL; now right| | |exact E2].
      + intros la lb y ey -> Ey. apply (HJ (l :: la) lb y (e1 ++ ey)); [reflexivity|]. cbn [exec]. now rewrite E1, Ey.
      + apply (calls_step x0 es0 l); [exact (HJ [] (l :: ls) x0 [] eq_refl eq_refl)|intros m ->; apply HL; now left|exact H|exact E1].
  Qed.
  Theorem timed_calls x0 ls x es : (forall m, In (TAct m) ls -> L m) -> prefixes_ok x0 ls -> exec tstep x0 ls = Some (x, es) -> calls_ok x es.
  Proof.
    intros HL H0 E. apply (timed_calls_from ls x0 [] x es); [exact HL|exact H0| |exact E].
    split; intros * H; exfalso; [exact (pending_nil _ _ _ _ _ H)|exact (took_nil _ _ _ _ _ _ _ H)].
  Qed.
End Timed.

Lemma forallb_seq (f : nat -> bool) n : forallb f (seq 0 n) = true -> forall t, (t < n)%nat -> f t = true.
Proof. intros H t L. rewrite forallb_forall in H. apply H. apply in_seq. lia. Qed.

(** time never stops: with [urgent], when the calls in progress can make at most [B] more steps the clock advances after at
    most [B] of them *)
Section Progress.
  Variables St Lab C R : Type.
  Variable step : St -> Lab -> option (St * list (event C R)).
  Variable who : Lab -> nat.
  Variable n : nat.
  Variable starts : St -> Lab -> bool.
  Variable expiry : St -> Lab -> option Z.
  Variables go give_up : nat -> Lab.
  Hypothesis who_go : forall t, who (go t) = t.
  Hypothesis who_give_up : forall t, who (give_up t) = t.
  Hypothesis expiry_go : forall s t, expiry s (go t) = None.
  Notation urg := (urgent step who n expiry go give_up).
  Notation tstep := (t_step St Lab C R step who n starts expiry urg).
  Definition own_act (l : tlab Lab) : Prop := exists t, l = TAct (go t) \/ l = TAct (give_up t).

  Lemma not_urgent x : urg x = false -> exists l x' es, own_act l /\ tstep x l = Some (x', es).
  Proof.
    intros U. unfold urgent in U.
    assert (X : exists t, (t < n)%nat /\ (match step (t_st x) (go t) with Some _ => false | None => true end &&
              match step (t_st x) (give_up t) with Some _ => negb (due St Lab who expiry x (give_up t)) | None => true end) = false).
    { revert U. match goal with |- forallb ?g _ = false -> _ => set (f := g) end. intros U.
      assert (G : forall l, forallb f l = false -> exists t, In t l /\ f t = false).
      { induction l as [|a l IH]; cbn; [discriminate|]. destruct (f a) eqn:F; [|eauto]. intros H. destruct (IH H) as (t & A & B). eauto. }
      destruct (G _ U) as (t & A & B). exists t. apply in_seq in A. split; [lia|exact B]. }
    destruct X as (t & Lt & X). assert (Ltb : Nat.ltb t n = true) by now apply Nat.ltb_lt.
    destruct (step (t_st x) (go t)) as [[s' e]|] eqn:G.
    - exists (TAct (go t)). unfold t_step, due. rewrite who_go, expiry_go, Ltb, G. cbn [andb]. eexists _, _. split; [exists t; now left|reflexivity].
    - cbn [andb] in X. destruct (step (t_st x) (give_up t)) as [[s' e]|] eqn:G'; [|discriminate].
      apply negb_false_iff in X. exists (TAct (give_up t)). unfold t_step. rewrite who_give_up, X, Ltb, G'. cbn [andb].
      eexists _, _. split; [exists t; now right|reflexivity].
  Qed.
  Theorem time_goes_on B : forall x,
    (forall ls x' es, (forall l, In l ls -> own_act l) -> exec tstep x ls = Some (x', es) -> (length ls <= B)%nat) ->
    exists ls x1 es1, (forall l, In l ls -> own_act l) /\ (length ls <= B)%nat /\ exec tstep x ls = Some (x1, es1) /\
      tstep x1 TTick = Some (mkT (t_st x1) (t_now x1 + 1) (t_since x1), []).
  Proof.
    induction B as [|B IH]; intros x H.
    - exists [], x, []. cbn. split; [intros l []|]. split; [lia|]. split; [reflexivity|]. unfold t_step.
      destruct (urg x) eqn:U; [reflexivity|]. destruct (not_urgent x U) as (l & x' & es & O & E).
      specialize (H [l] x' es). cbn in H. rewrite E, app_nil_r in H. specialize (H ltac:(intros m [<-|[]]; exact O) eq_refl). lia.
    - destruct (urg x) eqn:U.
      + exists [], x, []. cbn. split; [intros l []|]. split; [lia|]. split; [reflexivity|]. now rewrite U.
      + destruct (not_urgent x U) as (l & x' & es & O & E). destruct (IH x') as (ls & x1 & es1 & A & A2 & A3 & A4).
        { intros ls x2 es2 A E2. specialize (H (l :: ls) x2 (es ++ es2)). cbn [exec] in H. rewrite E, E2 in H. cbn in H.
          assert (S (length ls) <= S B)%nat; [|lia]. apply H; [intros m [<-|M]; auto|reflexivity]. }
        exists (l :: ls), x1, (es ++ es1). split; [intros m [<-|M]; auto|]. split; [cbn; lia|]. split; [|exact A4]. cbn [exec]. now rewrite E, A3.
  Qed.
  Lemma own_acts ls : (forall l, In l ls -> own_act l) ->
    length (acts Lab ls) = length ls /\ forall l, In l (acts Lab ls) -> exists t, l = go t \/ l = give_up t.
  Proof.
    induction ls as [|l ls IH]; intros O; [split; [reflexivity|intros l []]|].
    destruct (IH (fun m Hm => O m (or_intror Hm))) as (A & B).
    destruct (O l (or_introl eq_refl)) as (t & [-> | ->]); cbn; fold (acts Lab ls); rewrite A; (split; [reflexivity|]); intros m [<-|Hm]; eauto.
  Qed.
  Lemma own_now ls : forall x x' es, (forall l, In l ls -> own_act l) -> exec tstep x ls = Some (x', es) -> t_now x' = t_now x.
  Proof.
    induction ls as [|l ls IH]; intros x x' es O E; cbn [exec] in E; [now injection E as <- _|].
    destruct (tstep x l) as [[x1 e1]|] eqn:E1; [|discriminate]. destruct (exec tstep x1 ls) as [[x2 e2]|] eqn:E2; [|discriminate].
    injection E as <- _. rewrite (IH x1 x2 e2 (fun m Hm => O m (or_intror Hm)) E2).
    destruct (O l (or_introl eq_refl)) as (t & [-> | ->]); apply t_act_inv in E1; destruct E1 as (_ & _ & s' & e & _ & _ & ->); reflexivity.
  Qed.
  Theorem clock_advances B x :
    (forall ls s' es, (forall l, In l ls -> exists t, l = go t \/ l = give_up t) -> exec step (t_st x) ls = Some (s', es) -> (length ls <= B)%nat) ->
    exists ls x1 es1, (length ls <= B)%nat /\ exec tstep x ls = Some (x1, es1) /\ t_now x1 = t_now x /\
      tstep x1 TTick = Some (mkT (t_st x1) (t_now x + 1) (t_since x1), []).
  Proof.
    intros H. destruct (time_goes_on B x) as (ls & x1 & es1 & A & G & E & T).
    - intros ls x' es O E. destruct (own_acts ls O) as (A & G). rewrite <- A. apply (H (acts Lab ls) (t_st x') (map snd es) G).
      exact (timed_exec _ _ _ _ _ _ _ _ _ _ _ _ _ _ E).
    - pose proof (own_now ls x x1 es1 A E) as N. exists ls, x1, es1. split; [exact G|]. split; [exact E|]. split; [exact N|]. rewrite <- N. exact T.
  Qed.
End Progress.
