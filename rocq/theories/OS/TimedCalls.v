(** Like [TimedProofs.timed_calls], for models whose steps may show a call and its return at once. *)
From Coq Require Import List ZArith Bool Arith Lia.
Import ListNotations.
From Verif Require Import Spec.Linear Spec.TimedSpec OS.Sched OS.TimedModel OS.TimedProofs.
Open Scope Z_scope.

Section V.
  Variables C R : Type.
  Implicit Types es : list (Z * event C R).
  Definition vis (x : Z * event C R) : bool := visible (snd x).
  Lemma pending_vis es t t0 c : pending es t t0 c -> pending (filter vis es) t t0 c.
  Proof.
    intros (a & b & -> & H). exists (filter vis a), (filter vis b). split; [now rewrite filter_app|].
    intros x X. apply H. apply filter_In in X. tauto.
  Qed.
  Lemma took_vis es t t0 c t1 r : took es t t0 c t1 r -> took (filter vis es) t t0 c t1 r.
  Proof.
    intros (a & b & d & -> & H). exists (filter vis a), (filter vis b), (filter vis d). split.
    - rewrite filter_app. cbn [filter vis snd visible]. now rewrite filter_app.
    - intros x X. apply H. apply filter_In in X. tauto.
  Qed.
  Lemma filter_stamp (now : Z) (e : list (event C R)) : filter vis (map (fun e => (now, e)) e) = map (fun e => (now, e)) (filter visible e).
  Proof. induction e as [|x e IH]; [reflexivity|]. cbn. unfold vis at 1. cbn. destruct (visible x); cbn; now rewrite IH. Qed.
End V.
Arguments vis {C R}.

(** what can be seen of one step of thread [t] *)
Inductive seen {C R} (t : nat) : list (event C R) -> Prop :=
| sn_none : seen t []
| sn_call c : seen t [Call t c]
| sn_ret r : seen t [Ret t r]
| sn_both c r : seen t [Call t c; Ret t r].

Section Timed.
  Variables St Lab C R : Type.
  Variable step : St -> Lab -> option (St * list (event C R)).
  Variable who : Lab -> nat.
  Variable n : nat.
  Variable starts : St -> Lab -> bool.
  Variable expiry : St -> Lab -> option Z.
  Variable may_tick : tst St -> bool.
  Notation tstep := (t_step St Lab C R step who n starts expiry may_tick).
  Notation tst := (tst St).
  Variable L : Lab -> Prop.
  Variable J : tst -> Prop.
  Variable P : tst -> nat -> Z -> C -> Prop.
  Variable Q : nat -> Z -> C -> Z -> R -> Prop.
  Hypothesis shape : forall s l s' e, step s l = Some (s', e) -> seen (who l) (filter visible e).
  Hypothesis P_call : forall x l x' es t c, J x -> L l -> tstep x (TAct l) = Some (x', es) -> filter vis es = [(t_now x, Call t c)] -> P x' t (t_now x) c.
  Hypothesis P_act : forall x l x' es t t0 c, J x -> L l -> P x t t0 c -> tstep x (TAct l) = Some (x', es) ->
    (forall x, In x es -> about t (snd x) = false) -> P x' t t0 c.
  Hypothesis P_tick : forall x x' es t t0 c, J x -> P x t t0 c -> tstep x TTick = Some (x', es) -> P x' t t0 c.
  Hypothesis Q_ret : forall x l x' es t t0 c r, J x -> L l -> P x t t0 c -> tstep x (TAct l) = Some (x', es) -> filter vis es = [(t_now x, Ret t r)] -> Q t t0 c (t_now x) r.
  Hypothesis Q_both : forall x l x' es t c r, J x -> L l -> tstep x (TAct l) = Some (x', es) -> filter vis es = [(t_now x, Call t c); (t_now x, Ret t r)] ->
    Q t (t_now x) c (t_now x) r.

  Definition vcalls_ok (x : tst) (es : list (Z * event C R)) : Prop :=
    (forall t t0 c, pending (filter vis es) t t0 c -> P x t t0 c) /\ (forall t t0 c t1 r, took (filter vis es) t t0 c t1 r -> Q t t0 c t1 r).

  Lemma about_vis t (es : list (Z * event C R)) : (forall x, In x (filter vis es) -> about t (snd x) = false) -> forall x, In x es -> about t (snd x) = false.
  Proof.
    intros H x X. destruct (vis x) eqn:V; [apply H; apply filter_In; auto|]. destruct x as [z e]; destruct e; cbn in *; try discriminate; reflexivity.
  Qed.
  Lemma vcalls_step x es l x' es' : J x -> (forall m, l = TAct m -> L m) -> vcalls_ok x es -> tstep x l = Some (x', es') -> vcalls_ok x' (es ++ es').
  Proof.
    intros HJ HL (HP & HQ) E. unfold vcalls_ok. rewrite filter_app. destruct l as [l|].
    - pose proof (t_act_inv _ _ _ _ _ _ _ _ _ _ x l x' es' E) as (_ & _ & s' & e & S & EE & X'). pose proof (shape _ _ _ _ S) as SH.
      assert (FE : filter vis es' = map (fun e => (t_now x, e)) (filter visible e)) by (rewrite EE; apply filter_stamp).
      pose proof (HL l eq_refl) as Ll. set (t := who l) in *.
      assert (PA : forall u t0 c, pending (filter vis es) u t0 c -> (forall y, In y (filter vis es') -> about u (snd y) = false) -> P x' u t0 c).
      { intros u t0 c H A. eapply P_act; [exact HJ|exact Ll|apply HP; exact H|exact E|]. exact (about_vis u es' A). }
      inversion SH as [EQ|c EQ|r EQ|c r EQ]; rewrite <- EQ in FE; cbn [map] in FE; rewrite FE in PA |- *.
      + rewrite app_nil_r. split; [|exact HQ]. intros u t0 c H. apply (PA _ _ _ H). intros y [].
      + split.
        * intros u t0 d H. apply pending_snoc in H. destruct H as [H|(A & H)].
          -- injection H as <- <- <-. eapply P_call; [exact HJ|exact Ll|exact E|exact FE].
          -- apply (PA _ _ _ H). intros y [<-|[]]. exact A.
        * intros u t0 d t1 q H. apply took_snoc in H. destruct H as [(H & _)|H]; [discriminate|exact (HQ _ _ _ _ _ H)].
      + split.
        * intros u t0 d H. apply pending_snoc in H. destruct H as [H|(A & H)]; [discriminate|]. apply (PA _ _ _ H). intros y [<-|[]]. exact A.
        * intros u t0 d t1 q H. apply took_snoc in H. destruct H as [(H & K)|H]; [|exact (HQ _ _ _ _ _ H)].
          injection H as <- <- <-. eapply Q_ret; [exact HJ|exact Ll|apply HP; exact K|exact E|exact FE].
      + change [(t_now x, Call t c); (t_now x, Ret t r)] with ([(t_now x, @Call C R t c)] ++ [(t_now x, @Ret C R t r)]). rewrite app_assoc. split.
        * intros u t0 d H. apply pending_snoc in H. destruct H as [H|(A & H)]; [discriminate|]. apply pending_snoc in H. destruct H as [H|(A' & H)].
          -- exfalso. injection H as <- <- <-. cbn in A. rewrite Nat.eqb_refl in A. discriminate.
          -- apply (PA _ _ _ H). intros y [<-|[<-|[]]]; assumption.
        * intros u t0 d t1 q H. apply took_snoc in H. destruct H as [(H & K)|H].
          -- injection H as <- <- <-. apply pending_snoc in K. destruct K as [K|(A & _)].
             ++ injection K as <- <-. eapply Q_both; [exact HJ|exact Ll|exact E|exact FE].
             ++ exfalso. cbn in A. rewrite Nat.eqb_refl in A. discriminate.
          -- apply took_snoc in H. destruct H as [(H & _)|H]; [discriminate|exact (HQ _ _ _ _ _ H)].
    - pose proof (t_tick_inv _ _ _ _ _ _ _ _ _ _ x x' es' E) as (_ & -> & X'). cbn [filter]. rewrite app_nil_r.
      split; [|exact HQ]. intros u t0 c H. eapply P_tick; [exact HJ|apply HP; exact H|exact E].
  Qed.
  Lemma vtimed_calls_from ls : forall x0 es0 x es, (forall m, In (TAct m) ls -> L m) ->
    (forall ls1 ls2 x1 e1, ls = ls1 ++ ls2 -> exec tstep x0 ls1 = Some (x1, e1) -> J x1) -> vcalls_ok x0 es0 ->
    exec tstep x0 ls = Some (x, es) -> vcalls_ok x (es0 ++ es).
  Proof.
    induction ls as [|l ls IH]; intros x0 es0 x es HL HJ H E; cbn [exec] in E.
    - injection E as <- <-. now rewrite app_nil_r.
    - destruct (tstep x0 l) as [[x1 e1]|] eqn:E1; [|discriminate].
      destruct (exec tstep x1 ls) as [[x2 e2]|] eqn:E2; [|discriminate]. injection E as <- <-.
      rewrite app_assoc. apply (IH x1); [intros m M; apply HL; now right| | |exact E2].
      + intros la lb y ey -> Ey. apply (HJ (l :: la) lb y (e1 ++ ey)); [reflexivity|]. cbn [exec]. now rewrite E1, Ey.
      + apply (vcalls_step x0 es0 l); [exact (HJ [] (l :: ls) x0 [] eq_refl eq_refl)|intros m ->; apply HL; now left|exact H|exact E1].
  Qed.
  Theorem vtimed_calls x0 ls x es : (forall m, In (TAct m) ls -> L m) ->
    (forall ls1 ls2 x1 e1, ls = ls1 ++ ls2 -> exec tstep x0 ls1 = Some (x1, e1) -> J x1) -> exec tstep x0 ls = Some (x, es) ->
    (forall t t0 c, pending es t t0 c -> P x t t0 c) /\ (forall t t0 c t1 r, took es t t0 c t1 r -> Q t t0 c t1 r).
  Proof.
    intros HL H0 E. destruct (vtimed_calls_from ls x0 [] x es HL H0) as (A & B); [|exact E|].
    - split; intros * H; exfalso; [exact (pending_nil _ _ _ _ _ H)|exact (took_nil _ _ _ _ _ _ _ H)].
    - cbn [app] in A, B. split; [intros t t0 c H; apply A, pending_vis, H|intros t t0 c t1 r H; eapply B, took_vis, H].
  Qed.
End Timed.

(** time never stops: if, when the clock may not advance, one of the steps [own] is possible, and at most [B] of them are possible in a row, the
    clock advances after at most [B] of them *)
Section Go.
  Variables St Lab C R : Type.
  Variable step : St -> Lab -> option (St * list (event C R)).
  Variable who : Lab -> nat.
  Variable n : nat.
  Variable starts : St -> Lab -> bool.
  Variable expiry : St -> Lab -> option Z.
  Variable may_tick : tst St -> bool.
  Notation tstep := (t_step St Lab C R step who n starts expiry may_tick).
  Variable own : Lab -> Prop.
  Hypothesis busy : forall x, may_tick x = false -> exists l x' es, own l /\ tstep x (TAct l) = Some (x', es).
  Theorem clock_goes_on B : forall x,
    (forall ls s' es, (forall l, In l ls -> own l) -> exec step (t_st x) ls = Some (s', es) -> (length ls <= B)%nat) ->
    exists ls x1 es1, (length ls <= B)%nat /\ exec tstep x ls = Some (x1, es1) /\ t_now x1 = t_now x /\
      tstep x1 TTick = Some (mkT (t_st x1) (t_now x + 1) (t_since x1), []).
  Proof.
    induction B as [|B IH]; intros x H; destruct (may_tick x) eqn:U.
    - exists [], x, []. cbn. rewrite U. auto.
    - exfalso. destruct (busy x U) as (l & x' & es & O & E). apply t_act_inv in E. destruct E as (_ & _ & s' & e & S & _).
      specialize (H [l] s' e). cbn in H. rewrite S, app_nil_r in H. specialize (H ltac:(intros m [<-|[]]; exact O) eq_refl). lia.
    - exists [], x, []. cbn. rewrite U. split; [lia|auto].
    - destruct (busy x U) as (l & x' & es & O & E). pose proof (t_act_inv _ _ _ _ _ _ _ _ _ _ _ _ _ _ E) as (_ & _ & s' & e & S & _ & X').
      destruct (IH x') as (ls & x1 & es1 & A & A2 & A3 & A4).
      { intros ls s2 es2 A E2. specialize (H (l :: ls) s2 (e ++ es2)). rewrite X' in E2. cbn [t_st] in E2. cbn [exec] in H. rewrite S, E2 in H. cbn [length] in H.
        assert (Datatypes.S (length ls) <= Datatypes.S B)%nat; [|lia]. apply H; [intros m [<-|M]; auto|reflexivity]. }
      assert (NX : t_now x' = t_now x) by now rewrite X'. rewrite NX in A3, A4.
      exists (TAct l :: ls), x1, (es ++ es1). split; [cbn; lia|]. split; [cbn [exec]; now rewrite E, A2|]. split; [exact A3|exact A4].
  Qed.
End Go.
