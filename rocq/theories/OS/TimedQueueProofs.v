(** How long the calls of MessageQueue<T> take. *)
From Coq Require Import List ZArith Bool Arith Lia.
Import ListNotations.
From Verif Require Import Spec.OSError Spec.Linear Spec.MessageQueueSpec OS.Sched OS.MessageQueueModel OS.MessageQueueProofs OS.TimedModel OS.TimedProofs Spec.TimedSpec.
Open Scope Z_scope.

Section MQ.
  Variables (V : Type) (maxSize : Z) (n : nat).
  Notation stp := (q_step V maxSize).

  (** the moves of one thread *)
  Definition has_result (p : point V) : option (qres V) :=
    match p with PSetEv r | PUnlockOp r | PUnlockOuter r | PRet r => Some r | _ => None end.
  Inductive moves (t : nat) (l : qlab V) : qpc V -> qpc V -> list (event (qcall V) (qres V)) -> Prop :=
  | mv_call c : l = QCall t c -> moves t l QIdle (QAt c (match c with QSend _ _ | QRecv _ _ => PLockOuter | _ => PLockOp end)) [Call t c]
  | mv_ret c r : l = QStep t -> moves t l (QAt c (PRet r)) QIdle [Ret t r]
  | mv_wait c : l = QStep t -> moves t l (QAt c (PUnlockChk true)) (QAt c PWait) []
  | mv_on c p p' e : l = QStep t \/ l = QLockFail t \/ (exists b, l = QThrow t b) -> p <> PUnlockChk true -> p' <> PLockOuter -> p' <> PWait ->
      (forall r, has_result p' = Some r -> has_result p = Some r \/ ~ queue_timed_out r) ->
      (has_result p' = None -> p' <> PLockOp -> p' <> POp -> has_result p = None /\ p <> PLockOp /\ p <> POp /\ p <> PWait) ->
      e = [] \/ (exists r, e = [Eff t c r]) ->
      moves t l (QAt c p) (QAt c p') e
  | mv_out c p p' r : l = QTimeout t -> p = PLockOuter \/ p = PWait -> tmout c <> -1 -> has_result p' = Some r -> moves t l (QAt c p) (QAt c p') [Eff t c r]
  | mv_stay c : l = QStep t -> moves t l (QAt c POp) (QAt c POp) [].
  Lemma send_no e : e <> TimedOut -> ~ @queue_timed_out V (RSend e).
  Proof. intros N [X|(v & X)]; [injection X; congruence|discriminate]. Qed.
  Lemma recv_no e v : e <> TimedOut -> ~ @queue_timed_out V (RRecv e v).
  Proof. intros N [X|(v' & X)]; [discriminate|injection X; congruence]. Qed.
  Lemma num_no k : ~ @queue_timed_out V (RNum k).
  Proof. intros [X|(v' & X)]; discriminate. Qed.
  Lemma fail_no : ~ @queue_timed_out V RFailure.
  Proof. intros [X|(v' & X)]; discriminate. Qed.
  Lemma mq_moves s l s' e : stp s l = Some (s', e) -> moves (mq_who l) l (q_thr s (mq_who l)) (q_thr s' (mq_who l)) e.
  Proof.
    intros E. destruct l as [t c|t|t|t|t fl]; cbn beta iota delta [q_step mq_who] in E |- *; destruct (q_thr s t) as [|c0 p0] eqn:Q; try discriminate.
    - injection E as <- <-. cbn [q_go q_thr]. rewrite fupd_same. now constructor.
    - assert (ON : forall p' e', p0 <> PUnlockChk true -> p' <> PLockOuter -> p' <> PWait ->
        (forall r, has_result p' = Some r -> has_result p0 = Some r \/ ~ queue_timed_out r) ->
        (has_result p' = None -> p' <> PLockOp -> p' <> POp -> has_result p0 = None /\ p0 <> PLockOp /\ p0 <> POp /\ p0 <> PWait) ->
        e' = [] \/ (exists r, e' = [Eff t c0 r]) -> moves t (QStep t) (QAt c0 p0) (QAt c0 p') e') by (intros; econstructor; eauto).
      destruct p0 as [| | | |b| | | |r|r|r|r].
      + destruct (free (outer s c0)); [|discriminate]. injection E as <- <-. cbn [q_go q_thr]. rewrite fupd_same. apply ON; auto; try discriminate; cbn; repeat split; discriminate.
      + destruct (free (q_mrb s)); [|discriminate]. injection E as <- <-. cbn [q_go q_thr]. rewrite fupd_same. apply ON; auto; try discriminate; cbn; repeat split; discriminate.
      + injection E as <- <-. cbn [q_go q_thr]. rewrite fupd_same. destruct (blocked V maxSize s c0); apply ON; auto; try discriminate; cbn; repeat split; discriminate.
      + injection E as <- <-. cbn [q_go q_thr]. rewrite fupd_same. apply ON; auto; try discriminate; cbn; repeat split; discriminate.
      + injection E as <- <-. cbn [q_go q_thr]. rewrite fupd_same. destruct b; [now constructor|]. apply ON; auto; try discriminate; cbn; congruence.
      + destruct (wait_bit s c0); [|discriminate]. injection E as <- <-. cbn [q_go q_thr]. rewrite fupd_same. apply ON; auto; try discriminate; cbn; congruence.
      + destruct (free (q_mrb s)); [|discriminate]. injection E as <- <-. cbn [q_go q_thr]. rewrite fupd_same. apply ON; auto; try discriminate; cbn; congruence.
      + injection E as E. unfold q_op in E.
        assert (S : forall p' res, has_result p' = Some res -> ~ queue_timed_out res -> moves t (QStep t) (QAt c0 POp) (QAt c0 p') [Eff t c0 res]).
        { intros p' res Hr No. apply ON; try discriminate; try (intros ->; discriminate).
          - intros r Hr'. rewrite Hr in Hr'. injection Hr' as <-. now right.
          - rewrite Hr. discriminate.
          - right. eauto. }
        destruct c0 as [v ms|st ms| |].
        * destruct (ring_push V (rbBufSize maxSize) (q_ring s) v); injection E as <- <-; cbn [q_go set_ub q_thr]; [rewrite fupd_same|rewrite Q; now constructor].
          apply S; [reflexivity|now apply send_no].
        * destruct (ring_pop V (rbBufSize maxSize) (q_ring s)) as [[v r]|]; injection E as <- <-; cbn [q_go set_ub q_thr]; [rewrite fupd_same|rewrite Q; now constructor].
          apply S; [reflexivity|now apply recv_no].
        * injection E as <- <-. cbn [q_go q_thr]. rewrite fupd_same. apply S; [reflexivity|apply num_no].
        * injection E as <- <-. cbn [q_go q_thr]. rewrite fupd_same. apply S; [reflexivity|apply num_no].
      + injection E as <- <-. cbn [q_go q_thr]. rewrite fupd_same. apply ON; auto; try discriminate; cbn; congruence.
      + injection E as <- <-. cbn [q_go q_thr]. rewrite fupd_same. apply ON; auto; try discriminate; destruct c0; cbn; try congruence; auto.
      + injection E as <- <-. cbn [q_go q_thr]. rewrite fupd_same. apply ON; auto; try discriminate; cbn; congruence.
      + injection E as <- <-. cbn [q_go q_thr]. rewrite fupd_same. now constructor.
    - destruct p0 as [| | | |b| | | |r|r|r|r]; try discriminate.
      + destruct (free (outer s c0) || (tmout c0 =? -1)) eqn:G; [discriminate|]. apply orb_false_elim in G. destruct G as (_ & G). apply Z.eqb_neq in G.
        injection E as <- <-. cbn [q_go q_thr]. rewrite fupd_same. apply mv_out; auto.
      + destruct (wait_bit s c0 || (tmout c0 =? -1)) eqn:G; [discriminate|]. apply orb_false_elim in G. destruct G as (_ & G). apply Z.eqb_neq in G.
        injection E as <- <-. cbn [q_go q_thr]. rewrite fupd_same. apply mv_out; auto.
    - destruct p0 as [| | | |b| | | |r|r|r|r]; try discriminate. injection E as <- <-. cbn [q_go q_thr]. rewrite fupd_same.
      constructor; auto; try discriminate; [|right; eauto]. cbn. intros r Hr. injection Hr as <-. right. destruct c0; try (now apply send_no); now apply recv_no.
    - destruct c0 as [v ms|[|] ms| |]; try discriminate; destruct p0 as [| | | |b| | | |r|r|r|r]; try discriminate;
        injection E as <- <-; cbn [q_go q_thr]; rewrite fupd_same;
        (constructor; try discriminate; [right; right; eauto| |right; eauto]); cbn; intros r Hr; injection Hr as <-; right;
        destruct fl; try apply fail_no; [now apply send_no|now apply recv_no].
  Qed.

  Lemma mq_other s l s' e u : stp s l = Some (s', e) -> u <> mq_who l -> q_thr s' u = q_thr s u.
  Proof. intros E N. apply (step_other V maxSize s l s' e u E). intros X. apply N. rewrite <- X. now destruct l. Qed.
  Lemma mq_since_other (x : tst (qst V)) l u : u <> mq_who l -> (if mq_starts (t_st x) l then fupd (t_since x) (mq_who l) (t_now x) else t_since x) u = t_since x u.
  Proof. intros N. destruct (mq_starts (t_st x) l); [now rewrite fupd_other|reflexivity]. Qed.
  Lemma mq_shape s l s' e : stp s l = Some (s', e) -> one_event (mq_who l) e.
  Proof.
    intros E. apply mq_moves in E. inversion E; subst; try solve [constructor].
    match goal with h : _ \/ _ |- one_event _ e => destruct h as [-> |(r & ->)] end; constructor.
  Qed.

  (** ** not early *)
  Definition qpassed (c : qcall V) (t0 now : Z) : Prop := exists m, queue_limit c = Some m /\ t0 + wait_ms m <= now.
  Definition qE (x : tst (qst V)) (t : nat) (t0 : Z) (c : qcall V) : Prop :=
    t0 <= t_now x /\
    match q_thr (t_st x) t with
    | QIdle => False
    | QAt d p => d = c /\ (p = PLockOuter \/ p = PWait -> t0 <= t_since x t) /\ forall r, has_result p = Some r -> queue_timed_out r -> qpassed c t0 (t_now x)
    end.
  Lemma limit_tmout (c : qcall V) : tmout c <> -1 -> queue_limit c = Some (tmout c).
  Proof. intros N. destruct c; cbn in *; unfold of_ms; try (now elim N); destruct (Z.eqb_spec ms (-1)); [contradiction|reflexivity|contradiction|reflexivity]. Qed.
  Theorem mq_not_early may_tick ls x es : exec (mq_timed V maxSize n may_tick) (t_init (q_init V)) ls = Some (x, es) ->
    not_early queue_limit queue_timed_out es.
  Proof.
    intros E.
    destruct (timed_calls (qst V) (qlab V) (qcall V) (qres V) stp mq_who n mq_starts mq_expiry may_tick (fun _ => True) (fun _ => True) qE
      (fun t t0 c t1 r => queue_timed_out r -> qpassed c t0 t1)) with (x0 := @t_init (qst V) (q_init V)) (ls := ls) (x := x) (es := es) as (_ & H).
    - exact mq_shape.
    - intros y l y' t c _ _ S. apply t_act_inv in S. destruct S as (_ & _ & s' & e & S & EQ & ->).
      destruct e as [|e [|? ?]]; try discriminate. injection EQ as <-. unfold qE. cbn [t_st t_now t_since]. split; [lia|].
      pose proof (mq_moves _ _ _ _ S) as MV. inversion MV as [c' A B D F|c' r A B D F|c' A B D F|c' p p' e' A K1 K2 K3 K4 K5 K6 B D F|c' p p' r A K1 K2 K3 B D F|c' A B D F]; try discriminate.
      + subst t c'. rewrite <- D. split; [reflexivity|]. destruct l; try discriminate. cbn [mq_who mq_starts]. rewrite fupd_same. split; [lia|].
        intros r Hr. destruct c; discriminate.
      + destruct K6 as [K6|(? & K6)]; discriminate.
    - intros y l y' es' t t0 c _ _ (T0 & Pt) S HR. apply t_act_inv in S. destruct S as (_ & X & s' & e & S & -> & ->).
      unfold qE. cbn [t_st t_now t_since]. split; [exact T0|].
      assert (HR' : forall y, In y e -> about t y = false) by (intros z Z; apply (HR (t_now y, z)); apply in_map_iff; eauto). clear HR.
      destruct (Nat.eq_dec t (mq_who l)) as [->|N].
      2:{ rewrite (mq_since_other y l t N), (mq_other _ _ _ _ _ S N). exact Pt. }
      pose proof (mq_moves _ _ _ _ S) as MV. set (t := mq_who l) in *.
      inversion MV as [c' A B D F|c' r A B D F|c' A B D F|c' p p' e' A K1 K2 K3 K4 K5 K6 B D F|c' p p' r A K1 K2 K3 B D F|c' A B D F]; rewrite <- B in Pt; try contradiction.
      + subst e. specialize (HR' _ (or_introl eq_refl)). cbn in HR'. rewrite Nat.eqb_refl in HR'. discriminate.
      + destruct Pt as (-> & P1 & P2). split; [reflexivity|]. split; [|discriminate]. intros _. rewrite A. unfold mq_starts. cbv iota. rewrite <- B. rewrite fupd_same. exact T0.
      + destruct Pt as (-> & P1 & P2). split; [reflexivity|]. split; [intros [? | ?]; contradiction|]. intros r Hr TO. destruct (K4 r Hr) as [Y|Y]; [exact (P2 r Y TO)|contradiction].
      + destruct Pt as (-> & P1 & P2). split; [reflexivity|]. split; [intros [-> | ->]; discriminate|]. intros r' _ _.
        exists (tmout c). split; [now apply limit_tmout|]. specialize (P1 K1).
        assert (Y : mq_expiry (t_st y) l = Some (tmout c)) by (rewrite A; unfold mq_expiry; now rewrite <- B). specialize (X _ Y). fold t in X. unfold wait_ms. lia.
      + destruct Pt as (-> & P1 & P2). split; [reflexivity|]. split; [intros [Y|Y]; discriminate|discriminate].
    - intros y y' es' t t0 c _ (T0 & Pt) S. apply t_tick_inv in S. destruct S as (_ & _ & ->). unfold qE. cbn [t_st t_now t_since]. split; [lia|].
      destruct (q_thr (t_st y) t) as [|d p]; [exact Pt|]. destruct Pt as (A & B & D). split; [exact A|]. split; [exact B|].
      intros r Hr TO. destruct (D r Hr TO) as (m & D1 & D2). exists m. split; [exact D1|lia].
    - intros y l y' t t0 c r _ _ (T0 & Pt) S. apply t_act_inv in S. destruct S as (_ & X & s' & e & S & EQ & ->).
      destruct e as [|e [|? ?]]; try discriminate. injection EQ as <-.
      pose proof (mq_moves _ _ _ _ S) as MV. inversion MV as [c' A B D F|c' r' A B D F|c' A B D F|c' p p' e' A K1 K2 K3 K4 K5 K6 B D F|c' p p' r' A K1 K2 K3 B D F|c' A B D F]; try discriminate.
      + subst t r'. rewrite <- B in Pt. destruct Pt as (_ & _ & P2). exact (P2 r eq_refl).
      + destruct K6 as [K6|(? & K6)]; discriminate.
    - auto.
    - intros a b y e _ _. exact I.
    - exact E.
    - exact H.
  Qed.

  (** ** not late *)
  Hypothesis Hm : 0 <= maxSize < 2 ^ 64 - 1.
  Notation ustep := (mq_timed V maxSize n (mq_urgent V maxSize n)).
  Notation x0 := (t_init (q_init V)).
  Definition good (x : tst (qst V)) : Prop := (exists es, qinv V maxSize (t_st x) es) /\ forall t, (n <= t)%nat -> q_idle (t_st x) t.
  Lemma mq_good ls x es : exec ustep x0 ls = Some (x, es) -> good x.
  Proof.
    intros E. split.
    - exists (map snd es). apply (queue_inv V maxSize Hm (acts (qlab V) ls)). exact (timed_exec _ _ _ _ _ _ _ _ _ _ _ _ _ _ E).
    - revert E. apply (exec_inv_st _ _ _ ustep (fun x => forall t, (n <= t)%nat -> q_idle (t_st x) t)); [|intros t _; reflexivity].
      intros y l y' es' H S t Lt. unfold mq_timed in S. destruct l as [l|].
      + apply t_act_inv in S. destruct S as (W & _ & s' & e & S & _ & ->). unfold q_idle. cbn [t_st]. rewrite (mq_other _ _ _ _ t S) by lia. exact (H t Lt).
      + apply t_tick_inv in S. destruct S as (_ & _ & ->). exact (H t Lt).
  Qed.
  Lemma mq_tick_shape x : good x -> mq_urgent V maxSize n x = true ->
    forall t, q_idle (t_st x) t \/ exists c p, q_thr (t_st x) t = QAt c p /\ (p = PWait \/ p = PLockOuter /\ outer (t_st x) c <> None) /\
      (tmout c <> -1 -> t_now x < t_since x t + tmout c).
  Proof.
    intros ((es & I) & ID) U. unfold mq_urgent, urgent in U. pose proof (forallb_seq _ _ U) as U'. cbn beta in U'. clear U.
    assert (ST : forall t, stp (t_st x) (QStep t) = None).
    { intros t. destruct (le_lt_dec n t) as [G|G]; [cbn; now rewrite (ID t G)|]. specialize (U' t G). destruct (stp (t_st x) (QStep t)); [discriminate|reflexivity]. }
    set (s := t_st x) in *.
    assert (RB : q_mrb s = None).
    { destruct (q_mrb s) as [u|] eqn:X; [|reflexivity]. apply (qi_rb _ _ _ _ I) in X. specialize (ST u). cbn in ST.
      destruct (q_thr s u) as [|c p]; [discriminate|]. destruct p; discriminate. }
    intros t. destruct (le_lt_dec n t) as [G|G]; [left; now apply ID|]. specialize (U' t G). rewrite ST in U'. cbn [andb q_step] in U'.
    specialize (ST t). cbn [q_step] in ST. unfold q_idle. destruct (q_thr s t) as [|c p] eqn:Q; [now left|right]. exists c, p. split; [reflexivity|].
    unfold due, mq_expiry in U'. fold s in U'. rewrite Q in U'. cbn [mq_who] in U'.
    destruct p as [| | | |b| | | |r|r|r|r]; try discriminate; try (rewrite RB in ST; discriminate).
    - split; [right; split; [reflexivity|destruct (outer s c); discriminate]|]. intros N. destruct (free (outer s c)); [discriminate|]. cbn in U'.
      destruct (Z.eqb_spec (tmout c) (-1)); [contradiction|]. apply negb_true_iff in U'. apply Z.leb_gt in U'. exact U'.
    - split; [now left|]. intros N. destruct (wait_bit s c); [discriminate|]. cbn in U'.
      destruct (Z.eqb_spec (tmout c) (-1)); [contradiction|]. apply negb_true_iff in U'. apply Z.leb_gt in U'. exact U'.
  Qed.

  (** [rel]: the calls considered; [k - 1] waits for the outer mutex *)
  Variable k : Z.
  Variable rel : nat -> qcall V -> Prop.
  Variable J : tst (qst V) -> Prop.
  Hypothesis k12 : k = 1 \/ k = 2.
  Hypothesis J_good : forall x, J x -> good x.
  Hypothesis J_outer : forall x t c, J x -> rel t c -> q_thr (t_st x) t = QAt c PLockOuter -> outer (t_st x) c <> None -> k = 2.
  Definition qL (x : tst (qst V)) (t : nat) (t0 : Z) (c : qcall V) : Prop :=
    rel t c -> t0 <= t_now x /\
    match q_thr (t_st x) t with
    | QIdle => False
    | QAt d p => d = c /\ forall m, queue_limit c = Some m ->
        match p with
        | PLockOuter => t_since x t = t0 /\ t_now x <= t0 + (k - 1) * wait_ms m
        | PWait => t_since x t <= t0 + (k - 1) * wait_ms m /\ t_now x <= t_since x t + wait_ms m
        | PLockChk | PChk | PResetEv | PUnlockChk _ => t_now x <= t0 + (k - 1) * wait_ms m
        | _ => t_now x <= t0 + k * wait_ms m
        end
    end.
  Lemma wait_nonneg m : 0 <= wait_ms m. Proof. unfold wait_ms. lia. Qed.
  Lemma q_bound x t t0 c m : qL x t t0 c -> rel t c -> queue_limit c = Some m -> t0 <= t_now x <= t0 + k * wait_ms m.
  Proof.
    intros P R Lm. destruct (P R) as (T0 & Pt). split; [exact T0|]. destruct (q_thr (t_st x) t) as [|d p]; [contradiction|]. destruct Pt as (_ & B). specialize (B m Lm).
    pose proof (wait_nonneg m). destruct p; nia.
  Qed.
  Lemma mq_late ls x es : exec ustep x0 ls = Some (x, es) -> (forall ls1 ls2 x1 e1, ls = ls1 ++ ls2 -> exec ustep x0 ls1 = Some (x1, e1) -> J x1) ->
    (forall t t0 c m t1 r, rel t c -> took es t t0 c t1 r -> queue_limit c = Some m -> t0 <= t1 <= t0 + k * wait_ms m) /\
    (forall t t0 c m, rel t c -> pending es t t0 c -> queue_limit c = Some m -> t0 <= t_now x <= t0 + k * wait_ms m).
  Proof.
    intros E HJ.
    destruct (timed_calls (qst V) (qlab V) (qcall V) (qres V) stp mq_who n mq_starts mq_expiry (mq_urgent V maxSize n) (fun _ => True) J qL
      (fun t t0 c t1 r => forall m, rel t c -> queue_limit c = Some m -> t0 <= t1 <= t0 + k * wait_ms m)) with (x0 := @t_init (qst V) (q_init V)) (ls := ls) (x := x) (es := es) as (HP & H).
    - exact mq_shape.
    - intros y l y' t c _ _ S R. apply t_act_inv in S. destruct S as (_ & _ & s' & e & S & EQ & ->).
      destruct e as [|e [|? ?]]; try discriminate. injection EQ as <-. cbn [t_st t_now t_since]. split; [lia|].
      pose proof (mq_moves _ _ _ _ S) as MV. inversion MV as [c' A B D F|c' r A B D F|c' A B D F|c' p p' e' A K1 K2 K3 K4 K5 K6 B D F|c' p p' r A K1 K2 K3 B D F|c' A B D F]; try discriminate.
      + subst t c'. rewrite <- D. split; [reflexivity|]. destruct l; try discriminate. cbn [mq_who mq_starts]. intros m _. pose proof (wait_nonneg m).
        destruct c; try rewrite fupd_same; nia.
      + destruct K6 as [K6|(? & K6)]; discriminate.
    - intros y l y' es' t t0 c _ _ P S HR R. pose proof (fun m => q_bound y t t0 c m P R) as QB. destruct (P R) as (T0 & Pt). apply t_act_inv in S. destruct S as (_ & X & s' & e & S & -> & ->).
      cbn [t_st t_now t_since]. split; [exact T0|].
      assert (HR' : forall y, In y e -> about t y = false) by (intros z Z; apply (HR (t_now y, z)); apply in_map_iff; eauto). clear HR.
      destruct (Nat.eq_dec t (mq_who l)) as [->|N].
      2:{ rewrite (mq_since_other y l t N), (mq_other _ _ _ _ _ S N). exact Pt. }
      pose proof (mq_moves _ _ _ _ S) as MV. set (t := mq_who l) in *.
      inversion MV as [c' A B D F|c' r A B D F|c' A B D F|c' p p' e' A K1 K2 K3 K4 K5 K6 B D F|c' p p' r A K1 K2 K3 B D F|c' A B D F]; rewrite <- B in Pt; try contradiction.
      + subst e. specialize (HR' _ (or_introl eq_refl)). cbn in HR'. rewrite Nat.eqb_refl in HR'. discriminate.
      + destruct Pt as (-> & P1). split; [reflexivity|]. intros m Lm. specialize (P1 m Lm). rewrite A. unfold mq_starts. cbv iota. rewrite <- B. rewrite fupd_same.
        pose proof (wait_nonneg m). lia.
      + destruct Pt as (-> & P1). split; [reflexivity|]. intros m Lm. specialize (P1 m Lm). specialize (QB m Lm). pose proof (wait_nonneg m).
        destruct p'; try contradiction; try lia;
        (destruct K5 as (Z1 & Z2 & Z3 & Z4); [reflexivity|discriminate|discriminate|]; destruct p; try discriminate; try contradiction; lia).
      + destruct Pt as (-> & P1). split; [reflexivity|]. intros m Lm. specialize (QB m Lm). destruct p'; try discriminate; lia.
      + destruct Pt as (-> & P1). split; [reflexivity|]. exact P1.
    - intros y y' es' t t0 c Jy P S R. destruct (P R) as (T0 & Pt). apply t_tick_inv in S. destruct S as (U & _ & ->). cbn [t_st t_now t_since]. split; [lia|].
      destruct (mq_tick_shape y (J_good _ Jy) U t) as [Y|(d & p & Y & W & B)]; [unfold q_idle in Y|]; rewrite Y in *; [contradiction|].
      destruct Pt as (-> & P1). split; [reflexivity|]. intros m Lm. specialize (P1 m Lm).
      assert (NE : tmout c <> -1 /\ m = tmout c \/ (exists q, c = q /\ (c = QGetSize \/ c = QGetMaxSize))).
      { destruct c; cbn in Lm |- *; try (right; eauto; fail); unfold of_ms in Lm; (destruct (Z.eqb_spec ms (-1)); [discriminate|]); injection Lm as <-; now left. }
      destruct NE as [(NE & ->)|(q & _ & NE)].
      + specialize (B NE). pose proof (wait_nonneg (tmout c)) as WN. assert (WM : tmout c <= wait_ms (tmout c)) by (unfold wait_ms; lia).
        destruct W as [-> |(-> & O)]; [lia|]. pose proof (J_outer y t c Jy R Y O) as ->. lia.
      + exfalso. destruct (J_good _ Jy) as ((es1 & I) & _). destruct (qi_q _ _ _ _ I) as (q0 & _ & PC & _). specialize (PC t). rewrite Y in PC.
        destruct W as [-> |(-> & _)]; destruct NE as [-> | ->]; cbn in PC; exact PC.
    - intros y l y' t t0 c r _ _ P _ m R Lm. exact (q_bound y t t0 c m P R Lm).
    - auto.
    - exact HJ.
    - exact E.
    - split; [intros t t0 c m t1 r R T Lm; exact (H _ _ _ _ _ T m R Lm)|].
      intros t t0 c m R T Lm. exact (q_bound x t t0 c m (HP _ _ _ T) R Lm).
  Qed.
End MQ.

Section Final.
  Variables (V : Type) (maxSize : Z) (n : nat).
  Hypothesis Hm : 0 <= maxSize < 2 ^ 64 - 1.
  Notation ustep := (mq_timed V maxSize n (mq_urgent V maxSize n)).
  Notation x0 := (t_init (q_init V)).

  Theorem mq_not_late ls x es : exec ustep x0 ls = Some (x, es) -> not_late queue_limit 2 (t_now x) es.
  Proof.
    intros E. destruct (mq_late V maxSize n Hm 2 (fun _ _ => True) (good V maxSize n) (or_intror eq_refl) (fun x h => h) (fun _ _ _ _ _ _ _ => eq_refl) ls x es E) as (A & B).
    - intros ls1 ls2 x1 e1 _ E1. exact (mq_good V maxSize n Hm ls1 x1 e1 E1).
    - split; [intros t t0 c m t1 r; now apply A|intros t t0 c m; now apply B].
  Qed.
  (** the only thread that sends (receives) does not wait for m_mtxSend (m_mtxRecv) *)
  Lemma mq_alone_gen (b : bool) ls x es a : exec ustep x0 ls = Some (x, es) ->
    (forall u d, In (TAct (QCall u d)) ls -> sr V d -> is_send d = b -> u = a) ->
    (forall t0 c m t1 r, sr V c -> is_send c = b -> took es a t0 c t1 r -> queue_limit c = Some m -> t0 <= t1 <= t0 + wait_ms m) /\
    (forall t0 c m, sr V c -> is_send c = b -> pending es a t0 c -> queue_limit c = Some m -> t0 <= t_now x <= t0 + wait_ms m).
  Proof.
    intros E HL.
    set (alone := fun x : tst (qst V) => forall u d p, q_thr (t_st x) u = QAt d p -> sr V d -> is_send d = b -> u = a).
    assert (AL : forall ls1 ls2 x1 e1, ls = ls1 ++ ls2 -> exec ustep x0 ls1 = Some (x1, e1) -> alone x1).
    { intros ls1. induction ls1 as [|l ls1 IH] using rev_ind; intros ls2 x1 e1 EQ E1.
      - cbn in E1. injection E1 as <- _. intros u d p X. discriminate.
      - rewrite exec_app in E1. destruct (exec ustep x0 ls1) as [[x2 e2]|] eqn:E2; [|discriminate]. cbn [exec] in E1.
        destruct (ustep x2 l) as [[x3 e3]|] eqn:S; [|discriminate]. injection E1 as <- _.
        rewrite <- app_assoc in EQ. specialize (IH _ _ _ EQ eq_refl). unfold mq_timed in S. destruct l as [l|].
        + apply t_act_inv in S. destruct S as (_ & _ & s' & e & S & _ & ->). intros u d p X SR IS. cbn [t_st] in X.
          destruct (Nat.eq_dec u (mq_who l)) as [->|N]; [|rewrite (mq_other V maxSize _ _ _ _ u S N) in X; exact (IH u d p X SR IS)].
          pose proof (mq_moves V maxSize _ _ _ _ S) as MV. rewrite X in MV. 
          inversion MV as [c' A B D F|c' r A B D F|c' A B D F|c' q q' e' A K1 K2 K3 K4 K5 K6 B D F|c' q q' r A K1 K2 K3 B D F|c' A B D F];
            try (subst; eapply IH; [symmetry; eassumption|exact SR|reflexivity]).
          subst c'. apply (HL (mq_who l) d); [|exact SR|exact IS]. rewrite EQ. apply in_or_app. right. left. now rewrite <- A.
        + apply t_tick_inv in S. destruct S as (_ & _ & ->). exact IH. }
    destruct (mq_late V maxSize n Hm 1 (fun u c => u = a /\ sr V c /\ is_send c = b) (fun x => good V maxSize n x /\ alone x) (or_introl eq_refl) (fun x h => proj1 h)) with (ls := ls) (x := x) (es := es) as (A & B).
    - intros y t c (((es1 & I) & _) & AO) (-> & SR & IS) Q O. exfalso.
      destruct c as [v m|st m| |]; try contradiction; cbn [outer is_send] in O.
      + destruct (q_msend (t_st y)) as [u|] eqn:X; [|congruence]. apply (qi_send _ _ _ _ I) in X. destruct (q_thr (t_st y) u) as [|d p] eqn:Qu; [discriminate|].
        destruct d as [v' m'|st' m'| |]; try discriminate. assert (u = a) by (apply (AO u _ p Qu); [exact Logic.I|exact IS]). subst u. rewrite Q in Qu. injection Qu as <- <- <-. discriminate.
      + destruct (q_mrecv (t_st y)) as [u|] eqn:X; [|congruence]. apply (qi_recv _ _ _ _ I) in X. destruct (q_thr (t_st y) u) as [|d p] eqn:Qu; [discriminate|].
        destruct d as [v' m'|st' m'| |]; try discriminate. assert (u = a) by (apply (AO u _ p Qu); [exact Logic.I|exact IS]). subst u. rewrite Q in Qu. injection Qu as <- <- <-. discriminate.
    - exact E.
    - intros ls1 ls2 x1 e1 EQ E1. split; [exact (mq_good V maxSize n Hm ls1 x1 e1 E1)|exact (AL ls1 ls2 x1 e1 EQ E1)].
    - split; [intros t0 c m t1 r SR IS T Lm; specialize (A a t0 c m t1 r (conj eq_refl (conj SR IS)) T Lm); lia|intros t0 c m SR IS T Lm; specialize (B a t0 c m (conj eq_refl (conj SR IS)) T Lm); lia].
  Qed.
  Theorem mq_alone_send ls x es a : exec ustep x0 ls = Some (x, es) ->
    (forall u v ms, In (TAct (QCall u (QSend v ms))) ls -> u = a) ->
    forall t0 v ms, ms <> -1 ->
      (forall t1 r, took es a t0 (QSend v ms) t1 r -> t0 <= t1 <= t0 + wait_ms ms) /\ (pending es a t0 (QSend v ms) -> t0 <= t_now x <= t0 + wait_ms ms).
  Proof.
    intros E HL t0 v ms N. destruct (mq_alone_gen true ls x es a E) as (A & B).
    { intros u d I SR IS. destruct d; try discriminate. exact (HL u v0 ms0 I). }
    assert (Lm : @queue_limit V (QSend v ms) = Some ms) by (cbn; unfold of_ms; destruct (Z.eqb_spec ms (-1)); [contradiction|reflexivity]).
    split; [intros t1 r T; exact (A t0 (QSend v ms) ms t1 r I eq_refl T Lm)|intros T; exact (B t0 (QSend v ms) ms I eq_refl T Lm)].
  Qed.
  Theorem mq_alone_recv ls x es a : exec ustep x0 ls = Some (x, es) ->
    (forall u st ms, In (TAct (QCall u (QRecv st ms))) ls -> u = a) ->
    forall t0 st ms, ms <> -1 ->
      (forall t1 r, took es a t0 (QRecv st ms) t1 r -> t0 <= t1 <= t0 + wait_ms ms) /\ (pending es a t0 (QRecv st ms) -> t0 <= t_now x <= t0 + wait_ms ms).
  Proof.
    intros E HL t0 st ms N. destruct (mq_alone_gen false ls x es a E) as (A & B).
    { intros u d I SR IS. destruct d; try discriminate; try contradiction. exact (HL u store ms0 I). }
    assert (Lm : @queue_limit V (QRecv st ms) = Some ms) by (cbn; unfold of_ms; destruct (Z.eqb_spec ms (-1)); [contradiction|reflexivity]).
    split; [intros t1 r T; exact (A t0 (QRecv st ms) ms t1 r I eq_refl T Lm)|intros T; exact (B t0 (QRecv st ms) ms I eq_refl T Lm)].
  Qed.

  (** the clock never stops *)
  Theorem mq_time_goes_on ls0 x es0 : exec ustep x0 ls0 = Some (x, es0) ->
    exists ls x1 es1, (length ls <= 12 * n)%nat /\ exec ustep x ls = Some (x1, es1) /\ t_now x1 = t_now x /\
      ustep x1 TTick = Some (mkT (t_st x1) (t_now x + 1) (t_since x1), []).
  Proof.
    intros E. destruct (mq_good V maxSize n Hm ls0 x es0 E) as (_ & ID).
    apply (clock_advances (qst V) (qlab V) (qcall V) (qres V) (q_step V maxSize) mq_who n mq_starts mq_expiry QStep QTimeout (fun _ => eq_refl) (fun _ => eq_refl) (fun _ _ => eq_refl) (12 * n) x).
    intros ls s' es O X. apply (queue_calls_end V maxSize Hm n (acts (qlab V) ls0) (t_st x) (map snd es0) ls s' es); [exact (timed_exec _ _ _ _ _ _ _ _ _ _ _ _ _ _ E)|exact ID| |exact X].
    intros l Hl. destruct (O l Hl) as (t & [-> | ->]); exact I.
  Qed.
End Final.

(** ** the limit of a call is not kept: a queue for one message, full; thread 1 sends at time 0 with limit 10 and waits for room;
    thread 2 sends at time 5 with limit 10: it waits for m_mtxSend until 10, and then for room until 20 *)
Definition acts_of (t m : nat) : list (tlab (qlab nat)) := repeat (TAct (QStep t)) m.
Definition ticks (m : nat) : list (tlab (qlab nat)) := repeat TTick m.
Definition late_schedule : list (tlab (qlab nat)) :=
  [TAct (QCall 0 (QSend 7%nat 0))] ++ acts_of 0 10 ++ [TAct (QCall 1 (QSend 8%nat 10))] ++ acts_of 1 5 ++ ticks 5 ++
  [TAct (QCall 2 (QSend 9%nat 10))] ++ ticks 5 ++ [TAct (QTimeout 1)] ++ acts_of 1 2 ++ acts_of 2 5 ++ ticks 10 ++ [TAct (QTimeout 2)] ++ acts_of 2 2.
Lemma late_run : exists x es, exec (mq_timed nat 1 3 (mq_urgent nat 1 3)) (t_init (q_init nat)) late_schedule = Some (x, es) /\
  filter (fun y => visible (snd y)) es =
    [(0, Call 0%nat (QSend 7%nat 0)); (0, Ret 0%nat (RSend OK)); (0, Call 1%nat (QSend 8%nat 10)); (5, Call 2%nat (QSend 9%nat 10));
     (10, Ret 1%nat (RSend TimedOut)); (20, Ret 2%nat (RSend TimedOut))] /\ took es 2 5 (QSend 9%nat 10) 20 (RSend TimedOut).
Proof.
  destruct (exec (mq_timed nat 1 3 (mq_urgent nat 1 3)) (t_init (q_init nat)) late_schedule) as [[x es]|] eqn:E; [|vm_compute in E; discriminate].
  exists x, es. split; [reflexivity|].
  assert (F : match exec (mq_timed nat 1 3 (mq_urgent nat 1 3)) (t_init (q_init nat)) late_schedule with Some (_, es) =>
    es = [(0, Call 0%nat (QSend 7%nat 0)); (0, Eff 0%nat (QSend 7%nat 0) (RSend OK)); (0, Ret 0%nat (RSend OK)); (0, Call 1%nat (QSend 8%nat 10)); (5, Call 2%nat (QSend 9%nat 10));
     (10, Eff 1%nat (QSend 8%nat 10) (RSend TimedOut)); (10, Ret 1%nat (RSend TimedOut)); (20, Eff 2%nat (QSend 9%nat 10) (RSend TimedOut)); (20, Ret 2%nat (RSend TimedOut))] | None => False end)
    by (vm_compute; reflexivity).
  rewrite E in F. subst es. split; [reflexivity|].
  exists [(0, Call 0%nat (QSend 7%nat 0)); (0, Eff 0%nat (QSend 7%nat 0) (RSend OK)); (0, Ret 0%nat (RSend OK)); (0, Call 1%nat (QSend 8%nat 10))],
    [(10, Eff 1%nat (QSend 8%nat 10) (RSend TimedOut)); (10, Ret 1%nat (RSend TimedOut)); (20, Eff 2%nat (QSend 9%nat 10) (RSend TimedOut))], [].
  split; [reflexivity|]. intros y [<-|[<-|[<-|[]]]]; reflexivity.
Qed.
