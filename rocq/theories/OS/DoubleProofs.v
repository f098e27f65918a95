(** Proofs about the library over test doubles. *)
From Coq Require Import List ZArith Bool Lia Arith.
Import ListNotations.
From Verif Require Import Spec.OSError Spec.MessageQueueSpec Spec.DoubleSpec OS.MessageQueueModel OS.MessageQueueProofs OS.DoubleModel.
Open Scope Z_scope.

(** * thread and timers *)
Lemma tt_calls_eq t cs : tt_calls t cs = mkTT (tt_runnable t) (last_priority (tt_priority t) cs) (tt_initial t) (tt_stack t) (tt_stack_address t) (last_name (tt_name t) cs).
Proof. revert t. induction cs as [|c cs IH]; intros t; [now destruct t|]. cbn [tt_calls]. rewrite IH. now destruct c. Qed.
Theorem thread_double r pri stack address name cs c : snd (tt_call (tt_calls (tt_create r pri stack address name tt_blank) cs) c) = tspec pri stack name cs c.
Proof. rewrite tt_calls_eq. now destruct c. Qed.
Theorem thread_blank cs c : snd (tt_call (tt_calls tt_blank cs) c) = tspec 0 0 0 cs c.
Proof. rewrite tt_calls_eq. now destruct c. Qed.
Lemma ti_calls_eq t cs : ti_calls t cs = mkTI (ti_runnable t) (ti_period t) (last_iname (ti_name t) cs).
Proof. revert t. induction cs as [|c cs IH]; intros t; [now destruct t|]. cbn [ti_calls]. rewrite IH. now destruct c. Qed.
Theorem timer_double r period name cs c : snd (ti_call (ti_calls (ti_create r period name ti_blank) cs) c) = ispec period name cs c.
Proof. rewrite ti_calls_eq. now destruct c. Qed.

Theorem timer_blank cs c : snd (ti_call (ti_calls ti_blank cs) c) = ispec 0 0 cs c.
Proof. rewrite ti_calls_eq. now destruct c. Qed.
Lemma nested_app l1 l2 : forall h, nested h (l1 ++ l2) = match nested h l1 with Some h' => nested h' l2 | None => None end.
Proof.
  induction l1 as [|[c e] l1 IH]; intros h; [reflexivity|]. cbn [app nested]. destruct c; try apply IH; destruct e; try apply IH.
  all: destruct h as [|o' h]; [reflexivity|]; destruct (dmutex_eqb o o'); [apply IH|reflexivity].
Qed.
Lemma dmutex_eqb_refl o : dmutex_eqb o o = true.
Proof. now destruct o. Qed.
Lemma err_eqb_spec a b : Bool.reflect (a = b) (err_eqb a b).
Proof. destruct a, b; constructor; congruence. Qed.

Section Q.
  Variable V : Type.
  Variable maxSize : Z.
  Hypothesis HM : 0 <= maxSize < 2 ^ 64 - 1.
  Variable answers : dlog -> dcall -> err.
  Notation B := (rbBufSize maxSize).
  Notation N := (Z.to_nat maxSize).
  Notation call := (dq_call V maxSize answers).
  Notation run := (dq_run V maxSize answers).
  Notation rep := (ring_rep V B).
  Let HB : 1 <= B < 2 ^ 64.
  Proof. exact (B_ok maxSize HM). Qed.
  Let BE : B = maxSize + 1.
  Proof. exact (B_eq maxSize HM). Qed.

  Definition holds (s : dq V) (h : list dmutex) : Prop := nested [] (dq_log s) = Some h.
  Lemma holds_ask s c h : holds s h -> (forall o, c <> DUnlock o) ->
    holds (fst (ask V answers s c)) (match c, answers (dq_log s) c with DTimedLock o _, OK | DLock o, OK => o :: h | _, _ => h end).
  Proof.
    intros H NU. unfold holds, ask in *. cbn [fst dq_log]. rewrite nested_app, H. cbn [nested].
    destruct c; try reflexivity; try (now destruct (answers _ _)). now elim (NU o).
  Qed.
  Lemma holds_unlock s o h : holds s (o :: h) -> holds (tell V answers s (DUnlock o)) h.
  Proof. intros H. unfold holds, tell, ask in *. cbn [fst dq_log]. rewrite nested_app, H. cbn [nested]. now rewrite dmutex_eqb_refl. Qed.
  Lemma holds_tell s c h : holds s h -> (forall o, c <> DUnlock o) -> (forall o, c <> DLock o) -> (forall o ms, c <> DTimedLock o ms) -> holds (tell V answers s c) h.
  Proof. intros H A C D. pose proof (holds_ask s c h H A) as X. unfold tell. destruct c; try exact X; [now elim (D o ms)|now elim (C o)]. Qed.
  (** a critical section of m_mtxRB *)
  Lemma holds_guard s h : holds s h -> holds (fst (guard V answers s)) (if err_eqb (snd (guard V answers s)) OK then MRing :: h else h).
  Proof.
    intros H. pose proof (holds_ask s (DLock MRing) h H) as X. unfold guard. unfold ask in *. cbn [fst snd] in *. specialize (X ltac:(discriminate)).
    destruct (answers _ _); exact X.
  Qed.
  Lemma holds_unguard s e h : holds s (if err_eqb e OK then MRing :: h else h) -> holds (unguard V answers s e) h.
  Proof. intros H. unfold unguard. destruct (err_eqb e OK); [now apply holds_unlock|exact H]. Qed.
  Lemma ring_ask s c : dq_ring (fst (ask V answers s c)) = dq_ring s.
  Proof. reflexivity. Qed.
  Lemma ring_tell s c : dq_ring (tell V answers s c) = dq_ring s.
  Proof. reflexivity. Qed.
  Lemma ring_unguard s e : dq_ring (unguard V answers s e) = dq_ring s.
  Proof. unfold unguard. now destruct (err_eqb e OK). Qed.

  Lemma is_full_ok s h : holds s h ->
    holds (fst (is_full V maxSize answers s)) h /\ dq_ring (fst (is_full V maxSize answers s)) = dq_ring s /\ snd (is_full V maxSize answers s) = ring_full V B (dq_ring s).
  Proof.
    intros H. pose proof (holds_guard s h H) as G. unfold is_full. change (dq_ring s) with (dq_ring (fst (guard V answers s))).
    destruct (guard V answers s) as [s1 e]. cbn [fst snd] in *.
    set (b := ring_full V B (dq_ring s1)). split; [|split]; [|rewrite ring_unguard; now destruct b|reflexivity].
    apply holds_unguard. destruct b; [apply holds_tell; [exact G|discriminate..]|exact G].
  Qed.
  Lemma is_empty_ok s h : holds s h ->
    holds (fst (is_empty V answers s)) h /\ dq_ring (fst (is_empty V answers s)) = dq_ring s /\ snd (is_empty V answers s) = ring_empty V (dq_ring s).
  Proof.
    intros H. pose proof (holds_guard s h H) as G. unfold is_empty. change (dq_ring s) with (dq_ring (fst (guard V answers s))).
    destruct (guard V answers s) as [s1 e]. cbn [fst snd] in *.
    set (b := ring_empty V (dq_ring s1)). split; [|split]; [|rewrite ring_unguard; now destruct b|reflexivity].
    apply holds_unguard. destruct b; [apply holds_tell; [exact G|discriminate..]|exact G].
  Qed.
  Lemma push_eq s v h : holds s h ->
    match ring_push V B (dq_ring s) v with
    | Some r => exists s', push V maxSize answers s v = Some s' /\ dq_ring s' = r /\ holds s' h
    | None => push V maxSize answers s v = None
    end.
  Proof.
    intros H. pose proof (holds_guard s h H) as G. unfold push. change (dq_ring s) with (dq_ring (fst (guard V answers s))).
    destruct (guard V answers s) as [s1 e]. cbn [fst snd] in *. destruct (ring_push V B (dq_ring s1) v) as [r|]; [|reflexivity].
    eexists. split; [reflexivity|]. split; [now rewrite ring_unguard|]. apply holds_unguard, holds_tell; [exact G|discriminate..].
  Qed.
  Lemma pop_eq s h : holds s h ->
    match ring_pop V B (dq_ring s) with
    | Some (v, r) => exists s', pop V maxSize answers s = Some (s', v) /\ dq_ring s' = r /\ holds s' h
    | None => pop V maxSize answers s = None
    end.
  Proof.
    intros H. pose proof (holds_guard s h H) as G. unfold pop. change (dq_ring s) with (dq_ring (fst (guard V answers s))).
    destruct (guard V answers s) as [s1 e]. cbn [fst snd] in *. destruct (ring_pop V B (dq_ring s1)) as [[v r]|]; [|reflexivity].
    eexists. split; [reflexivity|]. split; [now rewrite ring_unguard|]. apply holds_unguard, holds_tell; [exact G|discriminate..].
  Qed.

  (** a send, from a state in which no lock is held: [w] is what the wait answered, if the queue was full *)
  Lemma send_cases s v ms : holds s [] ->
    (exists l e, e = answers l (DTimedLock MSend ms) /\ e <> OK /\ exists s', timed_send V maxSize answers s v ms = Some (s', RSend e) /\ dq_ring s' = dq_ring s /\ holds s' []) \/
    (ring_full V B (dq_ring s) = true /\ exists l e, e = answers l (DWait EV_NOT_FULL ms) /\ e <> OK /\
       exists s', timed_send V maxSize answers s v ms = Some (s', RSend e) /\ dq_ring s' = dq_ring s /\ holds s' []) \/
    ((exists l, answers l (DTimedLock MSend ms) = OK) /\ (ring_full V B (dq_ring s) = true -> exists l, answers l (DWait EV_NOT_FULL ms) = OK) /\
     match ring_push V B (dq_ring s) v with
     | Some r => exists s', timed_send V maxSize answers s v ms = Some (s', RSend OK) /\ dq_ring s' = r /\ holds s' []
     | None => timed_send V maxSize answers s v ms = None
     end).
  Proof.
    intros H. unfold timed_send. pose proof (holds_ask s (DTimedLock MSend ms) [] H ltac:(discriminate)) as H1. unfold ask in *. cbn [fst] in H1.
    set (l1 := dq_log s) in *. destruct (err_eqb_spec (answers l1 (DTimedLock MSend ms)) OK) as [E1|N1]; cbn [negb].
    2:{ left. exists l1, (answers l1 (DTimedLock MSend ms)). split; [reflexivity|]. split; [exact N1|]. eexists. split; [reflexivity|]. split; [reflexivity|].
        destruct (answers _ _); try exact H1. now elim N1. }
    rewrite E1 in H1. right. rewrite E1. set (s1 := mkDQ _ _) in *. destruct (is_full_ok s1 _ H1) as (H2 & R2 & F2).
    destruct (is_full V maxSize answers s1) as [s2 full]. cbn [fst snd] in *. change (dq_ring s1) with (dq_ring s) in *.
    assert (PUSH : forall s3, holds s3 [MSend] -> dq_ring s3 = dq_ring s ->
      match ring_push V B (dq_ring s) v with
      | Some r => exists s', match push V maxSize answers s3 v with Some s => Some (tell V answers s (DUnlock MSend), @RSend V OK) | None => None end = Some (s', RSend OK) /\ dq_ring s' = r /\ holds s' []
      | None => match push V maxSize answers s3 v with Some s => Some (tell V answers s (DUnlock MSend), @RSend V OK) | None => None end = None
      end).
    { intros s3 H3 R3. pose proof (push_eq s3 v _ H3) as P. rewrite R3 in P. destruct (ring_push V B (dq_ring s) v) as [r|].
      - destruct P as (s' & -> & R' & H'). eexists. split; [reflexivity|]. split; [exact R'|]. now apply holds_unlock.
      - now rewrite P. }
    destruct full.
    - pose proof (holds_ask s2 (DWait EV_NOT_FULL ms) _ H2 ltac:(discriminate)) as H3. unfold ask in H3. cbn [fst] in H3.
      set (l2 := dq_log s2) in *. destruct (err_eqb_spec (answers l2 (DWait EV_NOT_FULL ms)) OK) as [E2|N2]; cbn [negb].
      + right. split; [now exists l1|]. split; [intros _; now exists l2|]. apply PUSH; [|exact R2]. now destruct (answers l2 _).
      + left. split; [now symmetry|]. exists l2, (answers l2 (DWait EV_NOT_FULL ms)). split; [reflexivity|]. split; [exact N2|]. eexists. split; [reflexivity|].
        split; [exact R2|]. apply holds_unlock. now destruct (answers l2 _).
    - right. split; [now exists l1|]. split; [congruence|]. cbn [err_eqb negb]. now apply PUSH.
  Qed.
  Lemma receive_cases s store ms : holds s [] ->
    (exists l e, e = answers l (DTimedLock MRecv ms) /\ e <> OK /\ exists s', timed_receive V maxSize answers s store ms = Some (s', RRecv e None) /\ dq_ring s' = dq_ring s /\ holds s' []) \/
    (ring_empty V (dq_ring s) = true /\ exists l e, e = answers l (DWait EV_NOT_EMPTY ms) /\ e <> OK /\
       exists s', timed_receive V maxSize answers s store ms = Some (s', RRecv e None) /\ dq_ring s' = dq_ring s /\ holds s' []) \/
    ((exists l, answers l (DTimedLock MRecv ms) = OK) /\ (ring_empty V (dq_ring s) = true -> exists l, answers l (DWait EV_NOT_EMPTY ms) = OK) /\
     match ring_pop V B (dq_ring s) with
     | Some (v, r) => exists s', timed_receive V maxSize answers s store ms = Some (s', RRecv OK (if store then Some v else None)) /\ dq_ring s' = r /\ holds s' []
     | None => timed_receive V maxSize answers s store ms = None
     end).
  Proof.
    intros H. unfold timed_receive. pose proof (holds_ask s (DTimedLock MRecv ms) [] H ltac:(discriminate)) as H1. unfold ask in *. cbn [fst] in H1.
    set (l1 := dq_log s) in *. destruct (err_eqb_spec (answers l1 (DTimedLock MRecv ms)) OK) as [E1|N1]; cbn [negb].
    2:{ left. exists l1, (answers l1 (DTimedLock MRecv ms)). split; [reflexivity|]. split; [exact N1|]. eexists. split; [reflexivity|]. split; [reflexivity|].
        destruct (answers _ _); try exact H1. now elim N1. }
    rewrite E1 in H1. right. rewrite E1. set (s1 := mkDQ _ _) in *. destruct (is_empty_ok s1 _ H1) as (H2 & R2 & F2).
    destruct (is_empty V answers s1) as [s2 empty]. cbn [fst snd] in *. change (dq_ring s1) with (dq_ring s) in *.
    assert (POP : forall s3, holds s3 [MRecv] -> dq_ring s3 = dq_ring s ->
      match ring_pop V B (dq_ring s) with
      | Some (v, r) => exists s', match pop V maxSize answers s3 with Some (s, v) => Some (tell V answers s (DUnlock MRecv), RRecv OK (if store then Some v else None)) | None => None end = Some (s', RRecv OK (if store then Some v else None)) /\ dq_ring s' = r /\ holds s' []
      | None => match pop V maxSize answers s3 with Some (s, v) => Some (tell V answers s (DUnlock MRecv), RRecv OK (if store then Some v else None)) | None => None end = None
      end).
    { intros s3 H3 R3. pose proof (pop_eq s3 _ H3) as P. rewrite R3 in P. destruct (ring_pop V B (dq_ring s)) as [[v r]|].
      - destruct P as (s' & -> & R' & H'). eexists. split; [reflexivity|]. split; [exact R'|]. now apply holds_unlock.
      - now rewrite P. }
    destruct empty.
    - pose proof (holds_ask s2 (DWait EV_NOT_EMPTY ms) _ H2 ltac:(discriminate)) as H3. unfold ask in H3. cbn [fst] in H3.
      set (l2 := dq_log s2) in *. destruct (err_eqb_spec (answers l2 (DWait EV_NOT_EMPTY ms)) OK) as [E2|N2]; cbn [negb].
      + right. split; [now exists l1|]. split; [intros _; now exists l2|]. apply POP; [|exact R2]. now destruct (answers l2 _).
      + left. split; [now symmetry|]. exists l2, (answers l2 (DWait EV_NOT_EMPTY ms)). split; [reflexivity|]. split; [exact N2|]. eexists. split; [reflexivity|].
        split; [exact R2|]. apply holds_unlock. now destruct (answers l2 _).
    - right. split; [now exists l1|]. split; [congruence|]. cbn [err_eqb negb]. now apply POP.
  Qed.
  Lemma get_cases s c : holds s [] -> (c = QGetSize \/ c = QGetMaxSize) ->
    exists s', call s c = Some (s', RNum (match c with QGetSize => ring_size V B (dq_ring s) | _ => ring_max B end)) /\ dq_ring s' = dq_ring s /\ holds s' [].
  Proof.
    intros H [-> | ->]; cbn [dq_call]; pose proof (holds_guard s [] H) as G; unfold get_size, get_max_size; change (dq_ring s) with (dq_ring (fst (guard V answers s)));
      destruct (guard V answers s) as [s1 e]; cbn [fst snd] in *; eexists; (split; [rewrite ?ring_unguard; reflexivity|]); (split; [now rewrite ring_unguard|]); now apply holds_unguard.
  Qed.

  (** every lock taken is released, whatever the doubles answer *)
  Lemma call_holds s c s' r : holds s [] -> call s c = Some (s', r) -> holds s' [].
  Proof.
    intros H E. destruct c as [v ms|store ms| |].
    - cbn [dq_call] in E. destruct (send_cases s v ms H) as [(? & ? & _ & _ & s1 & E1 & _ & H1)|[(_ & ? & ? & _ & _ & s1 & E1 & _ & H1)|(_ & _ & X)]]; [congruence..|].
      destruct (ring_push _ _ _ _); [|congruence]. destruct X as (s1 & E1 & _ & H1). congruence.
    - cbn [dq_call] in E. destruct (receive_cases s store ms H) as [(? & ? & _ & _ & s1 & E1 & _ & H1)|[(_ & ? & ? & _ & _ & s1 & E1 & _ & H1)|(_ & _ & X)]]; [congruence..|].
      destruct (ring_pop _ _ _) as [[? ?]|]; [|congruence]. destruct X as (s1 & E1 & _ & H1). congruence.
    - destruct (get_cases s QGetSize H (or_introl eq_refl)) as (s1 & E1 & _ & H1). congruence.
    - destruct (get_cases s QGetMaxSize H (or_intror eq_refl)) as (s1 & E1 & _ & H1). congruence.
  Qed.
  Theorem locks_released cs s rs : run dq_init cs = Some (s, rs) -> nested [] (dq_log s) = Some [].
  Proof.
    assert (X : forall s0, holds s0 [] -> forall s rs, run s0 cs = Some (s, rs) -> holds s []).
    { induction cs as [|c cs IH]; intros s0 H0 s' rs' E; cbn in E; [congruence|]. destruct (call s0 c) as [[s1 r]|] eqn:C; [|discriminate].
      destruct (run s1 cs) as [[s2 rs2]|] eqn:R; [|discriminate]. injection E as <- _. eapply IH; [|exact R]. eapply call_holds; eassumption. }
    intros E. now apply (X dq_init eq_refl _ _ E).
  Qed.

  (** * first in, first out *)
  Lemma N_len (q : list V) : (length q < N)%nat <-> Z.of_nat (length q) < B - 1.
  Proof. rewrite BE. lia. Qed.
  Lemma run_fifo cs : (forall l p ms, answers l (DWait p ms) <> OK) -> forall s q, holds s [] -> rep (dq_ring s) q ->
    exists s' rs q', run s cs = Some (s', rs) /\ dq_runs V N q cs rs q' /\ rep (dq_ring s') q'.
  Proof.
    intros W. induction cs as [|c cs IH]; intros s q H R; [exists s, [], q; repeat split; try constructor; apply R|].
    assert (K : exists s1 r q1, call s c = Some (s1, r) /\ dq_spec V N q c r q1 /\ rep (dq_ring s1) q1 /\ holds s1 []).
    { destruct c as [v ms|store ms| |].
      - cbn [dq_call]. destruct (send_cases s v ms H) as [(? & e & _ & NE & s1 & E1 & R1 & H1)|[(_ & ? & e & _ & NE & s1 & E1 & R1 & H1)|(_ & F & X)]].
        + exists s1, (RSend e), q. split; [exact E1|]. split; [right; now exists e|]. split; [now rewrite R1|exact H1].
        + exists s1, (RSend e), q. split; [exact E1|]. split; [right; now exists e|]. split; [now rewrite R1|exact H1].
        + assert (L : Z.of_nat (length q) < B - 1).
          { pose proof (rr_len _ _ _ _ R) as Hl. destruct (Z.eq_dec (Z.of_nat (length q)) (B - 1)) as [E|]; [|lia].
            destruct (F (proj2 (ring_full_ok _ _ HB _ _ R) E)) as (l & Y). now elim (W l EV_NOT_FULL ms). }
          destruct (ring_push_ok _ _ HB _ _ v R L) as (r & E & R'). rewrite E in X. destruct X as (s1 & E1 & R1 & H1). subst r.
          exists s1, (RSend OK), (q ++ [v]). split; [exact E1|]. split; [left; split; [reflexivity|split; [now apply N_len|reflexivity]]|]. now split.
      - cbn [dq_call]. destruct (receive_cases s store ms H) as [(? & e & _ & NE & s1 & E1 & R1 & H1)|[(_ & ? & e & _ & NE & s1 & E1 & R1 & H1)|(_ & F & X)]].
        + exists s1, (RRecv e None), q. split; [exact E1|]. split; [right; now exists e|]. split; [now rewrite R1|exact H1].
        + exists s1, (RRecv e None), q. split; [exact E1|]. split; [right; now exists e|]. split; [now rewrite R1|exact H1].
        + destruct q as [|v q].
          { destruct (F (proj2 (ring_empty_ok _ _ HB _ _ R) eq_refl)) as (l & Y). now elim (W l EV_NOT_EMPTY ms). }
          destruct (ring_pop_ok _ _ HB _ _ _ R) as (r & E & R'). rewrite E in X. destruct X as (s1 & E1 & R1 & H1). subst r.
          exists s1, (RRecv OK (if store then Some v else None)), q. split; [exact E1|]. split; [left; now exists v|]. now split.
      - destruct (get_cases s QGetSize H (or_introl eq_refl)) as (s1 & E1 & R1 & H1). exists s1, (RNum (ring_size V B (dq_ring s))), q.
        split; [exact E1|]. split; [split; [now rewrite (ring_size_ok _ _ HB _ _ R)|reflexivity]|]. rewrite R1. now split.
      - destruct (get_cases s QGetMaxSize H (or_intror eq_refl)) as (s1 & E1 & R1 & H1). exists s1, (RNum (ring_max B)), q.
        split; [exact E1|]. split; [split; [rewrite (ring_max_ok _ HB), BE; f_equal; lia|reflexivity]|]. rewrite R1. now split. }
    destruct K as (s1 & r & q1 & E1 & S1 & R1 & H1). destruct (IH s1 q1 H1 R1) as (s' & rs & q' & E' & S' & R').
    exists s', (r :: rs), q'. cbn [dq_run]. rewrite E1, E'. split; [reflexivity|]. split; [econstructor; eassumption|exact R'].
  Qed.
  Lemma rep_init : rep (dq_ring (@dq_init V)) [].
  Proof. exact (ring_rep_init V B HB). Qed.
  Theorem fifo cs : (forall l p ms, answers l (DWait p ms) <> OK) ->
    exists s rs q, run dq_init cs = Some (s, rs) /\ dq_runs V N [] cs rs q.
  Proof. intros W. destruct (run_fifo cs W dq_init [] eq_refl rep_init) as (s & rs & q & E & S & _). now exists s, rs, q. Qed.

  (** * programs that never meet a full or an empty queue *)
  Hypothesis LOCK : forall l o ms, answers l (DTimedLock o ms) = OK.
  Lemma fits_run cs : forall s q rs q', holds s [] -> rep (dq_ring s) q -> fits V N q cs = Some (rs, q') ->
    exists s', run s cs = Some (s', rs) /\ rep (dq_ring s') q' /\ holds s' [].
  Proof.
    induction cs as [|c cs IH]; intros s q rs q' H R F; cbn [fits] in F; [injection F as <- <-; exists s; exact (conj eq_refl (conj R H))|].
    assert (K : forall s1 r q1 rs1, call s c = Some (s1, r) -> rep (dq_ring s1) q1 -> holds s1 [] -> fits V N q1 cs = Some (rs1, q') -> rs = r :: rs1 ->
      exists s', run s (c :: cs) = Some (s', rs) /\ rep (dq_ring s') q' /\ holds s' []).
    { intros s1 r q1 rs1 E1 R1 H1 F1 ->. destruct (IH s1 q1 rs1 q' H1 R1 F1) as (s' & E' & R' & H'). exists s'. cbn [dq_run]. rewrite E1, E'. now split. }
    destruct c as [v ms|store ms| |].
    - destruct (Nat.ltb_spec (length q) N) as [L|]; [|discriminate]. destruct (fits V N (q ++ [v]) cs) as [[rs1 q1]|] eqn:F1; [|discriminate]. injection F as <- <-.
      destruct (send_cases s v ms H) as [(l & e & EE & NE & _)|[(FU & _)|(_ & _ & X)]]; [rewrite LOCK in EE; congruence| |].
      + apply (ring_full_ok _ _ HB _ _ R) in FU. apply N_len in L. lia.
      + apply N_len in L. destruct (ring_push_ok _ _ HB _ _ v R L) as (r & E & R'). rewrite E in X. destruct X as (s1 & E1 & R1 & H1). subst r.
        eapply K; [exact E1|exact R'|exact H1|exact F1|reflexivity].
    - destruct q as [|v q]; [discriminate|]. destruct (fits V N q cs) as [[rs1 q1]|] eqn:F1; [|discriminate]. injection F as <- <-.
      destruct (receive_cases s store ms H) as [(l & e & EE & NE & _)|[(FU & _)|(_ & _ & X)]]; [rewrite LOCK in EE; congruence| |].
      + apply (ring_empty_ok _ _ HB _ _ R) in FU. discriminate.
      + destruct (ring_pop_ok _ _ HB _ _ _ R) as (r & E & R'). rewrite E in X. destruct X as (s1 & E1 & R1 & H1). subst r.
        eapply K; [exact E1|exact R'|exact H1|exact F1|reflexivity].
    - destruct (fits V N q cs) as [[rs1 q1]|] eqn:F1; [|discriminate]. injection F as <- <-.
      destruct (get_cases s QGetSize H (or_introl eq_refl)) as (s1 & E1 & R1 & H1). eapply K; [exact E1|rewrite R1; exact R|exact H1|exact F1|].
      now rewrite (ring_size_ok _ _ HB _ _ R).
    - destruct (fits V N q cs) as [[rs1 q1]|] eqn:F1; [|discriminate]. injection F as <- <-.
      destruct (get_cases s QGetMaxSize H (or_intror eq_refl)) as (s1 & E1 & R1 & H1). eapply K; [exact E1|rewrite R1; exact R|exact H1|exact F1|].
      rewrite (ring_max_ok _ HB), BE. do 2 f_equal. lia.
  Qed.
  Theorem careful cs rs q : fits V N [] cs = Some (rs, q) -> exists s, run dq_init cs = Some (s, rs).
  Proof. intros F. destruct (fits_run cs dq_init [] rs q eq_refl rep_init F) as (s & E & _). now exists s. Qed.

  Lemma run_app cs1 cs2 : forall s s1 rs1, run s cs1 = Some (s1, rs1) ->
    run s (cs1 ++ cs2) = match run s1 cs2 with Some (s2, rs2) => Some (s2, rs1 ++ rs2) | None => None end.
  Proof.
    induction cs1 as [|c cs1 IH]; intros s s1 rs1 E; cbn in E |- *.
    - injection E as <- <-. destruct (run s cs2) as [[? ?]|]; reflexivity.
    - destruct (call s c) as [[s' r]|]; [|discriminate]. destruct (run s' cs1) as [[s2 rs2]|] eqn:R; [|discriminate]. injection E as <- <-.
      rewrite (IH _ _ _ R). destruct (run s2 cs2) as [[? ?]|]; reflexivity.
  Qed.
  Lemma push_full r q v : rep r q -> Z.of_nat (length q) = B - 1 -> exists r', ring_push V B r v = Some r' /\ r_begin r' = r_begin r /\ r_end r' = r_begin r.
  Proof.
    intros R L. pose proof (rr_b _ _ _ _ R) as Hb. pose proof (rr_e _ _ _ _ R) as He.
    assert (Ee : 0 <= r_end r < B) by (rewrite He; apply Z.mod_pos_bound; lia).
    assert (D : (r_end r - r_begin r) mod B = Z.of_nat (length q)).
    { rewrite He, Zminus_mod_idemp_l. replace (r_begin r + Z.of_nat (length q) - r_begin r) with (Z.of_nat (length q)) by lia. apply Z.mod_small. lia. }
    unfold ring_push. rewrite in_buf_ok by assumption. rewrite (rr_buf _ _ _ _ R) by assumption. rewrite D, Nat2Z.id.
    rewrite (proj2 (nth_error_None q (length q))) by lia. eexists. split; [reflexivity|]. cbn [r_begin r_end]. split; [reflexivity|].
    rewrite next_idx_mod by assumption. rewrite He, Zplus_mod_idemp_l. replace (r_begin r + Z.of_nat (length q) + 1) with (r_begin r + 1 * B) by lia.
    rewrite Z.mod_add by lia. apply Z.mod_small. lia.
  Qed.
  (** * and what happens otherwise, when the waits answer OK like those of the library's doubles *)
  Hypothesis WAIT : forall l p ms, answers l (DWait p ms) = OK.
  Theorem overflow cs rs q v ms : fits V N [] cs = Some (rs, q) -> length q = N ->
    exists s, run dq_init (cs ++ [QSend v ms; QGetSize]) = Some (s, rs ++ [RSend OK; RNum 0]).
  Proof.
    intros F L. destruct (fits_run cs dq_init [] rs q eq_refl rep_init F) as (s & E & R & H). rewrite (run_app _ _ _ _ _ E).
    destruct (push_full _ _ v R ltac:(rewrite BE; lia)) as (r & P & RB & RE).
    destruct (send_cases s v ms H) as [(l & e & EE & NE & _)|[(_ & l & e & EE & NE & _)|(_ & _ & X)]]; [rewrite LOCK in EE; congruence|rewrite WAIT in EE; congruence|].
    rewrite P in X. destruct X as (s1 & E1 & R1 & H1). change (timed_send V maxSize answers s v ms) with (call s (QSend v ms)) in E1.
    destruct (get_cases s1 QGetSize H1 (or_introl eq_refl)) as (s2 & E2 & R2 & H2). cbn [dq_run]. rewrite E1, E2. exists s2. do 6 f_equal.
    rewrite R1. unfold ring_size. rewrite RB, RE, Z.leb_refl, Z.sub_diag. reflexivity.
  Qed.
  Theorem underflow cs rs store ms : fits V N [] cs = Some (rs, []) -> run dq_init (cs ++ [QRecv store ms]) = None.
  Proof.
    intros F. destruct (fits_run cs dq_init [] rs [] eq_refl rep_init F) as (s & E & R & H). rewrite (run_app _ _ _ _ _ E).
    destruct (receive_cases s store ms H) as [(l & e & EE & NE & _)|[(_ & l & e & EE & NE & _)|(_ & _ & X)]]; [rewrite LOCK in EE; congruence|rewrite WAIT in EE; congruence|].
    assert (P : ring_pop V B (dq_ring s) = None).
    { unfold ring_pop. pose proof (rr_b _ _ _ _ R) as Hb. rewrite in_buf_ok by assumption. rewrite (rr_buf _ _ _ _ R) by assumption.
      assert (NN : forall n, nth_error (@nil V) n = None) by (now intros []). now rewrite NN. }
    rewrite P in X. cbn [dq_run dq_call]. now rewrite X.
  Qed.
End Q.

(** * the conversation with the doubles *)
Section Talk.
  Variable V : Type.
  Variable maxSize : Z.
  Hypothesis HM : 0 <= maxSize < 2 ^ 64 - 1.
  Variable answers : dlog -> dcall -> err.
  Notation B := (rbBufSize maxSize).
  Notation call := (dq_call V maxSize answers).
  Notation run := (dq_run V maxSize answers).
  Let HB : 1 <= B < 2 ^ 64.
  Proof. exact (B_ok maxSize HM). Qed.
  Let BE : B = maxSize + 1.
  Proof. exact (B_eq maxSize HM). Qed.
  Definition adds (s s' : dq V) (l : list dcall) : Prop := exists es, dq_log s' = dq_log s ++ es /\ map fst es = l.
  Lemma adds_nil s : adds s s [].
  Proof. exists []. now rewrite app_nil_r. Qed.
  Lemma adds_app s1 s2 s3 l1 l2 : adds s1 s2 l1 -> adds s2 s3 l2 -> adds s1 s3 (l1 ++ l2).
  Proof. intros (e1 & E1 & M1) (e2 & E2 & M2). exists (e1 ++ e2). split; [now rewrite E2, E1, app_assoc|]. now rewrite map_app, M1, M2. Qed.
  Lemma adds_ask s c : adds s (fst (ask V answers s c)) [c].
  Proof. exists [(c, answers (dq_log s) c)]. split; reflexivity. Qed.
  Lemma adds_tell s c : adds s (tell V answers s c) [c].
  Proof. apply adds_ask. Qed.
  Lemma adds_ring s r : adds s (mkDQ r (dq_log s)) [].
  Proof. exists []. cbn. now rewrite app_nil_r. Qed.
  (** a critical section of m_mtxRB *)
  Lemma section_ok s body f : (forall s, adds s (f s) body) -> exists l, adds s (unguard V answers (f (fst (guard V answers s))) (snd (guard V answers s))) l /\ ring_section body l.
  Proof.
    intros F. assert (G : adds s (fst (guard V answers s)) [DLock MRing]) by apply adds_ask. unfold unguard. destruct (err_eqb (snd (guard V answers s)) OK).
    - exists ([DLock MRing] ++ body ++ [DUnlock MRing]). split; [|now left]. eapply adds_app; [exact G|]. eapply adds_app; [apply F|apply adds_tell].
    - exists ([DLock MRing] ++ body). split; [|now right]. eapply adds_app; [exact G|apply F].
  Qed.
  Lemma is_full_talk s : exists l, adds s (fst (is_full V maxSize answers s)) l /\ ring_section (if ring_full V B (dq_ring s) then [DReset NotFull] else []) l.
  Proof.
    destruct (section_ok s (if ring_full V B (dq_ring s) then [DReset NotFull] else []) (fun x => if ring_full V B (dq_ring s) then tell V answers x (DReset EV_NOT_FULL) else x)) as (l & A & R).
    - intros x. destruct (ring_full V B (dq_ring s)); [apply adds_tell|apply adds_nil].
    - exists l. split; [exact A|exact R].
  Qed.
  Lemma is_empty_talk s : exists l, adds s (fst (is_empty V answers s)) l /\ ring_section (if ring_empty V (dq_ring s) then [DReset NotEmpty] else []) l.
  Proof.
    destruct (section_ok s (if ring_empty V (dq_ring s) then [DReset NotEmpty] else []) (fun x => if ring_empty V (dq_ring s) then tell V answers x (DReset EV_NOT_EMPTY) else x)) as (l & A & R).
    - intros x. destruct (ring_empty V (dq_ring s)); [apply adds_tell|apply adds_nil].
    - exists l. split; [exact A|exact R].
  Qed.
  Lemma push_talk s v s' : push V maxSize answers s v = Some s' -> exists l, adds s s' l /\ ring_section [DSet NotEmpty] l.
  Proof.
    unfold push. destruct (guard V answers s) as [s1 e] eqn:G. destruct (ring_push V B (dq_ring s1) v) as [r|] eqn:P; [|discriminate]. intros E. injection E as <-.
    destruct (section_ok s [DSet NotEmpty] (fun x => tell V answers (mkDQ r (dq_log x)) (DSet EV_NOT_EMPTY))) as (l & A & R).
    - intros x. change [DSet NotEmpty] with ([] ++ [DSet NotEmpty]). eapply adds_app; [apply (adds_ring x r)|apply adds_tell].
    - exists l. rewrite G in A. split; assumption.
  Qed.
  Lemma pop_talk s s' v : pop V maxSize answers s = Some (s', v) -> exists l, adds s s' l /\ ring_section [DSet NotFull] l.
  Proof.
    unfold pop. destruct (guard V answers s) as [s1 e] eqn:G. destruct (ring_pop V B (dq_ring s1)) as [[v1 r]|] eqn:P; [|discriminate]. intros E. injection E as <- _.
    destruct (section_ok s [DSet NotFull] (fun x => tell V answers (mkDQ r (dq_log x)) (DSet EV_NOT_FULL))) as (l & A & R).
    - intros x. change [DSet NotFull] with ([] ++ [DSet NotFull]). eapply adds_app; [apply (adds_ring x r)|apply adds_tell].
    - exists l. rewrite G in A. split; assumption.
  Qed.
  Definition in_range (r : ring V) : Prop := 0 <= r_begin r < B /\ 0 <= r_end r < B.
  Lemma talk_call s c s' r : in_range (dq_ring s) -> call s c = Some (s', r) -> exists l, adds s s' l /\ talk maxSize (ring_size V B (dq_ring s)) c r l.
  Proof.
    intros (RB & RE) E. destruct c as [v ms|store ms| |]; cbn [dq_call talk] in *.
    - unfold timed_send in E. pose proof (adds_ask s (DTimedLock MSend ms)) as A0. destruct (ask V answers s (DTimedLock MSend ms)) as [s1 e] eqn:AK. cbn [fst] in A0.
      assert (R1 : dq_ring s1 = dq_ring s) by (unfold ask in AK; now injection AK as <- _).
      destruct (err_eqb_spec e OK) as [-> |NE]; cbn [negb] in E; [|injection E as <- <-; exists [DTimedLock MSend ms]; split; [exact A0|]; left; exists e; auto].
      destruct (is_full_talk s1) as (l1 & A1 & S1). assert (FE : snd (is_full V maxSize answers s1) = ring_full V B (dq_ring s1)) by reflexivity.
      destruct (is_full V maxSize answers s1) as [s2 full] eqn:FU. cbn [fst snd] in *. rewrite R1 in *. subst full.
      assert (FN : ring_full V B (dq_ring s) = Z.eqb (ring_size V B (dq_ring s)) maxSize) by (unfold ring_full, ring_max; f_equal; unfold u64; rewrite Z.mod_small; lia).
      rewrite FN in *. set (n := ring_size V B (dq_ring s)) in *.
      assert (W : exists s3 wr, (if n =? maxSize then ask V answers s2 (DWait EV_NOT_FULL ms) else (s2, OK)) = (s3, wr) /\ adds s2 s3 (if n =? maxSize then [DWait NotFull ms] else []) /\ (wr <> OK -> n = maxSize)).
      { destruct (Z.eqb_spec n maxSize) as [EN|NN].
        - pose proof (adds_ask s2 (DWait EV_NOT_FULL ms)) as X. destruct (ask V answers s2 (DWait EV_NOT_FULL ms)) as [s3 wr]. exists s3, wr. auto.
        - exists s2, OK. split; [reflexivity|]. split; [apply adds_nil|tauto]. }
      destruct W as (s3 & wr & WE & A2 & WN). rewrite WE in E.
      destruct (err_eqb_spec wr OK) as [OKE|NE]; cbn [negb] in E.
      + destruct (push V maxSize answers s3 v) as [s4|] eqn:PU; [|discriminate]. injection E as <- <-. destruct (push_talk _ _ _ PU) as (l2 & A3 & S2).
        eexists. split; [eapply adds_app; [exact A0|eapply adds_app; [exact A1|eapply adds_app; [exact A2|eapply adds_app; [exact A3|apply adds_tell]]]]|].
        right. exists l1, l2. split; [reflexivity|]. split; [exact S1|]. left. auto.
      + injection E as <- <-.
        eexists. split; [eapply adds_app; [exact A0|eapply adds_app; [exact A1|eapply adds_app; [exact A2|apply adds_tell]]]|].
        right. exists l1, []. split; [reflexivity|]. split; [exact S1|]. right. exists wr. auto.
    - unfold timed_receive in E. pose proof (adds_ask s (DTimedLock MRecv ms)) as A0. destruct (ask V answers s (DTimedLock MRecv ms)) as [s1 e] eqn:AK. cbn [fst] in A0.
      assert (R1 : dq_ring s1 = dq_ring s) by (unfold ask in AK; now injection AK as <- _).
      destruct (err_eqb_spec e OK) as [-> |NE]; cbn [negb] in E; [|injection E as <- <-; exists [DTimedLock MRecv ms]; split; [exact A0|]; left; exists e; auto].
      destruct (is_empty_talk s1) as (l1 & A1 & S1). assert (FE : snd (is_empty V answers s1) = ring_empty V (dq_ring s1)) by reflexivity.
      destruct (is_empty V answers s1) as [s2 em] eqn:FU. cbn [fst snd] in *. rewrite R1 in *. subst em.
      assert (FN : ring_empty V (dq_ring s) = Z.eqb (ring_size V B (dq_ring s)) 0).
      { unfold ring_empty, ring_size. destruct (Z.leb_spec (r_begin (dq_ring s)) (r_end (dq_ring s))).
        - unfold u64. rewrite Z.mod_small by lia. destruct (Z.eqb_spec (r_begin (dq_ring s)) (r_end (dq_ring s))), (Z.eqb_spec (r_end (dq_ring s) - r_begin (dq_ring s)) 0); lia || reflexivity.
        - unfold u64. rewrite (Z.mod_small (B - r_begin (dq_ring s))) by lia. rewrite Z.mod_small by lia.
          destruct (Z.eqb_spec (r_begin (dq_ring s)) (r_end (dq_ring s))), (Z.eqb_spec (B - r_begin (dq_ring s) + r_end (dq_ring s)) 0); lia || reflexivity. }
      rewrite FN in *. set (n := ring_size V B (dq_ring s)) in *.
      assert (W : exists s3 wr, (if n =? 0 then ask V answers s2 (DWait EV_NOT_EMPTY ms) else (s2, OK)) = (s3, wr) /\ adds s2 s3 (if n =? 0 then [DWait NotEmpty ms] else []) /\ (wr <> OK -> n = 0)).
      { destruct (Z.eqb_spec n 0) as [EN|NN].
        - pose proof (adds_ask s2 (DWait EV_NOT_EMPTY ms)) as X. destruct (ask V answers s2 (DWait EV_NOT_EMPTY ms)) as [s3 wr]. exists s3, wr. auto.
        - exists s2, OK. split; [reflexivity|]. split; [apply adds_nil|tauto]. }
      destruct W as (s3 & wr & WE & A2 & WN). rewrite WE in E.
      destruct (err_eqb_spec wr OK) as [OKE|NE]; cbn [negb] in E.
      + destruct (pop V maxSize answers s3) as [[s4 v]|] eqn:PU; [|discriminate]. injection E as <- <-. destruct (pop_talk _ _ _ PU) as (l2 & A3 & S2).
        eexists. split; [eapply adds_app; [exact A0|eapply adds_app; [exact A1|eapply adds_app; [exact A2|eapply adds_app; [exact A3|apply adds_tell]]]]|].
        right. exists l1, l2. split; [reflexivity|]. split; [exact S1|]. left. eauto.
      + injection E as <- <-.
        eexists. split; [eapply adds_app; [exact A0|eapply adds_app; [exact A1|eapply adds_app; [exact A2|apply adds_tell]]]|].
        right. exists l1, []. split; [reflexivity|]. split; [exact S1|]. right. exists wr. auto.
    - unfold get_size in E. destruct (section_ok s [] (fun x => x)) as (l & A & R); [intros x; apply adds_nil|]. destruct (guard V answers s) as [s1 e]. injection E as <- _. exists l. auto.
    - unfold get_max_size in E. destruct (section_ok s [] (fun x => x)) as (l & A & R); [intros x; apply adds_nil|]. destruct (guard V answers s) as [s1 e]. injection E as <- _. exists l. auto.
  Qed.
  Lemma next_in i : 0 <= i < B -> 0 <= next_idx B i < B.
  Proof. intros H. unfold next_idx, u64. rewrite (Z.mod_small (i + 1)) by lia. destruct (Z.ltb_spec (i + 1) B); [lia|]. rewrite Z.mod_small; lia. Qed.
  Lemma in_range_call s c s' r : holds V s [] -> in_range (dq_ring s) -> call s c = Some (s', r) -> in_range (dq_ring s').
  Proof.
    intros H (RB & RE) E. destruct c as [v ms|store ms| |].
    - destruct (send_cases V maxSize answers s v ms H) as [(? & ? & _ & _ & s1 & E1 & R1 & _)|[(_ & ? & ? & _ & _ & s1 & E1 & R1 & _)|(_ & _ & X)]]; cbn [dq_call] in E.
      1,2: rewrite E1 in E; injection E as <- _; rewrite R1; split; assumption.
      destruct (ring_push V B (dq_ring s) v) as [rg|] eqn:P; [|congruence]. destruct X as (s1 & E1 & R1 & _). rewrite E1 in E. injection E as <- _. rewrite R1.
      unfold ring_push in P. destruct (in_buf B (r_end (dq_ring s))); [|discriminate]. destruct (r_buf (dq_ring s) (r_end (dq_ring s))); [discriminate|]. injection P as <-. split; cbn; [assumption|now apply next_in].
    - destruct (receive_cases V maxSize answers s store ms H) as [(? & ? & _ & _ & s1 & E1 & R1 & _)|[(_ & ? & ? & _ & _ & s1 & E1 & R1 & _)|(_ & _ & X)]]; cbn [dq_call] in E.
      1,2: rewrite E1 in E; injection E as <- _; rewrite R1; split; assumption.
      destruct (ring_pop V B (dq_ring s)) as [[v rg]|] eqn:P; [|congruence]. destruct X as (s1 & E1 & R1 & _). rewrite E1 in E. injection E as <- _. rewrite R1.
      unfold ring_pop in P. destruct (in_buf B (r_begin (dq_ring s))); [|discriminate]. destruct (r_buf (dq_ring s) (r_begin (dq_ring s))); [|discriminate]. injection P as _ <-. split; cbn; [now apply next_in|assumption].
    - destruct (get_cases V maxSize answers s QGetSize H (or_introl eq_refl)) as (s1 & E1 & R1 & _). rewrite E1 in E. injection E as <- _. rewrite R1. split; assumption.
    - destruct (get_cases V maxSize answers s QGetMaxSize H (or_intror eq_refl)) as (s1 & E1 & R1 & _). rewrite E1 in E. injection E as <- _. rewrite R1. split; assumption.
  Qed.
  Theorem conversation cs s rs c s' r n sn : run dq_init cs = Some (s, rs) -> call s QGetSize = Some (sn, RNum n) -> call s c = Some (s', r) ->
    exists l, dq_log s' = dq_log s ++ l /\ talk maxSize n c r (map fst l).
  Proof.
    intros E G C. assert (X : forall s0, holds V s0 [] -> in_range (dq_ring s0) -> forall s rs, run s0 cs = Some (s, rs) -> holds V s [] /\ in_range (dq_ring s)).
    { clear - HM HB BE. induction cs as [|d cs IH]; intros s0 H0 R0 s rs E; cbn in E; [injection E as <- _; auto|]. destruct (call s0 d) as [[s1 r1]|] eqn:C1; [|discriminate].
      destruct (run s1 cs) as [[s2 rs2]|] eqn:R; [|discriminate]. injection E as <- _. eapply IH; [| |exact R]; [eapply call_holds; eassumption|eapply in_range_call; eassumption]. }
    destruct (X dq_init eq_refl) with (s := s) (rs := rs) as (H & R); [split; cbn; lia|exact E|].
    destruct (get_cases V maxSize answers s QGetSize H (or_introl eq_refl)) as (s1 & E1 & _). rewrite E1 in G. injection G as _ <-.
    destruct (talk_call s c s' r R C) as (l & (es & L & M) & T). exists es. split; [exact L|]. now rewrite M.
  Qed.
End Talk.
