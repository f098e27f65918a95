(** Proofs about ThreadPool over test doubles. *)
From Coq Require Import List ZArith Bool Lia Arith Permutation.
Import ListNotations.
From Verif Require Import Spec.OSError Spec.MessageQueueSpec Spec.DoubleSpec OS.MessageQueueModel OS.MessageQueueProofs OS.DoubleModel OS.DoubleProofs OS.DoublePoolModel.
Open Scope Z_scope.

Lemma NoDup_app_remove_l {A} (l l' : list A) : NoDup (l ++ l') -> NoDup l'.
Proof. induction l as [|x l IH]; [auto|]. cbn [app]. intros H. inversion H; auto. Qed.
Lemma NoDup_app_remove_r {A} (l l' : list A) : NoDup (l ++ l') -> NoDup l.
Proof.
  induction l as [|x l IH]; [constructor|]. cbn [app]. intros H. inversion H as [|? ? N1 N2]; subst. constructor; [|auto].
  intros H1. apply N1. apply in_or_app. now left.
Qed.

Section P.
  Variable n : nat.
  Hypothesis HN : Z.of_nat n < 2 ^ 64 - 1.
  Variable dflt : Z.
  Variable answers : dlog -> dcall -> err.
  Variable sync : bool.
  Variables thread_wait event_wait : nat -> err.
  Hypothesis LOCK : forall l o ms, answers l (DTimedLock o ms) = OK.
  Notation size := (Z.of_nat n).
  Let HM : 0 <= size < 2 ^ 64 - 1.
  Proof. lia. Qed.
  Notation B := (rbBufSize size).
  Let HB : 1 <= B < 2 ^ 64.
  Proof. exact (B_ok size HM). Qed.
  Let BE : B = size + 1.
  Proof. exact (B_eq size HM). Qed.
  Notation send := (timed_send nat size answers).
  Notation receive := (timed_receive nat size answers).
  Notation run := (dp_run n dflt answers sync thread_wait event_wait).
  Notation call := (dp_call n dflt answers sync thread_wait event_wait).
  (** the queue holds [l] *)
  Definition qis (q : dq nat) (l : list nat) : Prop := ring_rep nat B (dq_ring q) l /\ holds nat q [].

  Lemma send_ok q l r ms : qis q l -> (length l < n)%nat -> exists q', send q r ms = Some (q', RSend OK) /\ qis q' (l ++ [r]).
  Proof.
    intros [R H] L. destruct (send_cases nat size answers q r ms H) as [(x & e & EE & NE & _)|[(FU & _)|(_ & _ & X)]]; [rewrite LOCK in EE; congruence| |].
    - apply (ring_full_ok _ _ HB _ _ R) in FU. lia.
    - destruct (ring_push_ok _ _ HB _ _ r R ltac:(lia)) as (rg & E & R'). rewrite E in X. destruct X as (s1 & E1 & R1 & H1). subst rg. exists s1. split; [exact E1|split; [exact R'|exact H1]].
  Qed.
  Lemma receive_ok q l r ms : qis q (r :: l) -> exists q', receive q true ms = Some (q', RRecv OK (Some r)) /\ qis q' l.
  Proof.
    intros [R H]. destruct (receive_cases nat size answers q true ms H) as [(x & e & EE & NE & _)|[(FU & _)|(_ & _ & X)]]; [rewrite LOCK in EE; congruence| |].
    - apply (ring_empty_ok _ _ HB _ _ R) in FU. discriminate.
    - destruct (ring_pop_ok _ _ HB _ _ _ R) as (rg & E & R'). rewrite E in X. destruct X as (s1 & E1 & R1 & H1). subst rg. exists s1. split; [exact E1|split; [exact R'|exact H1]].
  Qed.
  (** receive on an empty queue: an error of the wait, or undefined behaviour if the wait answers OK *)
  Lemma receive_empty q ms : qis q [] ->
    (exists l e q', e = answers l (DWait EV_NOT_EMPTY ms) /\ e <> OK /\ receive q true ms = Some (q', RRecv e None) /\ qis q' []) \/
    ((exists l, answers l (DWait EV_NOT_EMPTY ms) = OK) /\ receive q true ms = None).
  Proof.
    intros [R H]. destruct (receive_cases nat size answers q true ms H) as [(x & e & EE & NE & _)|[(_ & x & e & EE & NE & s1 & E1 & R1 & H1)|(_ & W & X)]]; [rewrite LOCK in EE; congruence| |].
    - left. exists x, e, s1. split; [exact EE|]. split; [exact NE|]. split; [exact E1|]. split; [now rewrite R1|exact H1].
    - right. split; [apply W; now apply (ring_empty_ok _ _ HB _ _ R)|].
      assert (P : ring_pop nat B (dq_ring q) = None).
      { unfold ring_pop. pose proof (rr_b _ _ _ _ R) as Hb. rewrite in_buf_ok by assumption. rewrite (rr_buf _ _ _ _ R) by assumption.
        assert (NN : forall k, nth_error (@nil nat) k = None) by (now intros []). now rewrite NN. }
      now rewrite P in X.
  Qed.
  Lemma fill_ok rs : forall q l, qis q l -> (length l + length rs <= n)%nat -> exists q', fill n answers q rs = Some q' /\ qis q' (l ++ rs).
  Proof.
    induction rs as [|r rs IH]; intros q l Q L; cbn [fill length] in *; [exists q; now rewrite app_nil_r|].
    destruct (send_ok q l r (-1) Q ltac:(lia)) as (q1 & -> & Q1). destruct (IH q1 _ Q1 ltac:(rewrite app_length; cbn; lia)) as (q' & E & Q'). exists q'. split; [exact E|].
    now rewrite <- app_assoc in Q'.
  Qed.
  Lemma create_ok : exists q, dp_create n dflt answers = Some (mkDP q (fun _ => dflt) [] []) /\ qis q (seq 0 n).
  Proof.
    unfold dp_create. assert (Q0 : qis dq_init []) by (split; [apply (ring_rep_init nat B HB)|reflexivity]).
    destruct (fill_ok (seq 0 n) dq_init [] Q0 ltac:(cbn; rewrite seq_length; lia)) as (q & -> & Q). exists q. now split.
  Qed.

  (** where the runners are: no runner is in two places *)
  Record dinv (s : dp) (l : list nat) : Prop := { i_q : qis (dp_q s) l; i_nd : NoDup (l ++ map snd (dp_guards s)); i_in : forall r, In r (l ++ map snd (dp_guards s)) -> (r < n)%nat }.
  Lemma bound_len (l : list nat) : NoDup l -> (forall r, In r l -> (r < n)%nat) -> (length l <= n)%nat.
  Proof. intros ND I. rewrite <- (seq_length n 0). apply NoDup_incl_length; [exact ND|]. intros r H. apply in_seq. specialize (I r H). lia. Qed.
  Lemma find_in gs g r : find_guard gs g = Some r -> exists a b, gs = a ++ (g, r) :: b.
  Proof.
    unfold find_guard. destruct (find _ gs) as [[g' r']|] eqn:F; [|discriminate]. intros [= <-]. apply find_some in F. destruct F as [F E]. cbn in E. apply Nat.eqb_eq in E. subst g'.
    apply in_split in F. exact F.
  Qed.
  Lemma drop_sub gs g : exists o, Permutation (map snd gs) (o ++ map snd (drop_guard gs g)) /\ (find_guard gs g = None -> o = []) /\ (forall r, find_guard gs g = Some r -> In r o).
  Proof.
    induction gs as [|[g' r'] gs (o & P & F & S)]; [exists []; repeat split; auto; discriminate|]. cbn [drop_guard filter map snd fst]. unfold find_guard in *. cbn [find fst]. fold (drop_guard gs g). destruct (Nat.eqb_spec g' g) as [->|NE]; cbn [negb map snd].
    - exists (r' :: o). split; [cbn; now constructor|]. split; [discriminate|]. intros r [= <-]. now left.
    - exists o. split; [|split; assumption]. rewrite P. apply Permutation_middle.
  Qed.
  Lemma nodup_perm (a b : list nat) : Permutation a b -> NoDup a -> NoDup b.
  Proof. apply Permutation_NoDup. Qed.

  Lemma release_ok s l r : dinv s l -> ~ In r l -> (r < n)%nat ->
    exists q, release n answers s r = Some (mkDP q (dp_prio s) (dp_guards s) (dp_ran s)) /\ qis q (l ++ [r]).
  Proof.
    intros I NI LT. unfold release. assert (L : (length l < n)%nat).
    { assert (X : (length (r :: l) <= n)%nat); [|cbn in X; lia]. apply bound_len.
      - constructor; [exact NI|]. pose proof (i_nd _ _ I) as ND. now apply NoDup_app_remove_r in ND.
      - intros x [<-|H]; [exact LT|]. apply (i_in _ _ I). apply in_or_app. now left. }
    destruct (send_ok _ _ r (-1) (i_q _ _ I) L) as (q & -> & Q). now exists q.
  Qed.
  (** one call *)
  Lemma start_cases s l task ms g pri : dinv s l ->
    (task = 0 /\ timed_start n dflt answers sync thread_wait s task ms g pri = Some (s, InvalidParameter)) \/
    (task <> 0 /\ l = [] /\
      ((exists x e q', e = answers x (DWait EV_NOT_EMPTY ms) /\ e <> OK /\ timed_start n dflt answers sync thread_wait s task ms g pri = Some (mkDP q' (dp_prio s) (dp_guards s) (dp_ran s), e) /\
         dinv (mkDP q' (dp_prio s) (dp_guards s) (dp_ran s)) []) \/
       ((exists x, answers x (DWait EV_NOT_EMPTY ms) = OK) /\ timed_start n dflt answers sync thread_wait s task ms g pri = None))) \/
    (task <> 0 /\ exists r l1, l = r :: l1 /\
      ((thread_wait r <> OK /\ exists s', timed_start n dflt answers sync thread_wait s task ms g pri = Some (s', thread_wait r) /\ dinv s' l1 /\ dp_guards s' = dp_guards s /\ dp_ran s' = dp_ran s) \/
       (thread_wait r = OK /\ exists s', timed_start n dflt answers sync thread_wait s task ms g pri = Some (s', OK) /\
          dinv s' (match g with None => if sync then l1 ++ [r] else l1 | Some _ => l1 end) /\
          dp_guards s' = match g with Some g => (g, r) :: drop_guard (dp_guards s) g | None => dp_guards s end /\
          dp_ran s' = if sync then dp_ran s ++ [(task, pri)] else dp_ran s))).
  Proof.
    intros I. unfold timed_start. destruct (Z.eqb_spec task 0) as [->|NT]; [now left|]. right. destruct l as [|r l1].
    - left. split; [exact NT|]. split; [reflexivity|]. destruct (receive_empty _ ms (i_q _ _ I)) as [(x & e & q' & EE & NE & E & Q')|((x & EX) & E)].
      + left. exists x, e, q'. split; [exact EE|]. split; [exact NE|]. rewrite E. split; [now destruct e|]. constructor; [exact Q'|apply I|apply I].
      + right. split; [now exists x|]. now rewrite E.
    - right. split; [exact NT|]. exists r, l1. split; [reflexivity|]. destruct (receive_ok _ _ _ ms (i_q _ _ I)) as (q' & E & Q'). rewrite E.
      pose proof (i_nd _ _ I) as ND. pose proof (i_in _ _ I) as IN. cbn [app] in ND, IN. inversion ND as [|? ? NI ND1]; subst.
      assert (LT : (r < n)%nat) by (apply IN; now left).
      assert (I1 : forall p gs rn, Permutation gs (dp_guards s) -> dinv (mkDP q' p gs rn) l1).
      { intros p gs rn PG. assert (PP : Permutation (l1 ++ map snd (dp_guards s)) (l1 ++ map snd gs)) by (apply Permutation_app_head, Permutation_map, Permutation_sym, PG).
        constructor; [exact Q'|exact (nodup_perm _ _ PP ND1)|]. intros x H. apply IN. right. cbn [dp_guards] in H. apply (Permutation_in _ (Permutation_sym PP) H). }
      destruct (err_eqb_spec (thread_wait r) OK) as [EW|NW]; cbn [negb].
      2:{ left. split; [exact NW|]. eexists. split; [reflexivity|]. split; [apply I1, Permutation_refl|]. now split. }
      right. split; [exact EW|]. cbn [dp_q dp_prio dp_guards dp_ran]. unfold start_thread. cbn [dp_q dp_prio dp_guards dp_ran].
      assert (PR : pupd (dp_prio s) r pri r = pri) by (unfold pupd; now rewrite Nat.eqb_refl).
      destruct g as [g|]; destruct sync.
      + eexists. split; [reflexivity|]. cbn [dp_guards dp_ran]. split; [|rewrite PR; now split].
        destruct (drop_sub (dp_guards s) g) as (o & P & _). constructor; [exact Q'| |]; cbn [dp_guards map snd].
        * apply (nodup_perm (r :: l1 ++ map snd (drop_guard (dp_guards s) g))); [apply Permutation_middle|].
          assert (Y : NoDup ((r :: l1) ++ o ++ map snd (drop_guard (dp_guards s) g))) by (eapply nodup_perm; [apply Permutation_app_head, P|exact ND]).
          apply (nodup_perm _ (o ++ (r :: l1) ++ map snd (drop_guard (dp_guards s) g))) in Y; [|rewrite !app_assoc; apply Permutation_app_tail, Permutation_app_comm].
          now apply NoDup_app_remove_l in Y.
        * intros x H. apply IN. apply in_app_or in H. destruct H as [H|[<-|H]]; [right; apply in_or_app; now left|now left|]. right. apply in_or_app. right.
          apply (Permutation_in _ (Permutation_sym P)). apply in_or_app. now right.
      + eexists. split; [reflexivity|]. cbn [dp_guards dp_ran]. split; [|now split].
        destruct (drop_sub (dp_guards s) g) as (o & P & _). constructor; [exact Q'| |]; cbn [dp_guards map snd].
        * apply (nodup_perm (r :: l1 ++ map snd (drop_guard (dp_guards s) g))); [apply Permutation_middle|].
          assert (Y : NoDup ((r :: l1) ++ o ++ map snd (drop_guard (dp_guards s) g))) by (eapply nodup_perm; [apply Permutation_app_head, P|exact ND]).
          apply (nodup_perm _ (o ++ (r :: l1) ++ map snd (drop_guard (dp_guards s) g))) in Y; [|rewrite !app_assoc; apply Permutation_app_tail, Permutation_app_comm].
          now apply NoDup_app_remove_l in Y.
        * intros x H. apply IN. apply in_app_or in H. destruct H as [H|[<-|H]]; [right; apply in_or_app; now left|now left|]. right. apply in_or_app. right.
          apply (Permutation_in _ (Permutation_sym P)). apply in_or_app. now right.
      + rewrite PR. set (s1 := mkDP q' _ _ _). assert (J : dinv s1 l1) by (apply I1, Permutation_refl).
        assert (NI1 : ~ In r l1) by (intros H; apply NI; apply in_or_app; now left).
        destruct (release_ok s1 l1 r J NI1 LT) as (q2 & -> & Q2). eexists. split; [reflexivity|]. cbn [dp_guards dp_ran]. split; [|now split].
        assert (PP : Permutation (r :: l1 ++ map snd (dp_guards s)) ((l1 ++ [r]) ++ map snd (dp_guards s))) by (rewrite <- app_assoc; cbn; apply Permutation_middle).
        constructor; [exact Q2|exact (nodup_perm _ _ PP ND)|]. intros x H. apply IN. apply (Permutation_in _ (Permutation_sym PP) H).
      + eexists. split; [reflexivity|]. cbn [dp_guards dp_ran]. split; [apply I1, Permutation_refl|now split].
  Qed.
  Lemma guard_release s l g r : dinv s l -> find_guard (dp_guards s) g = Some r ->
    exists s', call s (PGuardRelease g) = Some (s', OK) /\ dinv s' (l ++ [r]) /\ dp_guards s' = drop_guard (dp_guards s) g /\ dp_ran s' = dp_ran s.
  Proof.
    intros I F. cbn [dp_call]. rewrite F. destruct (drop_sub (dp_guards s) g) as (o & P & _ & S). specialize (S r F). apply in_split in S. destruct S as (o1 & o2 & ->).
    pose proof (i_nd _ _ I) as ND. pose proof (i_in _ _ I) as IN.
    assert (PP : Permutation (l ++ map snd (dp_guards s)) ((o1 ++ o2) ++ (l ++ [r]) ++ map snd (drop_guard (dp_guards s) g))).
    { rewrite P. rewrite <- !app_assoc. cbn [app]. rewrite (Permutation_app_comm l). rewrite <- !app_assoc. apply Permutation_app_head. cbn [app].
      rewrite <- app_assoc. rewrite (Permutation_app_comm (map snd _) l). rewrite Permutation_middle. apply Permutation_app_head, Permutation_middle. }
    assert (ND2 := nodup_perm _ _ PP ND). assert (ND3 := ND2). apply NoDup_app_remove_l in ND3.
    assert (NI : ~ In r l).
    { rewrite <- app_assoc in ND3. apply NoDup_remove_2 in ND3. intros H. apply ND3. apply in_or_app. now left. }
    assert (LT : (r < n)%nat).
    { apply IN. apply (Permutation_in _ (Permutation_sym PP)). apply in_or_app. right. apply in_or_app. left. apply in_or_app. right. now left. }
    destruct (release_ok s l r I NI LT) as (q & -> & Q). eexists. split; [reflexivity|]. cbn [dp_guards dp_ran]. split; [|now split].
    constructor; [exact Q|exact ND3|]. intros x H. apply IN. apply (Permutation_in _ (Permutation_sym PP)). apply in_or_app. now right.
  Qed.
  Lemma call_inv s l c s' e : dinv s l -> call s c = Some (s', e) -> exists l', dinv s' l'.
  Proof.
    intros I E. destruct c as [task ms g pri|g ms|g].
    - cbn [dp_call] in E. destruct (start_cases s l task ms g pri I) as [(_ & X)|[(_ & _ & [(? & ? & q' & _ & _ & X & J)|(_ & X)])|(_ & r & l1 & _ & [(_ & s1 & X & J & _)|(_ & s1 & X & J & _)])]].
      + rewrite X in E. injection E as <- _. now exists l.
      + rewrite X in E. injection E as <- _. now exists [].
      + congruence.
      + rewrite X in E. injection E as <- _. now exists l1.
      + rewrite X in E. injection E as <- _. eexists. exact J.
    - cbn in E. injection E as <- _. now exists l.
    - cbn [dp_call] in E. destruct (find_guard (dp_guards s) g) as [r|] eqn:F; [|injection E as <- _; now exists l].
      destruct (guard_release s l g r I F) as (s1 & X & J & _). cbn [dp_call] in X. rewrite F in X. rewrite X in E. injection E as <- _. eexists. exact J.
  Qed.
  Lemma run_inv cs : forall s l s' rs, dinv s l -> run s cs = Some (s', rs) -> exists l', dinv s' l'.
  Proof.
    induction cs as [|c cs IH]; intros s l s' rs I E; cbn [dp_run] in E; [injection E as <- _; now exists l|].
    destruct (call s c) as [[s1 e]|] eqn:C; [|discriminate]. destruct (run s1 cs) as [[s2 rs2]|] eqn:R; [|discriminate]. injection E as <- _.
    destruct (call_inv _ _ _ _ _ I C) as (l1 & I1). eapply IH; eassumption.
  Qed.
  Lemma create_inv s0 : dp_create n dflt answers = Some s0 -> dinv s0 (seq 0 n) /\ dp_guards s0 = [] /\ dp_ran s0 = [].
  Proof.
    intros E. destruct create_ok as (q & E' & Q). rewrite E in E'. injection E' as ->. split; [|now split].
    constructor; cbn [dp_q dp_guards map]; rewrite ?app_nil_r; [exact Q|apply seq_NoDup|]. intros r H. apply in_seq in H. lia.
  Qed.

  (** the tasks that have run *)
  Theorem ran_ok s0 cs s rs : dp_create n dflt answers = Some s0 -> run s0 cs = Some (s, rs) -> dp_ran s = if sync then started cs rs else [].
  Proof.
    intros C. destruct (create_inv _ C) as (I & _ & R0).
    assert (X : forall cs s0 l s rs, dinv s0 l -> run s0 cs = Some (s, rs) -> dp_ran s = if sync then dp_ran s0 ++ started cs rs else dp_ran s0).
    { clear s0 cs s rs C I R0. intros cs. induction cs as [|c cs IH]; intros s0 l s rs I E; cbn [dp_run] in E.
      - injection E as <- <-. cbn. destruct sync; now rewrite ?app_nil_r.
      - destruct (call s0 c) as [[s1 e]|] eqn:C; [|discriminate]. destruct (run s1 cs) as [[s2 rs2]|] eqn:R; [|discriminate]. injection E as <- <-.
        destruct (call_inv _ _ _ _ _ I C) as (l1 & I1). rewrite (IH _ _ _ _ I1 R). destruct c as [task ms g pri|g ms|g].
        + cbn [dp_call] in C. destruct (start_cases s0 l task ms g pri I) as [(_ & X)|[(_ & _ & [(? & ? & q' & _ & NE & X & J)|(_ & X)])|(_ & r & l2 & _ & [(NW & s3 & X & J & _ & RN)|(_ & s3 & X & J & _ & RN)])]].
          * rewrite X in C. injection C as <- <-. reflexivity.
          * rewrite X in C. injection C as <- <-. cbn [dp_ran started]. now destruct x0.
          * congruence.
          * rewrite X in C. injection C as <- <-. rewrite RN. cbn [started]. now destruct (thread_wait r).
          * rewrite X in C. injection C as <- <-. rewrite RN. cbn [started]. destruct sync; [now rewrite <- app_assoc|reflexivity].
        + cbn in C. injection C as <- <-. reflexivity.
        + assert (dp_ran s1 = dp_ran s0) as ->; [|now destruct e].
          destruct (find_guard (dp_guards s0) g) as [r|] eqn:F.
          * destruct (guard_release s0 l g r I F) as (s3 & X & _ & _ & RN). congruence.
          * cbn [dp_call] in C. rewrite F in C. now injection C as <- _. }
    intros E. rewrite (X _ _ _ _ _ I E), R0. now destruct sync.
  Qed.
  (** ** destroy *)
  Lemma destroy_loop q l : qis q l -> forall fuel done, (length l < fuel)%nat ->
    destroy_runners n answers fuel q done = Destroyed (done ++ l) /\ (exists x, answers x (DWait EV_NOT_EMPTY 0) <> OK) \/
    destroy_runners n answers fuel q done = UndefinedBehaviour /\ (exists x, answers x (DWait EV_NOT_EMPTY 0) = OK).
  Proof.
    revert q. induction l as [|r l IH]; intros q Q fuel done L; (destruct fuel as [|fuel]; [cbn in L; lia|]); cbn [destroy_runners].
    - destruct (receive_empty q 0 Q) as [(x & e & q' & EE & NE & E & _)|((x & EX) & E)]; rewrite E.
      + left. split; [rewrite app_nil_r; now destruct e|]. exists x. now rewrite <- EE.
      + right. split; [reflexivity|now exists x].
    - destruct (receive_ok q l r 0 Q) as (q' & -> & Q'). replace (done ++ r :: l) with ((done ++ [r]) ++ l) by now rewrite <- app_assoc. apply IH; [exact Q'|cbn in L; lia].
  Qed.
  Lemma inv_len s l : dinv s l -> (length l <= n)%nat.
  Proof.
    intros I. apply bound_len; [pose proof (i_nd _ _ I) as ND; now apply NoDup_app_remove_r in ND|]. intros r H. apply (i_in _ _ I). apply in_or_app. now left.
  Qed.
  Theorem destroy_ub s0 cs s rs : (forall l p ms, answers l (DWait p ms) = OK) -> dp_create n dflt answers = Some s0 -> run s0 cs = Some (s, rs) ->
    dp_destroy n answers s = UndefinedBehaviour.
  Proof.
    intros W C E. destruct (create_inv _ C) as (I & _). destruct (run_inv _ _ _ _ _ I E) as (l & J). pose proof (inv_len _ _ J).
    destruct (destroy_loop (dp_q s) l (i_q _ _ J) (n + 2) [] ltac:(lia)) as [(_ & x & X)|(X & _)]; [now elim X; apply W|exact X].
  Qed.
  Theorem destroy_once s0 cs s rs : (forall l p ms, answers l (DWait p ms) <> OK) -> dp_create n dflt answers = Some s0 -> run s0 cs = Some (s, rs) ->
    exists l, dp_destroy n answers s = Destroyed l /\ NoDup l /\ forall r, In r l -> (r < n)%nat.
  Proof.
    intros W C E. destruct (create_inv _ C) as (I & _). destruct (run_inv _ _ _ _ _ I E) as (l & J). pose proof (inv_len _ _ J).
    destruct (destroy_loop (dp_q s) l (i_q _ _ J) (n + 2) [] ltac:(lia)) as [(X & _)|(_ & x & X)]; [|now elim (W x EV_NOT_EMPTY 0)].
    exists l. split; [exact X|]. split; [pose proof (i_nd _ _ J) as ND; now apply NoDup_app_remove_r in ND|]. intros r H1. apply (i_in _ _ J). apply in_or_app. now left.
  Qed.
  (** with waits that answer an error nothing is undefined *)
  Theorem no_ub s0 cs : (forall l p ms, answers l (DWait p ms) <> OK) -> dp_create n dflt answers = Some s0 -> exists s rs, run s0 cs = Some (s, rs).
  Proof.
    intros W C. destruct (create_inv _ C) as (I & _). clear C. revert s0 I. generalize (seq 0 n). induction cs as [|c cs IH]; intros l s0 I; [now exists s0, []|].
    assert (K : exists s1 e, call s0 c = Some (s1, e)).
    { destruct c as [task ms g pri|g ms|g].
      - cbn [dp_call]. destruct (start_cases s0 l task ms g pri I) as [(_ & X)|[(_ & _ & [(? & ? & q' & _ & NE & X & J)|((x & EX) & X)])|(_ & r & l2 & _ & [(NW & s3 & X & _)|(_ & s3 & X & _)])]].
        + eauto.
        + eauto.
        + now elim (W x EV_NOT_EMPTY ms).
        + eauto.
        + eauto.
      - cbn. eauto.
      - destruct (find_guard (dp_guards s0) g) as [r|] eqn:F; [destruct (guard_release s0 l g r I F) as (s3 & X & _); eauto|]. cbn [dp_call]. rewrite F. eauto. }
    destruct K as (s1 & e & K). destruct (call_inv _ _ _ _ _ I K) as (l1 & I1). destruct (IH _ _ I1) as (s & rs & E). exists s, (e :: rs). cbn [dp_run]. now rewrite K, E.
  Qed.
  (** ** overridden threads that run their task at once *)
  Section Sync.
    Hypothesis SY : sync = true.
    Hypothesis TW : forall r, thread_wait r = OK.
    (** without guards every start of a task succeeds, for ever *)
    Theorem sync_starts s0 cs : (0 < n)%nat -> dp_create n dflt answers = Some s0 ->
      (forall c, In c cs -> exists task ms pri, c = PStart task ms None pri /\ task <> 0) ->
      exists s, run s0 cs = Some (s, map (fun _ => OK) cs).
    Proof.
      intros NP C H. destruct (create_inv _ C) as (I & _). clear C.
      assert (L : length (seq 0 n) = n) by apply seq_length. revert s0 I L. generalize (seq 0 n). induction cs as [|c cs IH]; intros l s0 I L; [now exists s0|].
      destruct (H c (or_introl eq_refl)) as (task & ms & pri & -> & NT).
      destruct (start_cases s0 l task ms None pri I) as [(Z0 & _)|[(_ & -> & _)|(_ & r & l2 & -> & [(NW & _)|(_ & s1 & X & J & _)])]]; [contradiction|cbn in L; lia|now elim NW; apply TW|].
      rewrite SY in J. destruct (IH ltac:(intros c' Hc; apply H; now right) _ s1 J) as (s & E); [rewrite app_length; cbn in *; lia|].
      exists s. cbn [dp_run dp_call map]. now rewrite X, E.
    Qed.
    (** no runner is lost *)
    Definition whole (s : dp) (l : list nat) : Prop := Permutation (l ++ map snd (dp_guards s)) (seq 0 n) /\ NoDup (map fst (dp_guards s)).
    Lemma drop_eq gs g r : NoDup (map fst gs) -> find_guard gs g = Some r -> Permutation (map snd gs) (r :: map snd (drop_guard gs g)).
    Proof.
      clear. induction gs as [|[g' r'] gs IH]; [discriminate|]. cbn [map fst]. intros ND. inversion ND as [|? ? NI ND1]; subst. unfold find_guard, drop_guard in *. cbn [find filter fst].
      destruct (Nat.eqb_spec g' g) as [->|NE]; cbn [negb map snd].
      - intros [= ->]. constructor. replace (filter _ gs) with gs; [reflexivity|]. clear - NI. induction gs as [|[a b] gs IH]; [reflexivity|]. cbn [filter fst map] in *.
        destruct (Nat.eqb_spec a g) as [->|]; [elim NI; now left|]. cbn [negb]. f_equal. apply IH. intros H. apply NI. now right.
      - intros F. rewrite (IH ND1 F). apply perm_swap.
    Qed.
    Lemma drop_fst gs g x : In x (map fst (drop_guard gs g)) -> In x (map fst gs) /\ x <> g.
    Proof.
      clear. induction gs as [|[a b] gs IH]; [intros []|]. unfold drop_guard in *. cbn [filter fst map]. destruct (Nat.eqb_spec a g) as [->|NE]; cbn [negb map fst].
      - intros H. destruct (IH H) as [A C]. split; [now right|exact C].
      - intros [<-|H]; [split; [now left|congruence]|]. destruct (IH H). split; [now right|assumption].
    Qed.
    Lemma drop_nd gs g : NoDup (map fst gs) -> NoDup (map fst (drop_guard gs g)).
    Proof.
      clear. induction gs as [|[a b] gs IH]; [intros; constructor|]. cbn [map fst]. intros ND. inversion ND as [|? ? NI ND1]; subst. unfold drop_guard in *. cbn [filter fst].
      destruct (Nat.eqb_spec a g); cbn [negb map fst]; [now apply IH|]. constructor; [|now apply IH]. intros H. now apply (drop_fst gs g a) in H.
    Qed.
    Lemma drop_none gs g : ~ In g (map fst gs) -> drop_guard gs g = gs.
    Proof.
      clear. induction gs as [|[a b] gs IH]; [reflexivity|]. cbn [map fst]. intros NI. unfold drop_guard in *. cbn [filter fst]. destruct (Nat.eqb_spec a g) as [->|]; [elim NI; now left|].
      cbn [negb]. f_equal. apply IH. intros H. apply NI. now right.
    Qed.
    Lemma run_whole cs : forall s l used s' rs, dinv s l -> whole s l -> incl (map fst (dp_guards s)) used -> proper used cs -> run s cs = Some (s', rs) ->
      exists l', dinv s' l' /\ whole s' l' /\ incl (map fst (dp_guards s')) (unreleased used cs).
    Proof.
      induction cs as [|c cs IH]; intros s l used s' rs I W U P E; cbn [dp_run] in E; [injection E as <- _; exists l; exact (conj I (conj W U))|].
      destruct (call s c) as [[s1 e]|] eqn:C; [|discriminate]. destruct (run s1 cs) as [[s2 rs2]|] eqn:R; [|discriminate]. injection E as <- _.
      destruct c as [task ms g pri|g ms|g].
      - cbn [dp_call] in C. assert (P1 : exists used1, incl used used1 /\ proper used1 cs /\ (forall g0, g = Some g0 -> ~ In g0 used /\ In g0 used1) /\ unreleased used (PStart task ms g pri :: cs) = unreleased used1 cs).
        { destruct g as [g|]; cbn [proper] in P; [|exists used; split; [apply incl_refl|split; [exact P|split; [discriminate|reflexivity]]]]. destruct P as [NI P]. exists (g :: used). split; [now apply incl_tl, incl_refl|]. split; [exact P|].
          split; [|reflexivity]. intros g0 [= <-]. split; [exact NI|now left]. }
        destruct P1 as (used1 & U1 & P1 & G1 & ->).
        destruct (start_cases s l task ms g pri I) as [(_ & X)|[(_ & -> & [(? & ? & q' & _ & NE & X & J)|(_ & X)])|(_ & r & l2 & -> & [(NW & _)|(_ & s3 & X & J & GE & RN)])]].
        + rewrite X in C. injection C as <- <-. eapply IH; [exact I|exact W| |exact P1|exact R]. eapply incl_tran; eassumption.
        + rewrite X in C. injection C as <- <-. eapply IH; [exact J|exact W| |exact P1|exact R]. eapply incl_tran; eassumption.
        + congruence.
        + now elim NW; apply TW.
        + rewrite X in C. injection C as <- <-. eapply IH; [exact J| | |exact P1|exact R]; rewrite ?GE.
          * destruct W as [WP WN]. split; rewrite GE.
            -- destruct g as [g|].
               ++ rewrite drop_none by (intros H; now apply (proj1 (G1 g eq_refl)), U). cbn [map snd]. rewrite <- WP. cbn [app]. apply Permutation_sym, Permutation_middle.
               ++ rewrite SY. rewrite <- WP. rewrite <- app_assoc. cbn [app]. apply Permutation_sym, Permutation_middle.
            -- destruct g as [g|]; [|exact WN]. rewrite drop_none by (intros H; now apply (proj1 (G1 g eq_refl)), U). cbn [map fst]. constructor; [|exact WN]. intros H. now apply (proj1 (G1 g eq_refl)), U.
          * destruct g as [g|]; [|eapply incl_tran; eassumption]. intros x [<-|H]; [apply (G1 g eq_refl)|]. apply U1, U. now apply drop_fst in H.
      - cbn in C. injection C as <- <-. cbn [unreleased]. eapply IH; eassumption.
      - cbn [proper unreleased] in *. destruct (find_guard (dp_guards s) g) as [r|] eqn:F.
        + destruct (guard_release s l g r I F) as (s3 & X & J & GE & _). rewrite X in C. injection C as <- <-. destruct W as [WP WN].
          eapply IH; [exact J| | |exact P|exact R]; rewrite ?GE.
          * split; rewrite GE; [|now apply drop_nd]. rewrite <- WP. rewrite (drop_eq _ _ _ WN F). rewrite <- app_assoc. reflexivity.
          * intros x H. apply drop_fst in H. destruct H as [H N]. apply in_in_remove; [exact N|now apply U].
        + cbn [dp_call] in C. rewrite F in C. injection C as <- <-. eapply IH; [exact I|exact W| |exact P|exact R].
          intros x H. apply in_in_remove; [|now apply U]. intros ->. unfold find_guard in F. destruct (find _ _) as [[? ?]|] eqn:FF; [discriminate|].
          apply in_map_iff in H. destruct H as ([a b] & Ea & H). apply (find_none _ _ FF) in H. cbn in *. apply Nat.eqb_neq in H. congruence.
    Qed.
    Theorem destroy_all s0 cs s rs : (forall l p ms, answers l (DWait p ms) <> OK) -> dp_create n dflt answers = Some s0 -> proper [] cs -> unreleased [] cs = [] -> run s0 cs = Some (s, rs) ->
      exists l, dp_destroy n answers s = Destroyed l /\ Permutation l (seq 0 n).
    Proof.
      intros W C P UR E. destruct (create_inv _ C) as (I & G0 & _).
      destruct (run_whole cs s0 (seq 0 n) [] s rs I) as (l & J & (WP & _) & G); auto.
      { split; rewrite G0; [now rewrite app_nil_r|constructor]. } { rewrite G0. apply incl_refl. }
      pose proof (inv_len _ _ J). destruct (destroy_loop (dp_q s) l (i_q _ _ J) (n + 2) [] ltac:(lia)) as [(X & _)|(_ & x & X)]; [|now elim (W x EV_NOT_EMPTY 0)].
      exists l. split; [exact X|]. rewrite UR in G. destruct (dp_guards s) as [|x gs]; [|destruct (G (fst x)); now left]. cbn in WP. now rewrite app_nil_r in WP.
    Qed.
  End Sync.
  (** ** threads that do nothing: the runners are used up *)
  Theorem idle_threads_use_up s0 cs c : sync = false -> (forall l p ms, answers l (DWait p ms) = OK) -> (forall r, thread_wait r = OK) -> dp_create n dflt answers = Some s0 ->
    length cs = n -> (forall x, In x (cs ++ [c]) -> exists task ms pri, x = PStart task ms None pri /\ task <> 0) ->
    (exists s, run s0 cs = Some (s, map (fun _ => OK) cs)) /\ run s0 (cs ++ [c]) = None.
  Proof.
    intros SY W TW C L H. destruct (create_inv _ C) as (I & _). clear C.
    assert (LL : length (seq 0 n) = length cs) by (rewrite seq_length; auto). clear L. revert s0 I LL. generalize (seq 0 n).
    induction cs as [|x cs IH]; intros l s0 I LL.
    - destruct l; [|discriminate]. split; [now exists s0|]. cbn [app dp_run]. destruct (H c (or_introl eq_refl)) as (task & ms & pri & -> & NT). cbn [dp_call].
      destruct (start_cases s0 [] task ms None pri I) as [(Z0 & _)|[(_ & _ & [(y & e & q' & EE & NE & _)|(_ & ->)])|(_ & r & l2 & Y & _)]]; [contradiction|rewrite W in EE; contradiction|reflexivity|discriminate].
    - destruct (H x (or_introl eq_refl)) as (task & ms & pri & -> & NT).
      destruct (start_cases s0 l task ms None pri I) as [(Z0 & _)|[(_ & -> & _)|(_ & r & l2 & -> & [(NW & _)|(_ & s1 & X & J & _)])]]; [contradiction|discriminate|now elim NW; apply TW|].
      rewrite SY in J. destruct (IH ltac:(intros y Hy; apply H; now right) l2 s1 J ltac:(cbn in LL; lia)) as ((s & E) & E2).
      cbn [app dp_run dp_call map]. rewrite X, E, E2. split; [now exists s|reflexivity].
  Qed.

  (** what guards answer *)
  Lemma find_none gs g : find_guard gs g = None <-> ~ In g (map fst gs).
  Proof.
    unfold find_guard. induction gs as [|[g' r] gs IH]; cbn [find fst map In]; [tauto|]. destruct (Nat.eqb_spec g' g) as [->|NE]; [split; [discriminate|tauto]|].
    rewrite IH. tauto.
  Qed.
  Lemma drop_in gs g g' : In g' (map fst (drop_guard gs g)) <-> g' <> g /\ In g' (map fst gs).
  Proof.
    unfold drop_guard. induction gs as [|[h r] gs IH]; cbn [filter fst map In]; [tauto|]. destruct (Nat.eqb_spec h g) as [->|NE]; cbn [negb map fst In]; rewrite IH; intuition congruence.
  Qed.
  Lemma remove_in l g g' : In g' (remove Nat.eq_dec g l) <-> g' <> g /\ In g' l.
  Proof. split; [intros H; apply in_remove in H; tauto|intros [H1 H2]; now apply in_in_remove]. Qed.
  Lemma run_holding cs : forall s l s' rs held, dinv s l -> (forall g, In g (map fst (dp_guards s)) <-> In g held) -> run s cs = Some (s', rs) ->
    (exists l', dinv s' l') /\ forall g, In g (map fst (dp_guards s')) <-> In g (holding held cs rs).
  Proof.
    induction cs as [|c cs IH]; intros s l s' rs held I H E; cbn [dp_run] in E; [injection E as <- <-; split; [now exists l|exact H]|].
    destruct (call s c) as [[s1 e]|] eqn:C; [|discriminate]. destruct (run s1 cs) as [[s2 rs2]|] eqn:R; [|discriminate]. injection E as <- <-.
    destruct (call_inv s l c s1 e I C) as (l1 & I1). destruct c as [task ms g pri|g ms|g].
    - cbn [dp_call] in C. cbn [holding].
      assert (X : forall g0, In g0 (map fst (dp_guards s1)) <-> In g0 (match g, e with Some g, OK => g :: held | _, _ => held end)).
      { destruct (start_cases s l task ms g pri I) as [(_ & X)|[(_ & _ & [(? & ? & q' & _ & NE & X & J)|(_ & X)])|(_ & r & l2 & _ & [(NW & s3 & X & J & G & _)|(_ & s3 & X & J & G & _)])]]; rewrite X in C; try discriminate C; injection C as <- <-; intros g0.
        - destruct g; apply H.
        - cbn [dp_guards]. destruct g; [destruct x0; try apply H; congruence|apply H].
        - rewrite G. destruct g; [destruct (thread_wait r); try apply H; congruence|apply H].
        - rewrite G. destruct g as [g|]; [|apply H]. cbn [map fst In]. rewrite drop_in, H. destruct (Nat.eq_dec g g0); intuition congruence. }
      destruct g as [g|]; [destruct e|]; eapply IH; eassumption.
    - cbn [dp_call] in C. injection C as <- <-. cbn [holding]. eapply IH; eassumption.
    - cbn [holding]. eapply IH; [exact I1| |exact R]. intros g0. rewrite remove_in, <- H. cbn [dp_call] in C. destruct (find_guard (dp_guards s) g) as [r|] eqn:F.
      + destruct (guard_release s l g r I F) as (s3 & X & _ & G & _). cbn [dp_call] in X. rewrite F in X. rewrite X in C. injection C as <- _. rewrite G. apply drop_in.
      + injection C as <- _. apply find_none in F. intuition congruence.
  Qed.
  Theorem guard_calls s0 cs s rs g ms : dp_create n dflt answers = Some s0 -> run s0 cs = Some (s, rs) ->
    (~ In g (holding [] cs rs) -> call s (PGuardWait g ms) = Some (s, OK) /\ call s (PGuardRelease g) = Some (s, OK)) /\
    (In g (holding [] cs rs) -> (exists r, (r < n)%nat /\ call s (PGuardWait g ms) = Some (s, event_wait r)) /\
       exists s', call s (PGuardRelease g) = Some (s', OK) /\ dp_ran s' = dp_ran s).
  Proof.
    intros C E. destruct (create_inv s0 C) as (I & G & _).
    destruct (run_holding cs s0 (seq 0 n) s rs [] I ltac:(intros x; rewrite G; reflexivity) E) as ((l & I1) & H). split.
    - intros NI. assert (F : find_guard (dp_guards s) g = None) by (apply find_none; now rewrite H). cbn [dp_call]. now rewrite F.
    - intros HI. destruct (find_guard (dp_guards s) g) as [r|] eqn:F; [|apply find_none in F; now apply H in HI]. split.
      + exists r. split; [|cbn [dp_call]; now rewrite F]. apply (i_in _ _ I1). apply in_or_app. right. destruct (find_in _ _ _ F) as (a & b & ->). rewrite map_app. apply in_or_app. right. now left.
      + destruct (guard_release s l g r I1 F) as (s' & X & _ & _ & RN). exists s'. auto.
  Qed.
End P.
