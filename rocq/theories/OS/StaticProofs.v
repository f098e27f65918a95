(** Static objects of the library and of the program. *)
From Coq Require Import List ZArith Bool Arith Lia.
Import ListNotations.
From Verif Require Import Spec.FacadeSpec Spec.PlatformSpec Spec.StaticSpec OS.Sched OS.StaticModel.

Lemma kind_eqb_refl k : kind_eqb k k = true.
Proof. now destruct k. Qed.
Lemma kind_eqb_eq a b : kind_eqb a b = true -> a = b.
Proof. now destruct a, b. Qed.
Lemma declared_serves p k : existsb (kind_eqb k) (declared p) = serves p k.
Proof. now destruct p, k. Qed.
Lemma inited_app a b : inited (a ++ b) = inited a || inited b.
Proof. apply existsb_app. Qed.
Definition built (u : nat) (es : life) : Prop := In (EBuilt u) es.
Lemma after_app_built u x es : forall i, built u es -> after_init i u (es ++ x) = after_init i u es.
Proof.
  induction es as [|e es IH]; intros i H; [destruct H|]. destruct H as [->|H]; [cbn; now rewrite Nat.eqb_refl|].
  destruct e; cbn; auto. destruct (Nat.eqb u0 u); auto.
Qed.
Lemma after_app_new u es : forall i, ~ built u es -> after_init i u (es ++ [EBuilt u]) = i || inited es.
Proof.
  induction es as [|e es IH]; intros i H; [cbn; rewrite Nat.eqb_refl; now rewrite orb_false_r|].
  assert (H' : ~ built u es) by (intros X; apply H; now right). destruct e; cbn [app after_init inited existsb is_init orb]; try (rewrite IH by exact H'; reflexivity).
  - destruct (Nat.eqb_spec u0 u) as [->|N]; [elim H; now left|]. now rewrite IH.
  - rewrite IH by exact H'. now rewrite orb_true_r.
Qed.
Lemma ending_app a b : ending (a ++ b) = fold_left (fun o e => match e with EGone u => Some u | _ => o end) b (ending a).
Proof. apply fold_left_app. Qed.

Section Static.
  Variable p : platform.
  Notation step := (s_step p).
  Definition all_there (st : list item) : Prop := forall k, serves p k = true -> existsb (same_item k) st = true.
  Definition none_there (st : list item) : Prop := forall k, existsb (same_item k) st = false.
  (** under a static object of the program are all factories or none, as it was built after init or before *)
  Definition over (es : life) (u : nat) (st : list item) : Prop := built u es /\ if built_after_init u es then all_there st else none_there st.
  Fixpoint fine (es : life) (st : list item) : Prop :=
    match st with [] => True | IU u :: st => over es u st /\ fine es st | IF _ :: st => fine es st end.
  Record sinv (s : sst) (es : life) : Prop := {
    si_reg : k_reg s = inited es;
    si_seen : forall u, built u es <-> In u (k_seen s);
    si_fine : fine es (k_stack s);
    si_there : going s = true -> k_cur s = None /\ ending es = None /\ if inited es then all_there (k_stack s) else none_there (k_stack s);
    si_cur : forall u, k_cur s = Some u -> ending es = Some u /\ over es u (k_stack s);
    si_const : k_const s = true <-> In EConst es;
    si_main : In EMain es -> k_const s = true;
    si_phase : k_phase s <> Starting -> k_const s = true }.
  Lemma over_mono es x u st : over es u st -> over (es ++ x) u st.
  Proof.
    intros (B & H). split; [apply in_or_app; now left|]. unfold built_after_init in *. now rewrite after_app_built.
  Qed.
  Lemma fine_mono es x st : fine es st -> fine (es ++ x) st.
  Proof. induction st as [|[u|k] st IH]; cbn; auto. intros (A & B). split; [now apply over_mono|auto]. Qed.
  Lemma fine_IF es l st : fine es st -> fine es (map IF l ++ st).
  Proof. intros H. induction l; cbn; auto. Qed.
  Lemma fine_declared es st : fine es st -> fine es (rev (map IF (declared p)) ++ st).
  Proof. intros H. rewrite <- (map_rev IF). now apply fine_IF. Qed.
  Lemma all_declared st : all_there (rev (map IF (declared p)) ++ st).
  Proof. intros k H. rewrite existsb_app. apply orb_true_iff. left. now destruct p, k. Qed.
  Lemma sinv_start : sinv s_start [].
  Proof.
    constructor; cbn; auto; try tauto; try discriminate.
    - intros _. repeat split; auto.
    - split; [discriminate|tauto].
  Qed.
  Lemma sinv_step s l s' e es : sinv s es -> step s l = Some (s', e) -> sinv s' (es ++ e).
  Proof.
    intros [A B C D F G H J] E. destruct l as [|u| |k c| | | |]; cbn beta iota delta [s_step] in E.
    - destruct (k_phase s) eqn:P; try discriminate. destruct (k_const s) eqn:K; [discriminate|]. injection E as <- <-. constructor; cbn [k_stack k_reg k_const k_phase k_cur k_seen].
      + rewrite inited_app, A. cbn. now rewrite orb_false_r.
      + intros u. rewrite <- B. unfold built. rewrite in_app_iff. cbn. intuition discriminate.
      + now apply fine_mono.
      + intros _. rewrite ending_app, inited_app. cbn. rewrite orb_false_r. apply D. unfold going. now rewrite P.
      + intros u X. rewrite ending_app. cbn. destruct (F u X). split; [assumption|now apply over_mono].
      + split; [intros _; apply in_or_app; right; now left|reflexivity].
      + reflexivity.
      + reflexivity.
    - destruct (going s) eqn:P; [|discriminate]. destruct (existsb (Nat.eqb u) (k_seen s)) eqn:N; [discriminate|]. injection E as <- <-.
      assert (NB : ~ built u es).
      { intros X. apply B in X. assert (Y : existsb (Nat.eqb u) (k_seen s) = true) by (apply existsb_exists; exists u; split; [exact X|apply Nat.eqb_refl]). congruence. }
      destruct (D eq_refl) as (D1 & D2 & D3). constructor; cbn [k_stack k_reg k_const k_phase k_cur k_seen].
      + rewrite inited_app, A. cbn. now rewrite orb_false_r.
      + intros v. unfold built. rewrite in_app_iff. cbn. rewrite <- B. unfold built. split; [intros [X|[[= <-]|[]]]; auto|intros [<-|X]; auto].
      + cbn [fine]. split; [|now apply fine_mono]. split; [apply in_or_app; right; now left|]. unfold built_after_init. rewrite after_app_new by exact NB. exact D3.
      + intros _. rewrite ending_app, inited_app. cbn. rewrite orb_false_r. split; [exact D1|]. split; [exact D2|]. destruct (inited es); exact D3.
      + intros v X. congruence.
      + rewrite G. rewrite in_app_iff. cbn. intuition discriminate.
      + rewrite in_app_iff. cbn. intros [X|[X|[]]]; [auto|discriminate].
      + exact J.
    - destruct (going s) eqn:P; [|discriminate]. injection E as <- <-. destruct (D eq_refl) as (D1 & D2 & D3). constructor; cbn [k_stack k_reg k_const k_phase k_cur k_seen].
      + rewrite inited_app. cbn. now rewrite orb_true_r.
      + intros u. rewrite <- B. unfold built. rewrite in_app_iff. cbn. intuition discriminate.
      + destruct (k_reg s); [now apply fine_mono|]. exact (fine_declared _ _ (fine_mono _ _ _ C)).
      + intros _. rewrite ending_app, inited_app. cbn. rewrite orb_true_r. split; [exact D1|]. split; [exact D2|]. destruct (k_reg s) eqn:R; [rewrite <- A in D3; exact D3|exact (all_declared _)].
      + intros v X. congruence.
      + rewrite G. rewrite in_app_iff. cbn. intuition discriminate.
      + rewrite in_app_iff. cbn. intros [X|[X|[]]]; [auto|discriminate].
      + exact J.
    - destruct (code_runs s) eqn:P; [|discriminate]. injection E as <- <-. constructor.
      + rewrite inited_app, A. cbn. now rewrite orb_false_r.
      + intros u. rewrite <- B. unfold built. rewrite in_app_iff. cbn. intuition discriminate.
      + now apply fine_mono.
      + intros X. rewrite ending_app, inited_app. cbn. rewrite orb_false_r. exact (D X).
      + intros u X. rewrite ending_app. cbn. destruct (F u X). split; [assumption|now apply over_mono].
      + rewrite G. rewrite in_app_iff. cbn. intuition discriminate.
      + rewrite in_app_iff. cbn. intros [X|[X|[]]]; [auto|discriminate].
      + exact J.
    - destruct (code_runs s) eqn:P; [|discriminate]. injection E as <- <-. constructor.
      + rewrite inited_app, A. cbn. now rewrite orb_false_r.
      + intros u. rewrite <- B. unfold built. rewrite in_app_iff. cbn. intuition discriminate.
      + now apply fine_mono.
      + intros X. rewrite ending_app, inited_app. cbn. rewrite orb_false_r. exact (D X).
      + intros u X. rewrite ending_app. cbn. destruct (F u X). split; [assumption|now apply over_mono].
      + rewrite G. rewrite in_app_iff. cbn. intuition discriminate.
      + rewrite in_app_iff. cbn. intros [X|[X|[]]]; [auto|discriminate].
      + exact J.
    - destruct (k_phase s) eqn:P; try discriminate. destruct (k_const s) eqn:K; [|discriminate]. injection E as <- <-. constructor; cbn [k_stack k_reg k_const k_phase k_cur k_seen].
      + rewrite inited_app, A. cbn. now rewrite orb_false_r.
      + intros u. rewrite <- B. unfold built. rewrite in_app_iff. cbn. intuition discriminate.
      + now apply fine_mono.
      + intros _. rewrite ending_app, inited_app. cbn. rewrite orb_false_r. apply D. unfold going. now rewrite P.
      + intros u X. rewrite ending_app. cbn. destruct (F u X). split; [assumption|now apply over_mono].
      + rewrite G. rewrite in_app_iff. cbn. intuition discriminate.
      + reflexivity.
      + reflexivity.
    - destruct (k_phase s) eqn:P; try discriminate. injection E as <- <-. constructor; cbn [k_stack k_reg k_const k_phase k_cur k_seen].
      + rewrite inited_app, A. cbn. now rewrite orb_false_r.
      + intros u. rewrite <- B. unfold built. rewrite in_app_iff. cbn. intuition discriminate.
      + now apply fine_mono.
      + discriminate.
      + intros u X. rewrite ending_app. cbn. destruct (F u X). split; [assumption|now apply over_mono].
      + rewrite G. rewrite in_app_iff. cbn. intuition discriminate.
      + rewrite in_app_iff. cbn. intros [X|[X|[]]]; [auto|discriminate].
      + intros _. apply J. discriminate.
    - destruct (k_phase s) eqn:P; try discriminate. destruct (k_stack s) as [|[u|k] st] eqn:ST; [discriminate| |]; injection E as <- <-; cbn [fine] in C.
      + destruct C as (C1 & C2). constructor; cbn [k_stack k_reg k_const k_phase k_cur k_seen].
        * rewrite inited_app, A. cbn. now rewrite orb_false_r.
        * intros v. rewrite <- B. unfold built. rewrite in_app_iff. cbn. intuition discriminate.
        * now apply fine_mono.
        * discriminate.
        * intros v [= <-]. rewrite ending_app. cbn. split; [reflexivity|now apply over_mono].
        * rewrite G. rewrite in_app_iff. cbn. intuition discriminate.
        * rewrite in_app_iff. cbn. intros [X|[X|[]]]; [auto|discriminate].
        * intros _. apply J. discriminate.
      + rewrite app_nil_r. constructor; cbn [k_stack k_reg k_const k_phase k_cur k_seen]; auto; try discriminate.
  Qed.
  Lemma sinv_run ls s es : exec step s_start ls = Some (s, es) -> sinv s es.
  Proof. intros E. exact (exec_inv _ _ _ step sinv (fun s es l s' es' I S => sinv_step s l s' es' es I S) ls _ [] _ _ sinv_start E). Qed.
  (** every event of a run comes from a step of a reachable state *)
  Lemma event_step ls : forall s es a x d, exec step s_start ls = Some (s, es) -> es = a ++ x :: d -> exists s0 l s1, sinv s0 a /\ step s0 l = Some (s1, [x]).
  Proof.
    induction ls as [|l ls IH] using rev_ind; intros s es a x d E EQ.
    - injection E as <- <-. destruct a; discriminate.
    - rewrite exec_app in E. destruct (exec step s_start ls) as [[s1 e1]|] eqn:E1; [|discriminate]. cbn [exec] in E. destruct (step s1 l) as [[s2 e2]|] eqn:S; [|discriminate].
      injection E as <- <-. rewrite app_nil_r in EQ. assert (L : e2 = [] \/ exists y, e2 = [y]).
      { destruct l; cbn beta iota delta [s_step] in S; repeat match type of S with context [match ?b with _ => _ end] => destruct b; try discriminate end; injection S as _ <-; eauto. }
      destruct L as [-> |(y & ->)].
      + rewrite app_nil_r in EQ. exact (IH _ _ _ _ _ eq_refl EQ).
      + destruct d as [|z d] using rev_ind.
        * apply app_inj_tail in EQ. destruct EQ as (-> & ->). exists s1, l, s2. split; [exact (sinv_run _ _ _ E1)|exact S].
        * rewrite app_comm_cons, app_assoc in EQ. apply app_inj_tail in EQ. destruct EQ as (EQ & _). exact (IH _ _ _ _ _ eq_refl EQ).
  Qed.
  Theorem static_use ls s es : exec step s_start ls = Some (s, es) -> forall a k c r d, es = a ++ EUse k c r :: d -> r = due (serves p k) c a.
  Proof.
    intros E a k c r d EQ. destruct (event_step _ _ _ _ _ _ E EQ) as (s0 & l & s1 & I & S). destruct l; cbn beta iota delta [s_step] in S;
      try (repeat match type of S with context [match ?b with _ => _ end] => destruct b; try discriminate end; discriminate).
    destruct (code_runs s0) eqn:P; [|discriminate]. injection S as _ <- <- <-. unfold use, due. rewrite (si_reg _ _ I), declared_serves. destruct (inited a) eqn:IN; cbn [andb]; [|reflexivity].
    destruct (serves p k0) eqn:SV; [|reflexivity]. unfold alive. unfold code_runs in P. destruct (going s0) eqn:GO.
    - destruct (si_there _ _ I GO) as (_ & X & Y). rewrite X. rewrite IN in Y. now rewrite (Y _ SV).
    - unfold going in GO. destruct (k_phase s0); try discriminate. destruct (k_cur s0) as [u|] eqn:CU; [|discriminate]. destruct (si_cur _ _ I _ CU) as (X & _ & Y). rewrite X.
      destruct (built_after_init u a); [now rewrite (Y _ SV)|now rewrite (Y k0)].
  Qed.
  Theorem static_read ls s es : exec step s_start ls = Some (s, es) -> forall a v d, es = a ++ ERead v :: d ->
    (In EConst a -> v = (-1)%Z) /\ (~ In EConst a -> v = 0%Z) /\ (In EMain a -> v = (-1)%Z).
  Proof.
    intros E a v d EQ. destruct (event_step _ _ _ _ _ _ E EQ) as (s0 & l & s1 & I & S). destruct l; cbn beta iota delta [s_step] in S;
      try (repeat match type of S with context [match ?b with _ => _ end] => destruct b; try discriminate end; discriminate).
    destruct (code_runs s0) eqn:P; [|discriminate]. injection S as _ <-. split; [|split].
    - intros X. apply (si_const _ _ I) in X. now rewrite X.
    - intros X. destruct (k_const s0) eqn:K; [|reflexivity]. elim X. now apply (si_const _ _ I).
    - intros X. apply (si_main _ _ I) in X. now rewrite X.
  Qed.
  (** the program ends: all that was built is destroyed *)
  Lemma pops m : forall s, k_phase s = Exiting -> length (k_stack s) = m -> exists s1 e, exec step s (repeat LPop m) = Some (s1, e) /\ k_stack s1 = [].
  Proof.
    induction m as [|m IH]; intros s P L; cbn [repeat exec].
    - exists s, []. split; [reflexivity|]. now destruct (k_stack s).
    - cbn [s_step]. rewrite P. destruct (k_stack s) as [|[u|k] st]; [discriminate| |]; injection L as L.
      + destruct (IH (mkSt st (k_reg s) (k_const s) Exiting (Some u) (k_seen s)) eq_refl L) as (s1 & e & X & Y). rewrite X. eauto.
      + destruct (IH (mkSt st (k_reg s) (k_const s) Exiting None (k_seen s)) eq_refl L) as (s1 & e & X & Y). rewrite X. eauto.
  Qed.
End Static.
(** a static object built before init, whose destructor destroys an object of the library *)
Definition sch_dead : list slab := [LBuilt 0; LConst; LMain; LInit; LUse KThread true; LExit] ++ repeat LPop 8 ++ [LUse KThread false].
Theorem static_dead : ~ (forall ls s es, exec (s_step StdCpp) s_start ls = Some (s, es) -> forall a k c d, es <> a ++ EUse k c Dead :: d).
Proof.
  intros H. destruct (exec (s_step StdCpp) s_start sch_dead) as [[s es]|] eqn:E; [|vm_compute in E; discriminate]. specialize (H _ _ _ E). vm_compute in E. injection E as <- <-.
  match type of H with forall a k c d, ?es <> _ => apply (H (firstn (length es - 1) es) KThread false []) end. reflexivity.
Qed.
(** a constructor of a static object that waits for ever, before the constants have got their values *)
Theorem static_early : ~ (forall ls s es, exec (s_step StdCpp) s_start ls = Some (s, es) -> forall a v d, es = a ++ ERead v :: d -> v = (-1)%Z).
Proof.
  intros H. specialize (H [LInit; LRead] _ _ eq_refl [EInit] 0%Z [] eq_refl). discriminate.
Qed.
