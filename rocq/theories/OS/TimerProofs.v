(** Proofs about the timer model. *)
From Coq Require Import List ZArith Bool Lia Arith.
Import ListNotations.
From Verif Require Import Spec.Linear Spec.TimerSpec OS.Sched OS.TimerModel.

(** * state invariant *)
Definition flags_ok (p a st sp e : bool) (n : lpc) : bool :=
  match n with
  | LCheck => negb st && eqb sp (negb a)
  | LSleep => negb st && sp && negb a && negb e
  | LTimed => negb sp && st && a && negb e
  | LTCheck | LFire | LRun => negb sp && eqb st a
  | LClear => negb sp && eqb st a && negb p
  | LDone => e
  end.
Definition mok (s : mst) (t : nat) (q : mpc) : Prop :=
  match q with
  | MIdle | MRet _ => True
  | MAt c => match c with MStart | MStop | MIsStarted => True | MDestroy => t <> 0 | _ => False end
  | MAsleep c | MWoken c => c = MStart \/ c = MStop
  | MJoin => t <> 0 /\ m_end s = true
  end.
Record minv (p : bool) (s : mst) : Prop := {
  mi_zero : m_thr s 0 <> MIdle -> m_nat s = LRun;
  mi_flags : flags_ok p (m_active s) (m_started s) (m_stopped s) (m_end s) (m_nat s) = true;
  mi_thr : forall t, mok s t (m_thr s t)
}.
Lemma minv_init p : minv p m_init.
Proof. constructor; cbn; try congruence; auto. Qed.

Lemma mok_mono s s1 t q : (m_end s = true -> m_end s1 = true) -> mok s t q -> mok s1 t q.
Proof. intros H M. destruct q; cbn in *; try exact M. tauto. Qed.
(** a step of a client *)
Lemma minv_client p s t q a st sp e n :
  minv p s -> (t = 0 -> m_nat s = LRun) -> (n = m_nat s \/ n = wake_active (m_nat s)) -> (m_end s = true -> e = true) ->
  flags_ok p a st sp e n = true -> mok (mkM a st sp e n (fupd (m_thr s) t q)) t q -> minv p (mkM a st sp e n (fupd (m_thr s) t q)).
Proof.
  intros [Z FL TH] T0 N EN FL' MK. constructor; cbn [m_thr m_nat m_active m_started m_stopped m_end]; [|exact FL'|].
  - intros H. assert (R : m_nat s = LRun) by (unfold fupd in H; destruct (Nat.eqb_spec 0 t); [apply T0; auto|now apply Z]).
    destruct N as [-> | ->]; rewrite R; reflexivity.
  - intros u. rewrite fupd_eq. destruct (Nat.eqb_spec u t) as [->|]; [exact MK|]. apply (mok_mono s); [exact EN|apply TH].
Qed.
(** a step of the timer thread *)
Lemma minv_nat p s a st sp n f :
  minv p s -> (m_thr s 0 <> MIdle -> n = LRun) -> (forall u, f u = m_thr s u \/ f u = wake_stopped (m_thr s u) \/ f u = wake_started (m_thr s u)) ->
  flags_ok p a st sp (m_end s) n = true -> minv p (mkM a st sp (m_end s) n f).
Proof.
  intros [Z FL TH] T0 F FL'. constructor; cbn [m_thr m_nat m_active m_started m_stopped m_end]; [|exact FL'|].
  - intros H. apply T0. intros X. specialize (F 0). rewrite X in F. cbn in F. tauto.
  - intros u. specialize (TH u). destruct (F u) as [-> |[-> | ->]]; destruct (m_thr s u) as [|c|c|c| |]; cbn in *; try exact TH; destruct TH as [-> | ->]; cbn; auto.
Qed.
Ltac flags FL := revert FL; repeat match goal with |- context[m_active ?s] => destruct (m_active s) | |- context[m_started ?s] => destruct (m_started s)
  | |- context[m_stopped ?s] => destruct (m_stopped s) | |- context[m_end ?s] => destruct (m_end s) | |- context[m_nat ?s] => destruct (m_nat s) | |- context[flags_ok ?p] => is_var p; destruct p end; cbn; congruence.
Lemma minv_step p s l s' e : minv p s -> m_step p s l = Some (s', e) -> minv p s'.
Proof.
  intros I E. pose proof I as [Z FL TH].
  destruct l as [t c|t|t| | |]; cbn in E.
  - destruct (m_thr s t) eqn:ET; try discriminate. destruct (callable t (m_nat s) c) eqn:CC; [|discriminate]. injection E as <- <-.
    apply minv_client; auto.
    + intros ->. destruct c; cbn in CC; try discriminate; destruct (m_nat s); congruence.
    + cbn. destruct c; cbn in CC; try exact Logic.I; try discriminate. destruct (Nat.eqb_spec t 0); [discriminate|assumption].
  - assert (T0 : t = 0 -> m_nat s = LRun) by (intros ->; apply Z; intros X; rewrite X in E; discriminate).
    pose proof (TH t) as MT. destruct (m_thr s t) as [|c|c|c| |r] eqn:ET; try discriminate.
    + unfold start_body, stop_body in E. destruct c; try discriminate; try destruct (m_active s) eqn:EA; try destruct (m_stopped s) eqn:ES; try destruct (m_started s) eqn:EST;
        injection E as <- <-; (apply minv_client; [exact I|exact T0|auto|auto|rewrite ?EA, ?ES, ?EST in *; try exact FL; try (flags FL)|cbn; auto]).
    + unfold start_body, stop_body in E. destruct c; try discriminate; try destruct (m_stopped s) eqn:ES; try destruct (m_started s) eqn:EST;
        injection E as <- <-; (apply minv_client; [exact I|exact T0|auto|auto|rewrite ?ES, ?EST in *; try exact FL; try (flags FL)|cbn; auto]).
    + destruct (m_nat s) eqn:EN; try discriminate. injection E as <- <-. apply minv_client; rewrite ?EN; cbn; auto.
    + injection E as <- <-. apply minv_client; cbn; auto.
  - pose proof (TH t) as MT. destruct (m_thr s t) as [|c|c|c| |r] eqn:ET; try discriminate. injection E as <- <-.
    apply minv_client; auto. intros ->. apply Z. congruence.
  - assert (ZZ : m_nat s <> LRun -> m_thr s 0 <> MIdle -> False) by tauto.
    destruct (m_nat s) eqn:EN; try discriminate.
    + destruct (m_active s || m_end s) eqn:EA; injection E as <- <-.
      * apply minv_nat; [exact I|intros H; elim ZZ; [discriminate|exact H]|auto|]. revert EA. flags FL.
      * apply minv_nat; [exact I|intros H; elim ZZ; [discriminate|exact H]|auto|]. revert EA. flags FL.
    + destruct (negb (m_active s) || m_end s) eqn:EA; injection E as <- <-.
      * apply minv_nat; [exact I|intros H; elim ZZ; [discriminate|exact H]|auto|]. revert EA. flags FL.
      * apply minv_nat; [exact I|intros H; elim ZZ; [discriminate|exact H]|auto|]. revert EA. flags FL.
    + injection E as <- <-. apply minv_nat; [exact I|auto|auto|flags FL].
    + destruct (m_thr s 0) eqn:E0; try discriminate. destruct p; injection E as <- <-; (apply minv_nat; [exact I|congruence|auto|flags FL]).
    + injection E as <- <-. apply minv_nat; [exact I|intros H; elim ZZ; [discriminate|exact H]|auto|]. flags FL.
  - assert (ZZ : m_nat s <> LRun -> m_thr s 0 <> MIdle -> False) by tauto.
    destruct (m_nat s) eqn:EN; try discriminate.
    destruct (negb (m_active s) || m_end s) eqn:EA; injection E as <- <-;
      (apply minv_nat; [exact I|intros H; elim ZZ; [discriminate|exact H]|auto|]; revert EA; flags FL).
  - assert (ZZ : m_nat s <> LRun -> m_thr s 0 <> MIdle -> False) by tauto.
    destruct (m_nat s) eqn:EN; try discriminate; injection E as <- <-;
      (apply minv_nat; [exact I|intros H; elim ZZ; [discriminate|exact H]|auto|]; flags FL).
Qed.
Lemma minv_exec p ls s es : exec (m_step p) m_init ls = Some (s, es) -> minv p s.
Proof. exact (exec_inv_st _ _ _ (m_step p) (minv p) (fun s l s' e => minv_step p s l s' e) ls m_init s es (minv_init p)). Qed.

(** * linearizability *)
Definition st_of (q : mpc) : status mcall mres :=
  match q with MIdle => Out | MAt c | MAsleep c | MWoken c => Pending c | MJoin => Done MVoid | MRet r => Done r end.
Definition stof (s : mst) (t : nat) : status mcall mres :=
  if Nat.eqb t 0 then match m_nat s with LClear => Pending MEnd | _ => st_of (m_thr s 0) end else st_of (m_thr s t).
(** the abstract state *)
Definition phase_of (a : bool) (n : lpc) : mphase :=
  match n with LFire => Due | LRun | LClear => Running | _ => if a then Armed else Rest end.
Definition abs (s : mst) : mstate := mkMS (m_active s) (phase_of (m_active s) (m_nat s)) (m_end s).
Definition linto (p : bool) (s : mst) (es : mout) : Prop :=
  exists f, lin_run (mspec p) (fun _ => Out) m_new es f (abs s) /\ forall t, f t = stof s t.

Lemma linto_nil p s es s' : linto p s es -> abs s' = abs s -> (forall u, stof s' u = stof s u) -> linto p s' (es ++ []).
Proof. intros (f & L & F) A E. exists f. rewrite app_nil_r, A. split; [exact L|]. intros t. now rewrite F, E. Qed.
Lemma linto_call p s es s' t c : linto p s es -> abs s' = abs s -> stof s t = Out ->
  (forall u, stof s' u = if Nat.eqb u t then Pending c else stof s u) -> linto p s' (es ++ [Call t c]).
Proof.
  intros (f & L & F) A O E. exists (set_st f t (Pending c)). split.
  - eapply lin_run_app; [exact L|]. rewrite A. apply lr_call; [now rewrite F|constructor].
  - intros u. unfold set_st. rewrite E. destruct (Nat.eqb u t); [reflexivity|apply F].
Qed.
Lemma linto_eff p s es s' t c r : linto p s es -> stof s t = Pending c -> mspec p (abs s) t c r (abs s') ->
  (forall u, stof s' u = if Nat.eqb u t then Done r else stof s u) -> linto p s' (es ++ [Eff t c r]).
Proof.
  intros (f & L & F) O P E. exists (set_st f t (Done r)). split.
  - eapply lin_run_app; [exact L|]. eapply lr_eff; [now rewrite F|exact P|constructor].
  - intros u. unfold set_st. rewrite E. destruct (Nat.eqb u t); [reflexivity|apply F].
Qed.
Lemma linto_ret p s es s' t r : linto p s es -> abs s' = abs s -> stof s t = Done r ->
  (forall u, stof s' u = if Nat.eqb u t then Out else stof s u) -> linto p s' (es ++ [Ret t r]).
Proof.
  intros (f & L & F) A O E. exists (set_st f t Out). split.
  - eapply lin_run_app; [exact L|]. rewrite A. eapply lr_ret; [now rewrite F|constructor].
  - intros u. unfold set_st. rewrite E. destruct (Nat.eqb u t); [reflexivity|apply F].
Qed.
(** a complete action of the timer thread *)
Lemma linto_act p s es s' c r : linto p s es -> stof s 0 = Out -> mspec p (abs s) 0 c r (abs s') ->
  (forall u, stof s' u = stof s u) -> linto p s' (es ++ [Call 0 c; Eff 0 c r; Ret 0 r]).
Proof.
  intros (f & L & F) O P E. exists (set_st (set_st (set_st f 0 (Pending c)) 0 (Done r)) 0 Out). split.
  - eapply lin_run_app; [exact L|]. apply lr_call; [now rewrite F|]. eapply lr_eff; [reflexivity|exact P|]. apply lr_ret; [reflexivity|constructor].
  - intros u. unfold set_st. rewrite E. destruct (Nat.eqb_spec u 0) as [->|]; [now rewrite O|apply F].
Qed.
Lemma linto_fin p s es s' c r : linto p s es -> stof s 0 = Pending c -> mspec p (abs s) 0 c r (abs s') ->
  (forall u, stof s' u = if Nat.eqb u 0 then Out else stof s u) -> linto p s' (es ++ [Eff 0 c r; Ret 0 r]).
Proof.
  intros (f & L & F) O P E. exists (set_st (set_st f 0 (Done r)) 0 Out). split.
  - eapply lin_run_app; [exact L|]. eapply lr_eff; [now rewrite F|exact P|]. apply lr_ret; [reflexivity|constructor].
  - intros u. unfold set_st. rewrite E. destruct (Nat.eqb_spec u 0) as [->|]; [reflexivity|apply F].
Qed.
Lemma stof_client s t q a st sp e n : (t = 0 -> m_nat s = LRun) -> (n = m_nat s \/ n = wake_active (m_nat s)) ->
  forall u, stof (mkM a st sp e n (fupd (m_thr s) t q)) u = if Nat.eqb u t then st_of q else stof s u.
Proof.
  intros T0 N u. unfold stof. cbn [m_nat m_thr].
  assert (W : forall x y : status mcall mres, match n with LClear => x | _ => y end = match m_nat s with LClear => x | _ => y end)
    by (intros x y; destruct N as [-> | ->]; [reflexivity|destruct (m_nat s); reflexivity]).
  rewrite W. rewrite !fupd_eq. destruct (Nat.eqb_spec u 0) as [->|]; [|now destruct (Nat.eqb u t)].
  destruct (Nat.eqb_spec 0 t) as [<-|]; [|reflexivity]. rewrite (T0 eq_refl). reflexivity.
Qed.
Lemma stof_nat s a st sp e n f : (m_nat s <> LClear \/ n = LClear) -> (n = LClear -> m_nat s = LClear) ->
  (forall u, st_of (f u) = st_of (m_thr s u)) -> forall u, stof (mkM a st sp e n f) u = stof s u.
Proof.
  intros A B F u. unfold stof. cbn [m_nat m_thr]. rewrite !F.
  destruct (Nat.eqb_spec u 0) as [->|]; [|reflexivity].
  destruct n; destruct (m_nat s); try reflexivity; try (destruct A; congruence); try (specialize (B eq_refl); congruence).
Qed.
Lemma st_wake_started q : st_of (wake_started q) = st_of q. Proof. destruct q as [|c|[]|c| |]; reflexivity. Qed.
Lemma st_wake_stopped q : st_of (wake_stopped q) = st_of q. Proof. destruct q as [|c|[]|c| |]; reflexivity. Qed.
Lemma stof_thr s t q : m_thr s t = q -> (t = 0 -> m_nat s = LRun) -> stof s t = st_of q.
Proof. intros <- T0. unfold stof. destruct (Nat.eqb_spec t 0) as [->|]; [rewrite (T0 eq_refl)|]; reflexivity. Qed.

Ltac absf FL := unfold abs; cbn [m_active m_started m_stopped m_end m_nat m_thr m_go m_nto]; revert FL;
  repeat match goal with |- context[m_active ?s] => destruct (m_active s) | |- context[m_started ?s] => destruct (m_started s)
  | |- context[m_stopped ?s] => destruct (m_stopped s) | |- context[m_end ?s] => destruct (m_end s) | |- context[m_nat ?s] => destruct (m_nat s) | |- context[flags_ok ?p] => is_var p; destruct p end; cbn;
  intuition (try congruence).
Lemma linto_step p s es l s' e : minv p s -> linto p s es -> m_step p s l = Some (s', e) -> linto p s' (es ++ e).
Proof.
  intros I LN E. pose proof I as [Z FL TH].
  destruct l as [t c|t|t| | |]; cbn in E.
  - destruct (m_thr s t) eqn:ET; try discriminate. destruct (callable t (m_nat s) c) eqn:CC; [|discriminate]. injection E as <- <-.
    assert (T0 : t = 0 -> m_nat s = LRun) by (intros ->; destruct c; cbn in CC; try discriminate; destruct (m_nat s); congruence).
    apply (linto_call p s); [exact LN|reflexivity|exact (stof_thr s t _ ET T0)|]. intros u. unfold m_go. rewrite stof_client; auto.
  - assert (T0 : t = 0 -> m_nat s = LRun) by (intros ->; apply Z; intros X; rewrite X in E; discriminate).
    pose proof (TH t) as MT. destruct (m_thr s t) as [|c|c|c| |r] eqn:ET; try discriminate; pose proof (stof_thr s t _ ET T0) as ST; cbn in ST.
    + unfold start_body, stop_body in E.
      destruct c; try discriminate.
      * destruct (m_active s) eqn:EA; [|destruct (m_stopped s) eqn:ES]; injection E as <- <-.
        { apply (linto_eff p s); [exact LN|exact ST| |intros u; unfold m_go; rewrite stof_client; auto]. revert EA. absf FL. }
        { apply (linto_eff p s); [exact LN|exact ST| |intros u; unfold m_go; rewrite stof_client; auto]. revert EA ES. absf FL. }
        { apply (linto_nil p s); [exact LN|reflexivity|]. intros u; unfold m_go; rewrite stof_client; auto. destruct (Nat.eqb_spec u t) as [->|]; [now rewrite ST|reflexivity]. }
      * destruct (m_active s) eqn:EA; [destruct (m_started s) eqn:ES|]; injection E as <- <-.
        { apply (linto_eff p s); [exact LN|exact ST| |intros u; unfold m_go; rewrite stof_client; auto]. revert EA ES. absf FL. }
        { apply (linto_nil p s); [exact LN|reflexivity|]. intros u; unfold m_go; rewrite stof_client; auto. destruct (Nat.eqb_spec u t) as [->|]; [now rewrite ST|reflexivity]. }
        { apply (linto_eff p s); [exact LN|exact ST| |intros u; unfold m_go; rewrite stof_client; auto]. revert EA. absf FL. }
      * injection E as <- <-. apply (linto_eff p s); [exact LN|exact ST| |intros u; unfold m_go; rewrite stof_client; auto]. absf FL.
      * injection E as <- <-. apply (linto_eff p s); [exact LN|exact ST| |intros u; unfold m_go; rewrite stof_client; auto]. absf FL.
    + unfold start_body, stop_body in E.
      destruct c; try discriminate.
      * destruct (m_stopped s) eqn:ES; injection E as <- <-.
        { apply (linto_eff p s); [exact LN|exact ST| |intros u; unfold m_go; rewrite stof_client; auto]. revert ES. absf FL. }
        { apply (linto_nil p s); [exact LN|reflexivity|]. intros u; unfold m_go; rewrite stof_client; auto. destruct (Nat.eqb_spec u t) as [->|]; [now rewrite ST|reflexivity]. }
      * destruct (m_started s) eqn:ES; injection E as <- <-.
        { apply (linto_eff p s); [exact LN|exact ST| |intros u; unfold m_go; rewrite stof_client; auto]. revert ES. absf FL. }
        { apply (linto_nil p s); [exact LN|reflexivity|]. intros u; unfold m_go; rewrite stof_client; auto. destruct (Nat.eqb_spec u t) as [->|]; [now rewrite ST|reflexivity]. }
    + destruct (m_nat s) eqn:EN; try discriminate. injection E as <- <-.
      apply (linto_nil p s); [exact LN|reflexivity|]. intros u; unfold m_go; rewrite stof_client; rewrite ?EN; auto. destruct (Nat.eqb_spec u t) as [->|]; [now rewrite ST|reflexivity].
    + injection E as <- <-. apply (linto_ret p s); [exact LN|reflexivity|exact ST|]. intros u; unfold m_go; rewrite stof_client; auto.
  - assert (T0 : t = 0 -> m_nat s = LRun) by (intros ->; apply Z; intros X; rewrite X in E; discriminate).
    destruct (m_thr s t) as [|c|c|c| |r] eqn:ET; try discriminate. injection E as <- <-.
    apply (linto_nil p s); [exact LN|reflexivity|]. intros u; unfold m_go; rewrite stof_client; auto. destruct (Nat.eqb_spec u t) as [->|]; [now rewrite (stof_thr s t _ ET T0)|reflexivity].
  - assert (ZZ : m_nat s <> LRun -> m_thr s 0 = MIdle) by (intros H; destruct (m_thr s 0); try reflexivity; exfalso; apply H, Z; discriminate).
    assert (ST0 : m_nat s <> LClear -> stof s 0 = st_of (m_thr s 0)) by (intros H; unfold stof; cbn; destruct (m_nat s); congruence).
    destruct (m_nat s) eqn:EN; try discriminate.
    + destruct (m_active s || m_end s) eqn:EA; injection E as <- <-.
      * apply (linto_nil p s); [exact LN|revert EA; unfold abs; cbn; rewrite EN; destruct (m_active s), (m_end s), p; cbn; congruence|].
        apply stof_nat; rewrite ?EN; [left; discriminate|destruct (m_end s), p; discriminate|intros u; apply st_wake_started].
      * apply (linto_nil p s); [exact LN|unfold abs; cbn; now rewrite EN|].
        apply stof_nat; rewrite ?EN; [left; discriminate|discriminate|reflexivity].
    + destruct (negb (m_active s) || m_end s) eqn:EA; injection E as <- <-.
      * apply (linto_nil p s); [exact LN|unfold abs; cbn; rewrite EN; destruct (m_active s), (m_end s); reflexivity|].
        apply stof_nat; rewrite ?EN; [left; discriminate|destruct (m_end s); discriminate|intros u; apply st_wake_stopped].
      * apply (linto_nil p s); [exact LN|unfold abs; cbn; now rewrite EN|].
        apply stof_nat; rewrite ?EN; [left; discriminate|discriminate|reflexivity].
    + injection E as <- <-. apply (linto_act p s); [exact LN|rewrite ST0, ZZ; [reflexivity|discriminate|discriminate]| |].
      * unfold abs; cbn; rewrite EN; cbn. auto.
      * apply stof_nat; rewrite ?EN; [left; discriminate|discriminate|reflexivity].
    + destruct (m_thr s 0) eqn:E0; try discriminate. destruct p; injection E as <- <-.
      * apply (linto_act true s); [exact LN|rewrite ST0; [reflexivity|discriminate]| |].
        { unfold abs; cbn; rewrite EN; cbn. auto. }
        apply stof_nat; rewrite ?EN; [left; discriminate|discriminate|reflexivity].
      * apply (linto_call false s); [exact LN|unfold abs; cbn; now rewrite EN|rewrite ST0; [reflexivity|discriminate]|].
        intros u. unfold stof; cbn. now destruct (Nat.eqb u 0).
    + injection E as <- <-. apply (linto_fin p s); [exact LN|unfold stof; cbn; now rewrite EN| |].
      * rewrite ZZ in * by discriminate. revert FL. unfold abs; cbn; rewrite EN; cbn. destruct p; rewrite ?andb_false_r; [discriminate|]. auto.
      * intros u. unfold stof; cbn. destruct (Nat.eqb_spec u 0) as [->|]; [|reflexivity]. now rewrite ZZ.
  - assert (ZZ : m_nat s <> LRun -> m_thr s 0 = MIdle) by (intros H; destruct (m_thr s 0); try reflexivity; exfalso; apply H, Z; discriminate).
    destruct (m_nat s) eqn:EN; try discriminate.
    destruct (negb (m_active s) || m_end s) eqn:EA; injection E as <- <-.
    + apply (linto_nil p s); [exact LN|unfold abs; cbn; rewrite EN; destruct (m_active s), (m_end s); reflexivity|].
      apply stof_nat; rewrite ?EN; [left; discriminate|destruct (m_end s); discriminate|intros u; apply st_wake_stopped].
    + apply (linto_act p s); [exact LN|unfold stof; cbn; rewrite EN, ZZ; [reflexivity|discriminate]| |].
      * revert EA. unfold abs; cbn; rewrite EN; cbn. destruct (m_active s), (m_end s); cbn; auto; discriminate.
      * apply stof_nat; rewrite ?EN; [left; discriminate|discriminate|reflexivity].
  - destruct (m_nat s) eqn:EN; try discriminate; injection E as <- <-;
      (apply (linto_nil p s); [exact LN|unfold abs; cbn; now rewrite EN|]; apply stof_nat; rewrite ?EN; [left; discriminate|discriminate|reflexivity]).
Qed.
Lemma linto_init p : linto p m_init [].
Proof. exists (fun _ => Out). split; [constructor|]. intros t. unfold stof. cbn. now destruct (Nat.eqb t 0). Qed.
Lemma linto_exec p ls s es : exec (m_step p) m_init ls = Some (s, es) -> linto p s es.
Proof.
  intros E. refine (proj2 (exec_inv _ _ _ (m_step p) (fun s es => minv p s /\ linto p s es) _ ls m_init [] s es (conj (minv_init p) (linto_init p)) E)).
  intros s0 es0 l s1 es1 [I L] H. split; [exact (minv_step p s0 l s1 es1 I H)|exact (linto_step p s0 es0 l s1 es1 I L H)].
Qed.

(** * the specification: rounds *)
Definition close (P : list mmark -> Prop) (m now : list mmark) : Prop := exists rounds, m = concat rounds ++ now /\ Forall P rounds.
Lemma close_snoc P m now k : close P m now -> close P (m ++ k) (now ++ k).
Proof. intros (r & -> & F). exists r. split; [now rewrite app_assoc|exact F]. Qed.
Lemma close_round P m now : close P m now -> P now -> close P m [].
Proof.
  intros (r & -> & F) H. exists (r ++ [now]). split.
  - rewrite concat_app. cbn. now rewrite !app_nil_r.
  - apply Forall_app. split; [exact F|]. constructor; [exact H|constructor].
Qed.
(** the marks of a one-shot timer *)
Definition os_now (s : mstate) (now : list mmark) : Prop :=
  match m_phase s with
  | Rest => now = [] /\ m_on s = false
  | Armed => now = [KStart] /\ m_on s = true
  | Due => if m_on s then now = [KStart] else now = [KStart; KLate]
  | Running => if m_on s then now = [KStart; KBegin] else now = [KStart; KLate; KBegin] \/ now = [KStart; KBegin; KLate]
  end.
Lemma os_rounds l : forall m0 s0 s, (exists now, close one_shot_round m0 now /\ os_now s0 now) -> sp_run (mspec false) s0 l s ->
  exists now, close one_shot_round (m0 ++ mmarks false s0 l) now /\ os_now s now.
Proof.
  induction l as [|[[t c] r] l IH]; intros m0 s0 s O H; inversion H; subst.
  - cbn. now rewrite app_nil_r.
  - match goal with h : mspec _ _ _ _ _ _ |- _ => rename h into P end. match goal with h : sp_run _ ?x l s |- _ => rename h into Q; rename x into sx end.
    assert (G : forall s1' ms, sp_run (mspec false) s1' l s -> (exists now, close one_shot_round (m0 ++ ms) now /\ os_now s1' now) ->
       exists now, close one_shot_round (m0 ++ ms ++ mmarks false s1' l) now /\ os_now s now).
    { intros s1' ms Q' O'. rewrite app_assoc. exact (IH (m0 ++ ms) s1' s O' Q'). }
    destruct O as (now & CL & N). destruct s0 as [on ph dead].
    destruct c; cbn [mspec mmarks m_on m_phase m_dead] in *.
    + destruct P as (_ & P). destruct on.
      * subst sx. apply (G _ []); [exact Q|]. exists now. rewrite app_nil_r. auto.
      * destruct P as (-> & ->). apply (G _ [KStart]); [exact Q|]. exists [KStart]. destruct N as (-> & _). split; [|cbn; auto]. exact (close_snoc _ _ [] [KStart] CL).
    + destruct P as (_ & P). destruct on; [|subst sx; apply (G _ []); [exact Q|]; exists now; rewrite app_nil_r; auto].
      destruct ph; subst sx; cbn [os_now m_phase m_on] in N.
      * destruct N; discriminate.
      * destruct N as (-> & _). apply (G _ [KCancel]); [exact Q|]. exists []. split; [|cbn; auto].
        apply (close_round _ _ ([KStart] ++ [KCancel])); [now apply close_snoc|constructor].
      * subst now. apply (G _ [KLate]); [exact Q|]. exists ([KStart] ++ [KLate]). split; [now apply close_snoc|reflexivity].
      * subst now. apply (G _ [KLate]); [exact Q|]. exists ([KStart; KBegin] ++ [KLate]). split; [now apply close_snoc|right; reflexivity].
    + destruct P as (_ & ->). apply (G _ []); [exact Q|]. exists now. rewrite app_nil_r. auto.
    + destruct P as (_ & ->). apply (G _ []); [exact Q|]. exists now. rewrite app_nil_r. split; [exact CL|]. destruct ph; exact N.
    + destruct P as (_ & -> & -> & -> & ->). apply (G _ []); [exact Q|]. exists now. rewrite app_nil_r. split; [exact CL|]. exact (proj1 N).
    + destruct P as (_ & -> & ->). apply (G _ [KBegin]); [exact Q|]. exists (now ++ [KBegin]). split; [now apply close_snoc|].
      cbn in *. destruct on; subst now; [reflexivity|left; reflexivity].
    + destruct P as (_ & -> & ->). apply (G _ [KEnd]); [exact Q|]. exists []. split; [|cbn; auto].
      apply (close_round _ _ (now ++ [KEnd])); [now apply close_snoc|]. cbn in N. destruct on; [subst now; constructor|]. destruct N as [-> | ->]; constructor.
Qed.
Lemma os_now_history s m : (exists now, close one_shot_round m now /\ os_now s now) -> one_shot_history s m.
Proof.
  intros (now & (r & -> & F) & N). exists r, now. split; [reflexivity|]. split; [exact F|]. unfold os_now in N.
  destruct (m_phase s); [exact (proj1 N)|exact (proj1 N)|destruct (m_on s); auto|destruct (m_on s); tauto].
Qed.
Theorem one_shot_rounds l s : sp_run (mspec false) m_new l s -> one_shot_history s (mmarks false m_new l).
Proof. intros H. apply os_now_history. apply (os_rounds l [] m_new s); [|exact H]. exists []. split; [exists []; auto|cbn; auto]. Qed.

(** the marks of a periodic timer *)
Definition fires k : list mmark := concat (repeat [KBegin; KEnd] k).
Lemma fires_snoc k : fires k ++ [KBegin; KEnd] = fires (S k).
Proof. unfold fires. induction k; [reflexivity|]. cbn [repeat concat]. rewrite <- app_assoc, IHk. reflexivity. Qed.
Definition pe_now (s : mstate) (now : list mmark) : Prop :=
  match m_on s, m_phase s with
  | true, Rest => False
  | false, Rest => now = []
  | true, Running => exists k, now = KStart :: fires k ++ [KBegin]
  | true, _ => exists k, now = KStart :: fires k
  | false, Armed => False
  | false, Due => exists k, now = KStart :: fires k ++ [KLate]
  | false, Running => exists k, now = KStart :: fires k ++ [KBegin; KLate] \/ now = KStart :: fires k ++ [KLate; KBegin]
  end.
Lemma pe_rounds l : forall m0 s0 s, (exists now, close periodic_round m0 now /\ pe_now s0 now) -> sp_run (mspec true) s0 l s ->
  exists now, close periodic_round (m0 ++ mmarks true s0 l) now /\ pe_now s now.
Proof.
  induction l as [|[[t c] r] l IH]; intros m0 s0 s O H; inversion H; subst.
  - cbn. now rewrite app_nil_r.
  - match goal with h : mspec _ _ _ _ _ _ |- _ => rename h into P end. match goal with h : sp_run _ ?x l s |- _ => rename h into Q; rename x into sx end.
    assert (G : forall s1' ms, sp_run (mspec true) s1' l s -> (exists now, close periodic_round (m0 ++ ms) now /\ pe_now s1' now) ->
       exists now, close periodic_round (m0 ++ ms ++ mmarks true s1' l) now /\ pe_now s now).
    { intros s1' ms Q' O'. rewrite app_assoc. exact (IH (m0 ++ ms) s1' s O' Q'). }
    destruct O as (now & CL & N). destruct s0 as [on ph dead].
    destruct c; cbn [mspec mmarks m_on m_phase m_dead] in *.
    + destruct P as (_ & P). destruct on.
      * subst sx. apply (G _ []); [exact Q|]. exists now. rewrite app_nil_r. auto.
      * destruct P as (-> & ->). apply (G _ [KStart]); [exact Q|]. exists [KStart]. cbn in N. subst now. split; [exact (close_snoc _ _ [] [KStart] CL)|]. exists 0. reflexivity.
    + destruct P as (_ & P). destruct on; [|subst sx; apply (G _ []); [exact Q|]; exists now; rewrite app_nil_r; auto].
      destruct ph; subst sx; cbn [pe_now m_phase m_on] in N; [contradiction|..]; destruct N as (k & ->).
      * apply (G _ [KCancel]); [exact Q|]. exists []. split; [|cbn; auto].
        apply (close_round _ _ ((KStart :: fires k) ++ [KCancel])); [now apply close_snoc|constructor].
      * apply (G _ [KLate]); [exact Q|]. exists ((KStart :: fires k) ++ [KLate]). split; [now apply close_snoc|exists k; reflexivity].
      * apply (G _ [KLate]); [exact Q|]. exists ((KStart :: fires k ++ [KBegin]) ++ [KLate]). split; [now apply close_snoc|]. exists k. left. cbn. now rewrite <- app_assoc.
    + destruct P as (_ & ->). apply (G _ []); [exact Q|]. exists now. rewrite app_nil_r. auto.
    + destruct P as (_ & ->). apply (G _ []); [exact Q|]. exists now. rewrite app_nil_r. split; [exact CL|]. destruct ph; exact N.
    + destruct P as (_ & -> & -> & -> & ->). apply (G _ []); [exact Q|]. exists now. rewrite app_nil_r. split; [exact CL|]. exact N.
    + destruct P as (_ & -> & ->). apply (G _ [KBegin]); [exact Q|]. exists (now ++ [KBegin]). split; [now apply close_snoc|].
      cbn in *. destruct on; destruct N as (k & ->); exists k; [reflexivity|right; cbn; now rewrite <- app_assoc].
    + destruct P as (_ & -> & ->). apply (G _ [KEnd]); [exact Q|]. destruct on; cbn in N; destruct N as (k & N).
      * subst now. exists ((KStart :: fires k ++ [KBegin]) ++ [KEnd]). split; [now apply close_snoc|]. exists (S k). rewrite <- fires_snoc. cbn [app]. now rewrite <- app_assoc.
      * exists []. split; [|cbn; auto]. apply (close_round _ _ (now ++ [KEnd])); [now apply close_snoc|].
        destruct N as [-> | ->]; cbn; rewrite <- app_assoc; constructor.
Qed.
Lemma pe_now_history s m : (exists now, close periodic_round m now /\ pe_now s now) -> periodic_history s m.
Proof.
  intros (now & (r & -> & F) & N). exists r, now. split; [reflexivity|]. split; [exact F|]. unfold pe_now in N.
  destruct (m_on s), (m_phase s); try contradiction N; exact N.
Qed.
Theorem periodic_rounds l s : sp_run (mspec true) m_new l s -> periodic_history s (mmarks true m_new l).
Proof. intros H. apply pe_now_history. apply (pe_rounds l [] m_new s); [|exact H]. exists []. split; [exists []; auto|cbn; auto]. Qed.

(** after the timer has been turned off, and until it is started again, at most one callback begins, and none if none was due *)
Definition begins (l : list (nat * mcall * mres)) : nat := length (filter (fun x => match x with (_, MBegin, _) => true | _ => false end) l).
Definition no_start (l : list (nat * mcall * mres)) : Prop := forall t r, ~ In (t, MStart, r) l.
Theorem late_callbacks p l : forall s s', sp_run (mspec p) s l s' -> m_on s = false -> m_phase s <> Armed -> no_start l ->
  m_on s' = false /\ begins l <= match m_phase s with Due => 1 | _ => 0 end.
Proof.
  induction l as [|[[t c] r] l IH]; intros s s' H OFF PH NS; inversion H; subst; [split; [exact OFF|apply Nat.le_0_l]|].
  match goal with h : mspec _ _ _ _ _ _ |- _ => rename h into P end. match goal with h : sp_run _ _ l s' |- _ => rename h into Q end.
  assert (NS' : no_start l) by (intros u x X; exact (NS u x (or_intror X))).
  destruct c; cbn [mspec] in P; rewrite ?OFF in P.
  - elim (NS t r). now left.
  - destruct P as (_ & ->). exact (IH _ _ Q OFF PH NS').
  - destruct P as (_ & ->). exact (IH _ _ Q OFF PH NS').
  - destruct P as (_ & ->). destruct (IH _ _ Q eq_refl PH NS') as (A & B). split; [exact A|]. exact B.
  - destruct P as (_ & X & _). discriminate.
  - destruct P as (_ & X & ->). rewrite X. destruct (IH _ _ Q eq_refl ltac:(discriminate) NS') as (A & B). split; [exact A|]. cbn [m_phase] in B. change (S (begins l) <= 1). lia.
  - destruct P as (_ & X & ->). rewrite X. destruct p; destruct (IH _ _ Q eq_refl ltac:(discriminate) NS') as (A & B); (split; [exact A|]; exact B).
Qed.
