(** Proofs about the Thread model. *)
From Coq Require Import List ZArith Bool Lia Arith.
Import ListNotations.
From Verif Require Import Spec.OSError Spec.Linear Spec.ThreadSpec OS.Sched OS.ThreadModel.
Open Scope Z_scope.

(** * the specification: one run per effective start *)
Lemma concat_repeat_snoc {A} (x : list A) k : concat (repeat x k) ++ x = concat (repeat x (S k)).
Proof. induction k; cbn; [now rewrite app_nil_r|]. rewrite <- app_assoc, IHk. reflexivity. Qed.
Lemma spec_runs l : forall m0 s0 s, one_run_per_start s0 m0 -> sp_run tspec s0 l s -> one_run_per_start s (m0 ++ marks s0 l).
Proof.
  induction l as [|[[t c] r] l IH]; intros m0 s0 s O H; inversion H; subst.
  - cbn. now rewrite app_nil_r.
  - match goal with h : tspec _ _ _ _ _ |- _ => rename h into P end. match goal with h : sp_run _ _ l s |- _ => rename h into Q end.
    assert (G : forall s1 ms, sp_run tspec s1 l s -> one_run_per_start s1 (m0 ++ ms) -> one_run_per_start s (m0 ++ ms ++ marks s1 l)).
    { intros s1' ms Q' O'. specialize (IH (m0 ++ ms) s1' s O' Q'). now rewrite <- app_assoc in IH. }
    destruct c as [|ms| | | |]; cbn [tspec marks] in *.
    + destruct P as (_ & ->). destruct s0; try (apply (G _ []); [exact Q|now rewrite app_nil_r]).
      apply (G Started [MStart]); [exact Q|]. destruct O as (k & ->). exists k. now rewrite app_nil_r.
    + destruct P as [(_ & -> & ->)|(_ & _ & _ & ->)]; apply (G _ []); try exact Q; now rewrite app_nil_r.
    + destruct P as (_ & ->). apply (G _ []); [exact Q|now rewrite app_nil_r].
    + destruct P as (_ & -> & ->). apply (G Destroyed []); [exact Q|]. rewrite app_nil_r. destruct O as (k & ->). now exists k.
    + destruct P as (_ & -> & ->). apply (G Running [MBegin]); [exact Q|]. destruct O as (k & ->). exists k. now rewrite <- app_assoc.
    + destruct P as (_ & -> & ->). apply (G Finished [MEnd]); [exact Q|]. destruct O as (k & ->). exists (S k). rewrite <- app_assoc. cbn [app].
      rewrite <- concat_repeat_snoc. now rewrite app_nil_r.
Qed.
Theorem thread_runs l s : sp_run tspec Finished l s -> one_run_per_start s (marks Finished l).
Proof. intros H. apply (spec_runs l [] Finished s); [exists 0%nat; reflexivity|exact H]. Qed.

(** * histories *)
Lemma history_app {C R} (a b : list (event C R)) : history (a ++ b) = history a ++ history b.
Proof. apply filter_app. Qed.
Definition opn (b : bool) (t : nat) (h : list (event tcall tres)) : bool :=
  fold_left (fun b e => match e with Call u _ => if Nat.eqb u t then true else b | Ret u _ => if Nat.eqb u t then false else b | Eff _ _ _ => b end) h b.
Lemma is_open_app t a b : is_open t (a ++ b) = opn (is_open t a) t b.
Proof. unfold is_open, opn. apply fold_left_app. Qed.
Lemma opn_history t h : forall b, opn b t (history h) = opn b t h.
Proof. unfold opn. induction h as [|e h IH]; intros b; [reflexivity|]. destruct e; cbn; apply IH. Qed.
Lemma is_open_history t h : is_open t (history h) = is_open t h.
Proof. exact (opn_history t h false). Qed.
Lemma proper_prefix a b : proper_destroy (a ++ b) -> proper_destroy a.
Proof.
  intros H h1 t h2 E. destruct (H h1 t (h2 ++ b)) as (A & B); [rewrite E, <- app_assoc; reflexivity|].
  split; [exact A|]. intros u c I. apply (B u c). apply in_app_iff. now left.
Qed.

Definition st_of (q : tpc) : status tcall tres :=
  match q with TIdle => Out | TAt c | TAsleep c => Pending c | TReq => Pending TDestroy | TJoin => Done RVoid | TRet r => Done r end.
Definition nst_of (q : npc) : status tcall tres := match q with NClear => Pending TEnd | _ => Out end.
Definition stof (s : tst) (t : nat) := if Nat.eqb t 0 then nst_of (t_nat s) else st_of (t_thr s t).
Definition linto (s : tst) (es : tout) (sp : tstate) : Prop :=
  exists f, lin_run tspec (fun _ => Out) Finished es f sp /\ forall t, f t = stof s t.

Lemma linto_nil s es sp s' : linto s es sp -> (forall u, stof s' u = stof s u) -> linto s' (es ++ []) sp.
Proof. intros (f & L & F) E. exists f. rewrite app_nil_r. split; [exact L|]. intros t. now rewrite F, E. Qed.
Lemma linto_call s es sp s' t c : linto s es sp -> stof s t = Out ->
  (forall u, stof s' u = if Nat.eqb u t then Pending c else stof s u) -> linto s' (es ++ [Call t c]) sp.
Proof.
  intros (f & L & F) O E. exists (set_st f t (Pending c)). split.
  - eapply lin_run_app; [exact L|]. apply lr_call; [now rewrite F|constructor].
  - intros u. unfold set_st. rewrite E. destruct (Nat.eqb u t); [reflexivity|apply F].
Qed.
Lemma linto_eff s es sp s' t c r sp' : linto s es sp -> stof s t = Pending c -> tspec sp t c r sp' ->
  (forall u, stof s' u = if Nat.eqb u t then Done r else stof s u) -> linto s' (es ++ [Eff t c r]) sp'.
Proof.
  intros (f & L & F) O P E. exists (set_st f t (Done r)). split.
  - eapply lin_run_app; [exact L|]. eapply lr_eff; [now rewrite F|exact P|constructor].
  - intros u. unfold set_st. rewrite E. destruct (Nat.eqb u t); [reflexivity|apply F].
Qed.
Lemma linto_ret s es sp s' t r : linto s es sp -> stof s t = Done r ->
  (forall u, stof s' u = if Nat.eqb u t then Out else stof s u) -> linto s' (es ++ [Ret t r]) sp.
Proof.
  intros (f & L & F) O E. exists (set_st f t Out). split.
  - eapply lin_run_app; [exact L|]. eapply lr_ret; [now rewrite F|constructor].
  - intros u. unfold set_st. rewrite E. destruct (Nat.eqb u t); [reflexivity|apply F].
Qed.

Definition st_ok (sp : tstate) (s : tst) : Prop :=
  match sp with
  | Finished => t_active s = false /\ t_end s = false /\ (t_nat s = NCheck \/ t_nat s = NAsleep)
  | Started => t_active s = true /\ t_end s = false /\ t_nat s = NCheck
  | Running => t_active s = true /\ t_end s = false /\ (t_nat s = NRun \/ t_nat s = NClear)
  | Destroyed => t_active s = true /\ t_end s = true /\ (t_nat s = NCheck \/ t_nat s = NDone)
  end.
(** before destroy is called *)
Definition okA (s : tst) (q : tpc) : Prop :=
  match q with
  | TIdle | TRet _ => True
  | TAt c => client_call c = true /\ c <> TDestroy
  | TAsleep (TWait _) => t_active s = true
  | _ => False
  end.
(** the destroying client *)
Definition okB (s : tst) (sp : tstate) (q : tpc) : Prop :=
  match q with
  | TAt TDestroy => sp <> Destroyed
  | TAsleep TDestroy => t_active s = true /\ sp <> Destroyed
  | TReq => sp = Finished
  | TJoin => sp = Destroyed
  | TRet r => sp = Destroyed /\ t_nat s = NDone
  | TIdle => sp = Destroyed /\ t_nat s = NDone
  | _ => False
  end.
Definition phase (s : tst) (es : tout) (sp : tstate) : Prop :=
  ((forall t, ~ In (Call t TDestroy) es) /\ sp <> Destroyed /\ forall u, okA s (t_thr s u)) \/
  (exists d, d <> 0%nat /\ In (Call d TDestroy) es /\ (forall u, u <> d -> t_thr s u = TIdle) /\ okB s sp (t_thr s d)).
Record tinv (s : tst) (es : tout) : Prop := {
  ti_zero : t_thr s 0 = TIdle;
  ti_open : forall u, u <> 0%nat -> is_open u es = true <-> t_thr s u <> TIdle;
  ti_sp : exists sp, st_ok sp s /\ phase s es sp /\ linto s es sp
}.
Lemma tinv_init : tinv t_init [].
Proof.
  constructor; cbn.
  - reflexivity.
  - intros u Hu. split; [discriminate|intros H; now elim H].
  - exists Finished. split; [cbn; auto|]. split.
    + left. split; [intros t []|]. split; [discriminate|]. intros u. exact Logic.I.
    + exists (fun _ => Out). split; [constructor|]. intros t. unfold stof. cbn. now destruct (Nat.eqb t 0).
Qed.

Lemma stof_upd a e n f t q : t <> 0%nat -> forall u, stof (mkT a e n (fupd f t q)) u =
  if Nat.eqb u t then st_of q else if Nat.eqb u 0 then nst_of n else st_of (f u).
Proof.
  intros N u. unfold stof. cbn. rewrite fupd_eq. destruct (Nat.eqb_spec u t) as [->|]; [|reflexivity].
  destruct (Nat.eqb_spec t 0); [contradiction|reflexivity].
Qed.
Lemma nst_wake n : n <> NClear -> nst_of (n_wake n) = nst_of n.
Proof. now destruct n. Qed.
Lemma st_wake q : st_of (t_wake q) = st_of q.
Proof. now destruct q. Qed.

Lemma open_other e u t es : (forall x, In x e -> match x with Call v _ | Ret v _ => v = t | Eff _ _ _ => True end) -> u <> t -> opn es u e = es.
Proof.
  revert es. induction e as [|x e IH]; intros b H N; [reflexivity|]. unfold opn in *. cbn [fold_left].
  replace (match x with Call u0 _ => if Nat.eqb u0 u then true else b | Eff _ _ _ => b | Ret u0 _ => if Nat.eqb u0 u then false else b end) with b.
  - apply IH; [|exact N]. intros y Hy. apply H. now right.
  - specialize (H x (or_introl eq_refl)). destruct x; subst; try reflexivity; destruct (Nat.eqb_spec t u); congruence.
Qed.
Lemma in_history {C R} (e : event C R) es : In e (history es) <-> In e es /\ visible e = true.
Proof. apply filter_In. Qed.

Lemma mk_client s es t a en n q ev :
  tinv s es -> t <> 0%nat ->
  (forall x, In x ev -> match x with Call v _ | Ret v _ => v = t | Eff _ _ _ => True end) ->
  (opn (is_open t es) t ev = true <-> q <> TIdle) ->
  (exists sp, st_ok sp (mkT a en n (fupd (t_thr s) t q)) /\ phase (mkT a en n (fupd (t_thr s) t q)) (es ++ ev) sp /\
     linto (mkT a en n (fupd (t_thr s) t q)) (es ++ ev) sp) ->
  tinv (mkT a en n (fupd (t_thr s) t q)) (es ++ ev).
Proof.
  intros I N0 HE HO HS. constructor; [..|exact HS]; cbn [t_thr].
  - rewrite fupd_other by auto. apply I.
  - intros u Hu. rewrite is_open_app, fupd_eq. destruct (Nat.eqb_spec u t) as [->|]; [exact HO|].
    rewrite (open_other ev u t); [|exact HE|assumption]. now apply I.
Qed.
(** the two phases after a step of a client that is no call *)
Lemma phase_client s es t a en n q ev sp sp' :
  phase s es sp -> t_thr s t <> TIdle -> (forall u c, ~ In (Call u c) ev) -> (t_active s = true -> a = true) ->
  (okA s (t_thr s t) -> sp <> Destroyed -> okA (mkT a en n (fupd (t_thr s) t q)) q /\ sp' <> Destroyed) ->
  (okB s sp (t_thr s t) -> okB (mkT a en n (fupd (t_thr s) t q)) sp' q) ->
  phase (mkT a en n (fupd (t_thr s) t q)) (es ++ ev) sp'.
Proof.
  intros P NI NC AC HA HB. destruct P as [(ND & NS & OA)|(d & D0 & DI & OT & OB)].
  - left. destruct (HA (OA t) NS) as (QA & QS). split; [|split; [exact QS|]].
    + intros u X. apply in_app_iff in X. destruct X as [X|X]; [exact (ND u X)|exact (NC _ _ X)].
    + intros u. cbn [t_thr]. rewrite fupd_eq. destruct (Nat.eqb_spec u t) as [->|]; [exact QA|].
      specialize (OA u). destruct (t_thr s u) as [|c|c| | |r]; try exact OA. destruct c; try exact OA. cbn in *. auto.
  - right. assert (d = t) as -> by (destruct (Nat.eq_dec t d) as [->|X]; [reflexivity|now elim NI; apply OT]).
    exists t. split; [exact D0|]. split; [apply in_app_iff; now left|]. cbn [t_thr]. split.
    + intros u Hu. rewrite fupd_other by exact Hu. now apply OT.
    + rewrite fupd_same. now apply HB.
Qed.

Ltac okt := try (let u := fresh in intros u []); try (let u := fresh in intros u; match goal with |- context[t_thr ?s u] => destruct (t_thr s u) as [|[]|[]| | |] end; cbn; intuition (try congruence)).
Lemma tinv_step s es l s' e :
  tinv s es -> t_step s l = Some (s', e) -> proper_destroy (history (es ++ e)) -> tinv s' (es ++ e).
Proof.
  intros I E PD. pose proof I as [Z O (sp & SK & PH & LN)].
  assert (NZ : forall t, t_thr s t <> TIdle -> t <> 0%nat) by (intros t H ->; contradiction).
  assert (ST : forall t, t <> 0%nat -> stof s t = st_of (t_thr s t)) by (intros t H; unfold stof; destruct (Nat.eqb_spec t 0); [contradiction|reflexivity]).
  assert (OPN : forall t, t_thr s t <> TIdle -> is_open t es = true) by (intros t H; apply O; auto).
  destruct l as [t c|t|t|t| |]; cbn in E.
  - (* call *)
    destruct (t_thr s t) eqn:ET; try discriminate. destruct (client_call c) eqn:CC; [|discriminate].
    destruct (Nat.eqb_spec t 0) as [|N0]; [discriminate|]. cbn in E. injection E as <- <-. unfold t_go.
    apply mk_client; [exact I|exact N0|intros x [<-|[]]; reflexivity| |].
    { cbn. rewrite Nat.eqb_refl. split; [discriminate|reflexivity]. }
    exists sp. split; [destruct sp; exact SK|]. split.
    + destruct PH as [(ND & NS & OA)|(d & D0 & DI & OT & OB)].
      * destruct (match c with TDestroy => true | _ => false end) eqn:CD.
        { assert (c = TDestroy) as -> by (destruct c; congruence). right. exists t. split; [exact N0|].
          split; [apply in_app_iff; right; now left|]. cbn [t_thr]. rewrite fupd_same. split; [|exact NS].
          intros u Hu. rewrite fupd_other by exact Hu. destruct (Nat.eq_dec u 0) as [->|Hu0]; [exact Z|].
          rewrite history_app in PD. cbn in PD. destruct (PD (history es) t [] eq_refl) as (A & _). specialize (A u Hu0). rewrite is_open_history in A.
          destruct (t_thr s u) eqn:EU; [reflexivity|..]; exfalso; rewrite (OPN u) in A; congruence. }
        left. split; [|split; [exact NS|]].
        { intros u X. apply in_app_iff in X. destruct X as [X|[X|[]]]; [exact (ND u X)|]. injection X as -> ->. discriminate. }
        intros u. cbn [t_thr]. rewrite fupd_eq. destruct (Nat.eqb_spec u t) as [->|]; [split; [exact CC|intros ->; discriminate]|].
        exact (OA u).
      * exfalso. rewrite history_app in PD. cbn in PD.
        assert (X : In (Call d TDestroy) (history es)) by (apply in_history; split; [exact DI|reflexivity]).
        apply in_split in X. destruct X as (h1 & h2 & X). rewrite X, <- app_assoc in PD. cbn in PD.
        destruct (PD h1 d (h2 ++ [Call t c]) eq_refl) as (_ & B). apply N0, (B t c). apply in_app_iff. right. now left.
    + apply (linto_call s); [exact LN|rewrite ST, ET; [reflexivity|exact N0]|]. intros u. rewrite stof_upd by exact N0. reflexivity.
  - (* step of a client *)
    assert (NI : t_thr s t <> TIdle) by (intros X; rewrite X in E; discriminate).
    pose proof (NZ t NI) as N0. pose proof (ST t N0) as STt. pose proof (OPN t NI) as OP.
    assert (NOE : forall c r (x : event tcall tres), In x [Eff t c r] -> match x with Call v _ | Ret v _ => v = t | Eff _ _ _ => True end) by (intros c r x [<-|[]]; exact Logic.I).
    assert (NCE : forall c r u c', ~ In (Call u c' : event tcall tres) [Eff t c r]) by (intros c r u c' [X|[]]; discriminate).
    destruct (t_thr s t) as [|c|c| | |r] eqn:ET; try discriminate.
    + destruct c as [|ms| | | |]; try discriminate.
      * (* start *)
        destruct (t_active s) eqn:EA; injection E as <- <-; unfold t_go; (apply mk_client; [exact I|exact N0|apply NOE|cbn; rewrite OP; split; [discriminate|reflexivity]|]).
        { exists sp. split; [destruct sp; cbn in *; rewrite ?EA in *; exact SK|]. split.
          - apply (phase_client s es t _ _ _ _ _ sp sp); rewrite ?ET; auto; cbn; tauto.
          - apply (linto_eff s es sp); [exact LN|now rewrite STt| |intros u; rewrite stof_upd by exact N0; reflexivity].
            split; [reflexivity|]. destruct sp; try reflexivity. cbn in SK. destruct SK; congruence. }
        assert (SF : sp = Finished) by (destruct sp; try reflexivity; cbn in SK; destruct SK; congruence). subst sp.
        cbn in SK. destruct SK as (_ & SE & SN).
        exists Started. split; [cbn; split; [reflexivity|split; [exact SE|destruct SN as [-> | ->]; reflexivity]]|]. split.
        { apply (phase_client s es t _ _ _ _ _ Finished Started); rewrite ?ET; auto; cbn; try tauto. intros _ _. split; [exact Logic.I|discriminate]. }
        apply (linto_eff s es Finished); [exact LN|now rewrite STt|cbn; auto|]. intros u. rewrite stof_upd by exact N0.
        rewrite nst_wake by (destruct SN as [-> | ->]; discriminate). reflexivity.
      * (* wait *)
        destruct (t_active s) eqn:EA; injection E as <- <-; unfold t_go.
        { apply mk_client; [exact I|exact N0|intros x []|cbn; rewrite OP; split; [discriminate|reflexivity]|].
          exists sp. split; [destruct sp; cbn in *; rewrite ?EA in *; exact SK|]. split.
          - apply (phase_client s es t _ _ _ _ _ sp sp); rewrite ?ET; auto; cbn; try tauto. 
          - apply (linto_nil s); [exact LN|]. intros u. rewrite stof_upd by exact N0. unfold stof. destruct (Nat.eqb_spec u t) as [->|]; [|reflexivity].
            rewrite ET. destruct (Nat.eqb_spec t 0); [contradiction|reflexivity]. }
        apply mk_client; [exact I|exact N0|apply NOE|cbn; rewrite OP; split; [discriminate|reflexivity]|].
        assert (SF : sp = Finished) by (destruct sp; try reflexivity; cbn in SK; destruct SK; congruence). subst sp.
        exists Finished. split; [cbn in *; rewrite EA in *; exact SK|]. split.
        { apply (phase_client s es t _ _ _ _ _ Finished Finished); rewrite ?ET; auto; cbn; tauto. }
        apply (linto_eff s es Finished); [exact LN|now rewrite STt|cbn; auto|]. intros u. rewrite stof_upd by exact N0. reflexivity.
      * (* isFinished *)
        injection E as <- <-; unfold t_go. apply mk_client; [exact I|exact N0|apply NOE|cbn; rewrite OP; split; [discriminate|reflexivity]|].
        exists sp. split; [destruct sp; exact SK|]. split.
        { apply (phase_client s es t _ _ _ _ _ sp sp); rewrite ?ET; auto; cbn; tauto. }
        apply (linto_eff s es sp); [exact LN|now rewrite STt| |intros u; rewrite stof_upd by exact N0; reflexivity].
        cbn. split; [|reflexivity]. f_equal. destruct sp; cbn in SK; destruct SK as (-> & _); reflexivity.
      * (* destroy *)
        destruct (t_active s) eqn:EA; injection E as <- <-; unfold t_go; (apply mk_client; [exact I|exact N0|intros x []|cbn; rewrite OP; split; [discriminate|reflexivity]|]);
          (exists sp; split; [destruct sp; cbn in *; rewrite ?EA in *; exact SK|]; split;
           [|apply (linto_nil s); [exact LN|]; intros u; rewrite stof_upd by exact N0; unfold stof; destruct (Nat.eqb_spec u t) as [->|]; [|reflexivity];
             rewrite ET; destruct (Nat.eqb_spec t 0); [contradiction|reflexivity]]).
        { apply (phase_client s es t _ _ _ _ _ sp sp); rewrite ?ET; auto; cbn; tauto. }
        { apply (phase_client s es t _ _ _ _ _ sp sp); rewrite ?ET; auto; cbn; try tauto. intros _. destruct sp; try reflexivity; cbn in SK; destruct SK; congruence. }
    + (* end request *)
      injection E as <- <-. apply mk_client; [exact I|exact N0|apply NOE|cbn; rewrite OP; split; [discriminate|reflexivity]|].
      assert (SF : sp = Finished).
      { destruct PH as [(ND & NS & OA)|(d & D0 & DI & OT & OB)]; [specialize (OA t); rewrite ET in OA; destruct OA|].
        destruct (Nat.eq_dec t d) as [->|X]; [rewrite ET in OB; exact OB|]. rewrite OT in ET by exact X. discriminate. }
      subst sp. destruct SK as (SA & SE & SN).
      exists Destroyed. split; [cbn; split; [reflexivity|split; [reflexivity|destruct SN as [-> | ->]; auto]]|]. split.
      { apply (phase_client s es t _ _ _ _ _ Finished Destroyed); rewrite ?ET; auto; cbn; try tauto. }
      apply (linto_eff s es Finished); [exact LN|now rewrite STt|cbn; auto|]. intros u. rewrite stof_upd by exact N0.
      rewrite nst_wake by (destruct SN as [-> | ->]; discriminate). reflexivity.
    + (* join *)
      destruct (t_nat s) eqn:EN; try discriminate. injection E as <- <-. unfold t_go.
      apply mk_client; [exact I|exact N0|intros x []|cbn; rewrite OP; split; [discriminate|reflexivity]|].
      exists sp. split; [destruct sp; exact SK|]. split.
      { apply (phase_client s es t _ _ _ _ _ sp sp); rewrite ?ET; auto; cbn; try tauto. }
      apply (linto_nil s); [exact LN|]. intros u. rewrite stof_upd by exact N0. unfold stof. destruct (Nat.eqb_spec u t) as [->|]; [|reflexivity].
      rewrite ET. destruct (Nat.eqb_spec t 0); [contradiction|reflexivity].
    + (* return *)
      injection E as <- <-. unfold t_go.
      apply mk_client; [exact I|exact N0|intros x [<-|[]]; reflexivity| |].
      { cbn. rewrite Nat.eqb_refl. split; [discriminate|intros X; now elim X]. }
      exists sp. split; [destruct sp; exact SK|]. split.
      { apply (phase_client s es t _ _ _ _ _ sp sp); rewrite ?ET; auto; cbn; try tauto. intros u c [X|[]]; discriminate. }
      apply (linto_ret s); [exact LN|now rewrite STt|]. intros u. rewrite stof_upd by exact N0. reflexivity.
  - (* timeout *)
    assert (NI : t_thr s t <> TIdle) by (intros X; rewrite X in E; discriminate).
    pose proof (NZ t NI) as N0. pose proof (ST t N0) as STt. pose proof (OPN t NI) as OP.
    destruct (t_thr s t) as [|c|c| | |r] eqn:ET; try discriminate. destruct c as [|ms| | | |]; try discriminate.
    destruct (Z.eqb_spec ms (-1)); [discriminate|].
    assert (NCE : forall c r u c', ~ In (Call u c' : event tcall tres) [Eff t c r]) by (intros c r u c' [X|[]]; discriminate).
    destruct (t_active s) eqn:EA; injection E as <- <-; unfold t_go;
      (apply mk_client; [exact I|exact N0|intros x [<-|[]]; exact Logic.I|cbn; rewrite OP; split; [discriminate|reflexivity]|]);
      (exists sp; split; [destruct sp; cbn in *; rewrite ?EA in *; exact SK|]; split;
        [apply (phase_client s es t _ _ _ _ _ sp sp); rewrite ?ET; auto; cbn; tauto|]);
      (apply (linto_eff s es sp); [exact LN|now rewrite STt| |intros u; rewrite stof_upd by exact N0; reflexivity]).
    + right. repeat split; try assumption. intros ->. destruct SK; congruence.
    + left. destruct sp; try (destruct SK; congruence). auto.
  - (* spurious wake-up of a client *)
    assert (NI : t_thr s t <> TIdle) by (intros X; rewrite X in E; discriminate).
    pose proof (NZ t NI) as N0. pose proof (ST t N0) as STt. pose proof (OPN t NI) as OP.
    destruct (t_thr s t) as [|c|c| | |r] eqn:ET; try discriminate. injection E as <- <-. unfold t_go.
    apply mk_client; [exact I|exact N0|intros x []|cbn; rewrite OP; split; [discriminate|reflexivity]|].
    exists sp. split; [destruct sp; exact SK|]. split.
    { apply (phase_client s es t _ _ _ _ _ sp sp); rewrite ?ET; auto; cbn; destruct c; try tauto. intros _ X; split; [split; [reflexivity|discriminate]|exact X]. }
    apply (linto_nil s); [exact LN|]. intros u. rewrite stof_upd by exact N0. unfold stof. destruct (Nat.eqb_spec u t) as [->|]; [|reflexivity].
    rewrite ET. destruct (Nat.eqb_spec t 0); [contradiction|reflexivity].
  - (* the native thread *)
    assert (NAT : forall a n f ev sp', (forall u, f u = TIdle <-> t_thr s u = TIdle) ->
       (forall x, In x ev -> match x with Call v _ | Ret v _ => v = 0%nat | Eff _ _ _ => True end) ->
       (forall u, ~ In (Call u TDestroy) ev) -> st_ok sp' (mkT a (t_end s) n f) ->
       (sp <> Destroyed -> sp' <> Destroyed) -> (forall u, okA s (t_thr s u) -> okA (mkT a (t_end s) n f) (f u)) ->
       (forall u, okB s sp (t_thr s u) -> okB (mkT a (t_end s) n f) sp' (f u)) ->
       linto (mkT a (t_end s) n f) (es ++ ev) sp' -> tinv (mkT a (t_end s) n f) (es ++ ev)).
    { intros a n f ev sp' FI HE HN SK' SS OA' OB' L'. constructor; cbn [t_thr].
      - now apply FI.
      - intros u Hu. rewrite is_open_app, (open_other ev u 0); [|exact HE|exact Hu]. rewrite FI. now apply O.
      - exists sp'. split; [exact SK'|]. split; [|exact L']. destruct PH as [(ND & NS & OA)|(d & D0 & DI & OT & OB)].
        + left. split; [|split; [auto|]].
          * intros u X. apply in_app_iff in X. destruct X as [X|X]; [exact (ND u X)|exact (HN u X)].
          * intros u. apply OA', OA.
        + right. exists d. split; [exact D0|]. split; [apply in_app_iff; now left|]. split; [|now apply OB'].
          intros u Hu. apply FI. now apply OT. }
    destruct (t_nat s) eqn:EN; try discriminate.
    + destruct (t_active s) eqn:EA; [destruct (t_end s) eqn:EE|]; injection E as <- <-.
      * assert (sp = Destroyed) as -> by (destruct sp; cbn in SK; try reflexivity; destruct SK as (? & ? & ?); congruence).
        apply (NAT _ _ _ _ Destroyed); try tauto; cbn; auto.
        all: okt.
        apply (linto_nil s); [exact LN|]. intros u. unfold stof. cbn. now rewrite EN.
      * assert (sp = Started) as -> by (destruct sp; cbn in SK; try reflexivity; destruct SK as (? & ? & ?); rewrite ?EN in *; try congruence; intuition congruence).
        apply (NAT _ _ _ _ Running); try tauto; cbn; auto; try discriminate.
        { intros x [<-|[<-|[<-|[]]]]; cbn; auto. } 
        { intros u [X|[X|[X|[]]]]; discriminate. }
        all: okt.
        { destruct LN as (f & L & F). assert (F0 : f 0%nat = Out) by (rewrite F; unfold stof; cbn; now rewrite EN).
          eexists. split.
          { eapply lin_run_app; [exact L|]. apply lr_call; [exact F0|]. eapply lr_eff; [reflexivity|cbn; auto|]. apply lr_ret; [reflexivity|constructor]. }
          intros u. unfold set_st. destruct (Nat.eqb_spec u 0) as [->|X]; [reflexivity|]. rewrite F. unfold stof. cbn. now rewrite EN. }
      * assert (sp = Finished) as -> by (destruct sp; cbn in SK; try reflexivity; destruct SK as (? & ? & ?); congruence).
        destruct SK as (_ & SE & _). apply (NAT _ _ _ _ Finished); try tauto; cbn; auto.
        all: okt.
        apply (linto_nil s); [exact LN|]. intros u. unfold stof. cbn. now rewrite EN.
    + injection E as <- <-.
      assert (sp = Running) as -> by (destruct sp; cbn in SK; try reflexivity; destruct SK as (? & ? & ?); rewrite ?EN in *; try congruence; intuition congruence).
      destruct SK as (SA & SE & _). apply (NAT _ _ _ _ Running); try tauto; cbn; auto.
      { intros x [<-|[]]; reflexivity. }
      { intros u [X|[]]; discriminate. }
      all: okt.
      apply (linto_call s); [exact LN|unfold stof; cbn; now rewrite EN|]. intros u. unfold stof. cbn. now destruct (Nat.eqb u 0).
    + injection E as <- <-.
      assert (sp = Running) as -> by (destruct sp; cbn in SK; try reflexivity; destruct SK as (? & ? & ?); rewrite ?EN in *; try congruence; intuition congruence).
      destruct SK as (SA & SE & _). apply (NAT _ _ _ _ Finished); cbn; auto; try discriminate.
      { intros u. destruct (t_thr s u); cbn; split; congruence. }
      { intros x [<-|[<-|[]]]; cbn; auto. }
      { intros u [X|[X|[]]]; discriminate. }
      all: okt.
      change [Eff 0 TEnd RVoid; Ret 0 RVoid] with ([Eff 0 TEnd RVoid] ++ [Ret 0 RVoid] : tout). rewrite app_assoc.
      destruct LN as (f & L & F). exists (set_st (set_st f 0%nat (Done RVoid)) 0%nat Out). split.
      { eapply lin_run_app; [eapply lin_run_app; [exact L|]|].
        - eapply lr_eff; [rewrite F; unfold stof; cbn; now rewrite EN|cbn; auto|constructor].
        - apply lr_ret; [reflexivity|constructor]. }
      intros u. unfold set_st, stof. cbn. destruct (Nat.eqb_spec u 0); [reflexivity|]. rewrite F. unfold stof. cbn.
      destruct (Nat.eqb_spec u 0); [contradiction|]. now rewrite st_wake.
  - destruct (t_nat s) eqn:EN; try discriminate. injection E as <- <-. rewrite app_nil_r. constructor; [exact Z|exact O|].
    exists sp. split; [destruct sp; cbn in *; intuition congruence|]. split.
    + destruct PH as [(ND & NS & OA)|(d & D0 & DI & OT & OB)]; [left; auto|]. right. exists d. split; [exact D0|]. split; [exact DI|]. split; [exact OT|].
      cbn. destruct (t_thr s d) as [|c|c| | |r]; cbn in *; try (intuition congruence); destruct c; cbn in *; intuition congruence.
    + rewrite <- (app_nil_r es). apply (linto_nil s); [exact LN|]. intros u. unfold stof. cbn. now rewrite EN.
Qed.

Lemma tinv_exec ls s es : exec t_step t_init ls = Some (s, es) -> proper_destroy (history es) -> tinv s es.
Proof.
  intros E. pose proof (exec_inv _ _ _ t_step (fun s es => proper_destroy (history es) -> tinv s es)) as X.
  specialize (X (fun s es l s' es' h e p => tinv_step s es l s' es' (h (proper_prefix _ _ (eq_ind _ proper_destroy p _ (history_app es es')))) e p)).
  exact (X ls t_init [] s es (fun _ => tinv_init) E).
Qed.
Theorem thread_linearizable ls s es :
  exec t_step t_init ls = Some (s, es) -> proper_destroy (history es) ->
  linearizable tspec Finished (history es) /\ exists st, sp_run tspec Finished (effects es) st /\ one_run_per_start st (marks Finished (effects es)).
Proof.
  intros E P. destruct (ti_sp _ _ (tinv_exec ls s es E P)) as (sp & _ & _ & f & L & _). split.
  - exists es, f, sp. split; [reflexivity|exact L].
  - exists sp. pose proof (lin_run_effects _ _ _ _ _ _ _ _ _ L) as R. split; [exact R|exact (thread_runs _ _ R)].
Qed.
Lemma zero_calls ls s es : exec t_step t_init ls = Some (s, es) -> ~ In (Call 0%nat TDestroy) es.
Proof.
  intros E. refine (exec_inv _ _ _ t_step (fun s es => ~ In (Call 0%nat TDestroy) es) _ ls t_init [] s es (fun k => k) E).
  clear. intros s es l s' es' h e k. apply in_app_iff in k. destruct k as [k|k]; [exact (h k)|]. clear -e k.
  destruct l; cbn in e; repeat match type of e with context[match ?x with _ => _ end] => destruct x eqn:?; try discriminate end; injection e as <- <-; cbn in k;
    repeat (destruct k as [k|k]; try discriminate k); try contradiction k.
  injection k as -> ->. cbn in *. discriminate.
Qed.
Theorem thread_destroyed ls s es d :
  exec t_step t_init ls = Some (s, es) -> proper_destroy (history es) ->
  In (Call d TDestroy) (history es) -> is_open d (history es) = false ->
  t_nat s = NDone /\ exists k, marks Finished (effects es) = concat (repeat [MStart; MBegin; MEnd] k).
Proof.
  intros E P D O. pose proof (tinv_exec ls s es E P) as I. destruct (ti_sp _ _ I) as (sp & SK & PH & f & L & _).
  apply in_history in D. destruct D as (D & _). rewrite is_open_history in O.
  destruct PH as [(ND & _)|(d' & D0 & DI & OT & OB)]; [now elim (ND d)|].
  assert (d' = d) as ->.
  { destruct (Nat.eq_dec d d'); [congruence|exfalso].
    (* two calls of destroy *)
    assert (X : In (Call d TDestroy) (history es)) by (apply in_history; split; [exact D|reflexivity]).
    assert (X' : In (Call d' TDestroy) (history es)) by (apply in_history; split; [exact DI|reflexivity]).
    apply in_split in X. destruct X as (h1 & h2 & X). destruct (P h1 d h2 X) as (_ & B). rewrite X in X'.
    apply in_app_iff in X'. destruct X' as [X'|[X'|X']]; [|congruence|elim D0; exact (B _ _ X')].
    apply in_split in X'. destruct X' as (g1 & g2 & ->). rewrite <- app_assoc in X. cbn in X.
    destruct (P g1 d' (g2 ++ Call d TDestroy :: h2) X) as (_ & B'). 
    assert (d = 0%nat) as -> by (apply (B' d TDestroy); apply in_app_iff; right; now left).
    (* agent 0 calls no destroy *)
    exact (zero_calls ls s es E D). }
  assert (T : t_thr s d = TIdle).
  { pose proof (ti_open _ _ I d D0) as Y. destruct (t_thr s d) eqn:ET; [reflexivity|..]; exfalso; rewrite (proj2 Y) in O; discriminate. }
  rewrite T in OB. destruct OB as (-> & N). split; [exact N|].
  destruct (thread_runs _ _ (lin_run_effects _ _ _ _ _ _ _ _ _ L)) as (k & K). exists k. now rewrite app_nil_r in K.
Qed.
(** nothing can move: everybody has returned *)
Theorem thread_no_hang ls s es :
  exec t_step t_init ls = Some (s, es) -> proper_destroy (history es) ->
  (forall t, t_step s (TStep t) = None) -> t_step s NStep = None ->
  (forall t, t_idle s t) /\ (t_nat s = NDone <-> exists d, In (Call d TDestroy) (history es)) /\
  exists k, marks Finished (effects es) = concat (repeat [MStart; MBegin; MEnd] k).
Proof.
  intros E P ST SN. pose proof (tinv_exec ls s es E P) as I. destruct (ti_sp _ _ I) as (sp & SK & PH & f & L & _).
  assert (N : t_nat s = NAsleep /\ sp = Finished \/ t_nat s = NDone /\ sp = Destroyed).
  { cbn in SN. destruct (t_nat s) eqn:EN; try discriminate.
    - destruct (t_active s); [destruct (t_end s)|]; discriminate.
    - left. split; [reflexivity|]. destruct sp; cbn in SK; rewrite EN in SK; try reflexivity; destruct SK as (? & ? & ?); intuition discriminate.
    - right. split; [reflexivity|]. destruct sp; cbn in SK; rewrite EN in SK; try reflexivity; destruct SK as (? & ? & ?); intuition discriminate. }
  destruct (thread_runs _ _ (lin_run_effects _ _ _ _ _ _ _ _ _ L)) as (k & K).
  assert (KK : exists k, marks Finished (effects es) = concat (repeat [MStart; MBegin; MEnd] k)) by (exists k; rewrite K; destruct N as [(_ & ->)|(_ & ->)]; apply app_nil_r).
  destruct N as [(N & ->)|(N & ->)].
  - destruct SK as (SA & SE & _).
    assert (ID : forall t, t_idle s t).
    { intros t. unfold t_idle. specialize (ST t). cbn in ST. rewrite SA in ST.
      destruct PH as [(ND & _ & OA)|(d & D0 & DI & OT & OB)].
      - specialize (OA t). destruct (t_thr s t) as [|[]|[]| | |]; cbn in OA; try discriminate; try reflexivity; try tauto; try congruence. destruct OA; discriminate. destruct OA; discriminate.
      - destruct (Nat.eq_dec t d) as [->|X]; [|now apply OT]. destruct (t_thr s d) as [|[]|[]| | |]; cbn in OB; try discriminate; try reflexivity; try tauto; try congruence. destruct OB; congruence. }
    split; [exact ID|]. split; [|exact KK]. rewrite N. split; [discriminate|]. intros (d & D). apply in_history in D. destruct D as (D & _).
    exfalso. destruct PH as [(ND & _)|(d' & D0 & DI & OT & OB)]; [exact (ND d D)|]. rewrite (ID d') in OB. destruct OB; discriminate.
  - destruct PH as [(ND & NS & OA)|(d & D0 & DI & OT & OB)]; [now elim NS|].
    split; [|split; [|exact KK]].
    + intros t. unfold t_idle. destruct (Nat.eq_dec t d) as [->|X]; [|now apply OT]. specialize (ST d). cbn in ST. rewrite N in ST.
      destruct (t_thr s d) as [|[]|[]| | |]; cbn in OB; try discriminate; try reflexivity; try tauto; try congruence.
    + rewrite N. split; [|reflexivity]. intros _. exists d. apply in_history. split; [exact DI|reflexivity].
Qed.

(** * termination *)
Definition tw (n : nat) (q : tpc) : nat :=
  match q with
  | TIdle => 0 | TAt TStart => 2 * n + 8 | TAt (TWait _) => 4 | TAt TDestroy => 8 | TAt _ => 2
  | TAsleep TDestroy => 6 | TAsleep _ => 2 | TReq => 5 | TJoin => 2 | TRet _ => 1
  end%nat.
Definition nw (n : nat) (s : tst) : nat :=
  match t_nat s with NCheck => if t_active s && negb (t_end s) then 2 * n + 6 else 1 | NRun => 2 * n + 5 | NClear => 2 * n + 4 | _ => 0 end%nat.
Definition tm (n : nat) (s : tst) : nat := (sumn (fun t => tw n (t_thr s t)) n + nw n s)%nat.
Lemma tw_wake n q : (forall c, q = TAsleep c -> c = TDestroy \/ exists ms, c = TWait ms) -> (tw n (t_wake q) <= tw n q + 2)%nat.
Proof. intros H. destruct q; cbn [t_wake]; try lia. destruct (H c eq_refl) as [-> |(ms & ->)]; cbn; lia. Qed.
Lemma sumn_add n (f : nat -> nat) k : sumn (fun t => (f t + k)%nat) n = (sumn f n + n * k)%nat.
Proof. induction n; cbn; lia. Qed.
Definition tgood (n : nat) (s : tst) : Prop :=
  (forall t, (n <= t)%nat -> t_idle s t) /\ (forall t c, t_thr s t = TAsleep c -> c = TDestroy \/ exists ms, c = TWait ms).
Lemma tm_step n s l s' e : tgood n s -> t_own_step l -> t_step s l = Some (s', e) -> tgood n s' /\ (tm n s' < tm n s)%nat.
Proof.
  intros (GI & GS) OS E.
  assert (CL : forall t q a en nn, t_thr s t <> TIdle -> (forall c, q = TAsleep c -> c = TDestroy \/ exists ms, c = TWait ms) ->
            (tw n q + nw n (mkT a en nn (fupd (t_thr s) t q)) < tw n (t_thr s t) + nw n s)%nat ->
            tgood n (mkT a en nn (fupd (t_thr s) t q)) /\ (tm n (mkT a en nn (fupd (t_thr s) t q)) < tm n s)%nat).
  { intros t q a en nn NI HQ LT. assert (TN : (t < n)%nat) by (destruct (Nat.lt_ge_cases t n) as [|X]; [assumption|elim NI; now apply GI]).
    split.
    - split; cbn [t_thr]; unfold t_idle; cbn [t_thr].
      + intros u Hu. rewrite fupd_other by lia. now apply GI.
      + intros u c. rewrite fupd_eq. destruct (Nat.eqb u t); [apply HQ|apply GS].
    - unfold tm in *. cbn [t_thr].
      pose proof (sumn_change n (fun u => tw n (t_thr s u)) (fun u => tw n (fupd (t_thr s) t q u)) t TN) as X. cbn beta in X.
      rewrite fupd_same in X. unfold nw in *. cbn [t_nat t_active t_end] in *.
      assert (Y : forall u, u <> t -> tw n (fupd (t_thr s) t q u) = tw n (t_thr s u)) by (intros u Hu; now rewrite fupd_other).
      specialize (X Y). lia. }
  destruct l as [t c|t|t|t| |]; cbn in OS; try contradiction; cbn in E.
  - assert (NI : t_thr s t <> TIdle) by (intros X; rewrite X in E; discriminate).
    destruct (t_thr s t) as [|c|c| | |r] eqn:ET; try discriminate.
    + destruct c as [|ms| | | |]; try discriminate; [destruct (t_active s) eqn:EA|destruct (t_active s) eqn:EA| |destruct (t_active s) eqn:EA]; injection E as <- _; unfold t_go; apply CL; try congruence;
        try (intros c X; try discriminate X; injection X as <-; eauto); rewrite ?ET; unfold nw; cbn [tw t_nat t_active t_end]; rewrite ?EA; try lia.
      destruct (t_nat s); cbn; destruct (t_end s); cbn; lia.
    + injection E as <- _. apply CL; try congruence. rewrite ET. unfold nw. cbn [tw t_nat t_active t_end]. cbn [andb negb].
      destruct (t_nat s); cbn; destruct (t_active s && negb (t_end s)); cbn; lia.
    + destruct (t_nat s) eqn:EN; try discriminate. injection E as <- _. unfold t_go. apply CL; try congruence. rewrite ET. unfold nw. cbn. rewrite EN. lia.
    + injection E as <- _. unfold t_go. apply CL; try congruence. rewrite ET. unfold nw. cbn [tw t_nat t_active t_end]. lia.
  - assert (NI : t_thr s t <> TIdle) by (intros X; rewrite X in E; discriminate).
    destruct (t_thr s t) as [|c|c| | |r] eqn:ET; try discriminate. destruct c; try discriminate. destruct (ms =? -1); [discriminate|].
    destruct (t_active s) eqn:EA; injection E as <- _; unfold t_go; (apply CL; [congruence|intros c X; discriminate|]); rewrite ET; unfold nw; cbn [tw t_nat t_active t_end]; rewrite ?EA; lia.
  - destruct (t_nat s) eqn:EN; try discriminate.
    + destruct (t_active s) eqn:EA; [destruct (t_end s) eqn:EE|]; injection E as <- _; (split; [split; [exact GI|exact GS]|]); unfold tm, nw; cbn [t_thr t_nat t_active t_end]; rewrite EN, EA, ?EE; cbn; lia.
    + injection E as <- _. split; [split; [exact GI|exact GS]|]. unfold tm, nw. cbn [t_thr t_nat t_active t_end]. rewrite EN. lia.
    + injection E as <- _. split.
      * split; unfold t_idle; cbn [t_thr].
        { intros u Hu. now rewrite (GI u Hu). }
        { intros u c. destruct (t_thr s u); cbn; discriminate. }
      * unfold tm, nw. cbn [t_thr t_nat t_active t_end]. rewrite EN. cbn [andb].
        pose proof (sumn_le n (fun t => tw n (t_wake (t_thr s t))) (fun t => (tw n (t_thr s t) + 2)%nat)) as X. cbn beta in X. rewrite sumn_add in X.
        specialize (X (fun k _ => tw_wake n _ (GS k))). lia.
Qed.
Theorem thread_calls_end n ls0 s es0 ls s' es :
  exec t_step t_init ls0 = Some (s, es0) -> (forall t, (n <= t)%nat -> t_idle s t) -> (forall l, In l ls -> t_own_step l) ->
  exec t_step s ls = Some (s', es) -> (length ls <= n * (2 * n + 8) + 2 * n + 6)%nat.
Proof.
  intros E0 GI OS E.
  assert (GS : forall t c, t_thr s t = TAsleep c -> c = TDestroy \/ exists ms, c = TWait ms).
  { refine (exec_inv_st _ _ _ t_step (fun s => forall t c, t_thr s t = TAsleep c -> c = TDestroy \/ exists ms, c = TWait ms) _ ls0 t_init s es0 _ E0).
    - clear. intros s l s' e H E t c.
      destruct l; cbn in E; repeat match type of E with context[match ?x with _ => _ end] => destruct x eqn:?; try discriminate end; injection E as <- _;
        cbn; rewrite ?fupd_eq; try (destruct (Nat.eqb t _); [intros X; try discriminate X; injection X as <-; eauto|apply H]); try apply H.
      destruct (t_thr s t); cbn; discriminate.
    - intros t c. cbn. discriminate. }
  pose proof (exec_measure _ _ _ t_step (tgood n) t_own_step (tm n) (fun s l s' e G O X => tm_step n s l s' e G O X) ls s s' es (conj GI GS) OS E) as X.
  assert (BD : (sumn (fun t => tw n (t_thr s t)) n <= n * (2 * n + 8))%nat) by (apply sumn_bound; intros k _; destruct (t_thr s k) as [|[]|[]| | |]; cbn; lia).
  assert (BN : (nw n s <= 2 * n + 6)%nat) by (unfold nw; destruct (t_nat s), (t_active s), (t_end s); cbn; lia).
  unfold tm in X. lia.
Qed.
Theorem thread_destroy_returns ls s es d :
  exec t_step t_init ls = Some (s, es) -> proper_destroy (history es) -> In (Call d TDestroy) (history es) ->
  (forall t, t_step s (TStep t) = None) -> t_step s NStep = None -> t_idle s d /\ t_nat s = NDone.
Proof.
  intros E P D ST SN. destruct (thread_no_hang ls s es E P ST SN) as (A & B & _). split; [apply A|]. apply B. now exists d.
Qed.
(** client 1 is in destroy, after its wait; client 2 starts the thread; the end request is overwritten when the run ends *)
Definition race_schedule : list tlab :=
  [NStep; TCall 1 TDestroy; TStep 1; TCall 2 TStart; TStep 2; TStep 2; NStep; TStep 1; NStep; NStep; NStep].
Theorem thread_race_hangs :
  ~ (forall ls s es d, exec t_step t_init ls = Some (s, es) -> In (Call d TDestroy) (history es) ->
       (forall t, t_step s (TStep t) = None) -> t_step s NStep = None -> t_idle s d /\ t_nat s = NDone).
Proof.
  intros H. destruct (exec t_step t_init race_schedule) as [[s es]|] eqn:E; [|vm_compute in E; discriminate].
  specialize (H race_schedule s es 1%nat E). vm_compute in E. injection E as <- <-.
  destruct H as (A & _).
  - cbn. auto.
  - intros t. cbn. destruct t as [|[|[|t]]]; reflexivity.
  - reflexivity.
  - discriminate A.
Qed.
