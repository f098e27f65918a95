(** Proofs about the Itron factories of event flags, mutexes and periodic timers. *)
From Coq Require Import List Bool Lia Arith.
Import ListNotations.
From Verif Require Import Spec.Linear Spec.ObjectSpec OS.Sched OS.ItronObjectModel.

(** in the critical section; the object a caller works on and its stage *)
Definition kcs (q : kpc) : bool := match q with KGet | KAcre _ | KDtorF _ | KRelF _ | KDel _ | KRel _ | KUnl _ => true | _ => false end.
Definition kob (q : kpc) : option (nat * kstage) :=
  match q with
  | KAcre p | KDtorF p | KRelF p => Some (p, SMake)
  | KUnl (OObj p) | KRet (OObj p) => Some (p, SMade)
  | KLock (ODestroy p) | KStp p | KDel p => Some (p, SDying)
  | KRel p => Some (p, SGone)
  | _ => None
  end.
Definition alive (a : kstage) : bool := match a with SMade | SLive | SDying => true | _ => false end.
Definition at_obj (q : kpc) : option nat := match q with KAt c => on_obj c | _ => None end.
Definition kwf (q : kpc) : Prop :=
  match q with
  | KLock c => match c with OCreate | ODestroy _ => True | _ => False end
  | KAt c => on_obj c <> None
  | _ => True
  end.

Section M.
Variable max : nat.
Record kinv (s : kst) : Prop := {
  ki_lock : forall t, kcs (k_pc s t) = true <-> k_mtx s = Some t;
  ki_st : forall t p a, kob (k_pc s t) = Some (p, a) -> k_st s p = a;
  ki_one : forall t u p a b, kob (k_pc s t) = Some (p, a) -> kob (k_pc s u) = Some (p, b) -> t = u;
  ki_own : forall p, k_st s p = SFree \/ k_st s p = SLive \/ exists t a, kob (k_pc s t) = Some (p, a);
  ki_blk : forall p, k_blk s p = true <-> k_st s p <> SFree;
  ki_lt : forall p, k_st s p <> SFree -> p < max;
  ki_kern : forall i p, (exists b, k_kern s i = Some (p, b)) <-> k_id s p = i /\ alive (k_st s p) = true;
  ki_pos : forall p, alive (k_st s p) = true -> k_id s p <> 0;
  ki_make : forall p, k_st s p = SMake -> k_id s p = 0;
  ki_busy : forall t p, In t (k_busy s p) <-> at_obj (k_pc s t) = Some p;
  ki_at : forall t p, at_obj (k_pc s t) = Some p -> k_st s p = SLive;
  ki_wf : forall t, kwf (k_pc s t);
  ki_zero : k_pc s 0 = KIdle
}.
Lemma kinv_init : kinv k_init.
Proof.
  constructor; cbn; try tauto; try congruence.
  - intros t. split; congruence.
  - intros p. split; congruence.
  - intros i p. split; [intros (b & H); discriminate|intros (_ & H); discriminate].
  - intros t p. split; [tauto|congruence].
Qed.
Lemma kern0 s : kinv s -> k_kern s 0 = None.
Proof. intros I. destruct (k_kern s 0) as [[p b]|] eqn:K; [|reflexivity]. destruct (proj1 (ki_kern s I 0 p)) as (A & B); [eauto|]. now apply (ki_pos s I p) in B. Qed.
Lemma kern_of s p : kinv s -> alive (k_st s p) = true -> exists b, k_kern s (k_id s p) = Some (p, b).
Proof. intros I A. apply (ki_kern s I). auto. Qed.
Lemma kinj s p p' : kinv s -> alive (k_st s p) = true -> alive (k_st s p') = true -> k_id s p = k_id s p' -> p = p'.
Proof. intros I A B E. destruct (kern_of s p I A) as (b & X). destruct (kern_of s p' I B) as (b' & Y). rewrite E in X. congruence. Qed.
Lemma kholder s t : kinv s -> kcs (k_pc s t) = true -> k_mtx s = Some t.
Proof. intros I H. now apply (ki_lock s I). Qed.
Lemma kcs_unique s t u : kinv s -> kcs (k_pc s t) = true -> kcs (k_pc s u) = true -> u = t.
Proof. intros I A B. apply (ki_lock s I) in A, B. congruence. Qed.

(** a task moves and the stage of its object may change *)
Lemma kinv_move s s' t q :
  kinv s -> t <> 0 -> k_pc s' = fupd (k_pc s) t q -> kwf q ->
  (kcs (k_pc s t) = false -> kcs q = true -> k_mtx s = None) ->
  k_mtx s' = (if kcs q then Some t else if kcs (k_pc s t) then None else k_mtx s) ->
  (forall p a, kob q = Some (p, a) -> k_st s' p = a) ->
  (forall p, (forall a, kob q <> Some (p, a)) -> (forall a, kob (k_pc s t) <> Some (p, a)) -> k_st s' p = k_st s p) ->
  (forall p a, kob q = Some (p, a) -> (exists b, kob (k_pc s t) = Some (p, b)) \/ k_st s p = SFree \/ k_st s p = SLive) ->
  (forall p a, kob (k_pc s t) = Some (p, a) -> (exists b, kob q = Some (p, b)) \/ k_st s' p = SFree \/ k_st s' p = SLive) ->
  (forall p, k_blk s' p = true <-> k_st s' p <> SFree) ->
  (forall p, k_st s' p <> SFree -> p < max) ->
  (forall i p, (exists b, k_kern s' i = Some (p, b)) <-> k_id s' p = i /\ alive (k_st s' p) = true) ->
  (forall p, alive (k_st s' p) = true -> k_id s' p <> 0) ->
  (forall p, k_st s' p = SMake -> k_id s' p = 0) ->
  (forall u p, In u (k_busy s' p) <-> at_obj (if u =? t then q else k_pc s u) = Some p) ->
  (forall p, k_st s p = SLive -> k_busy s p <> [] -> k_st s' p = SLive) ->
  (forall p, at_obj q = Some p -> k_st s' p = SLive) ->
  kinv s'.
Proof.
  intros I T0 EP WF LK EM S1 S2 S3 S4 BL LT KE PO MK BU AT AQ.
  assert (OT : forall u p a, u <> t -> kob (k_pc s u) = Some (p, a) -> (forall b, kob (k_pc s t) <> Some (p, b)) /\ (forall b, kob q <> Some (p, b))).
  { intros u p a N H. assert (A : forall b, kob (k_pc s t) <> Some (p, b)) by (intros b B; apply N; exact (ki_one s I _ _ _ _ _ H B)). split; [exact A|].
    intros b B. pose proof (ki_st s I _ _ _ H) as X. destruct (S3 p b B) as [(c & C)|[C|C]]; [now apply (A c)| |];
      destruct (k_pc s u) as [|[| | | | | |]| | | | | | | |[| | | |]| |[| | | |]]; cbn in H; try discriminate; injection H as -> <-; congruence. }
  constructor.
  - intros u. rewrite EP, EM, fupd_eq. destruct (Nat.eqb_spec u t) as [->|N].
    + destruct (kcs q) eqn:Q; [tauto|]. split; [discriminate|]. destruct (kcs (k_pc s t)) eqn:P; [discriminate|]. intros H. apply (ki_lock s I) in H. congruence.
    + rewrite (ki_lock s I). destruct (kcs q) eqn:Q.
      * destruct (kcs (k_pc s t)) eqn:P; [apply (ki_lock s I) in P; rewrite P; split; congruence|]. rewrite LK by auto. split; congruence.
      * destruct (kcs (k_pc s t)) eqn:P; [|tauto]. apply (ki_lock s I) in P. rewrite P. split; congruence.
  - intros u p a. rewrite EP, fupd_eq. destruct (Nat.eqb_spec u t) as [->|N]; [apply S1|]. intros H. destruct (OT u p a N H) as (A & B).
    rewrite S2 by assumption. exact (ki_st s I _ _ _ H).
  - intros u v p a b. rewrite EP, !fupd_eq. destruct (Nat.eqb_spec u t) as [->|N]; destruct (Nat.eqb_spec v t) as [->|N']; auto.
    + intros A B. destruct (OT v p b N' B) as (_ & X). now elim (X a).
    + intros A B. destruct (OT u p a N A) as (_ & X). now elim (X b).
    + apply (ki_one s I).
  - intros p.
    assert (G : (forall a, kob q <> Some (p, a)) -> (forall a, kob (k_pc s t) <> Some (p, a)) -> k_st s' p = SFree \/ k_st s' p = SLive \/ exists u a, kob (k_pc s' u) = Some (p, a)).
    { intros A B. rewrite S2 by assumption. destruct (ki_own s I p) as [C|[C|(u & c & C)]]; auto. right. right. exists u, c. rewrite EP, fupd_other; [exact C|]. intros ->. now elim (B c). }
    destruct (kob q) as [[y a]|] eqn:PQ.
    + destruct (Nat.eq_dec p y) as [->|N]; [right; right; exists t, a; now rewrite EP, fupd_same|].
      destruct (kob (k_pc s t)) as [[z b]|] eqn:PT; [|apply G; congruence].
      destruct (Nat.eq_dec p z) as [->|M]; [destruct (S4 z b eq_refl) as [(c & C)|[C|C]]; [congruence|auto|auto]|apply G; congruence].
    + destruct (kob (k_pc s t)) as [[z b]|] eqn:PT; [|apply G; congruence].
      destruct (Nat.eq_dec p z) as [->|M]; [destruct (S4 z b eq_refl) as [(c & C)|[C|C]]; [congruence|auto|auto]|apply G; congruence].
  - exact BL.
  - exact LT.
  - exact KE.
  - exact PO.
  - exact MK.
  - intros u p. rewrite EP, fupd_eq. apply BU.
  - intros u p. rewrite EP, fupd_eq. destruct (Nat.eqb_spec u t) as [->|N]; [apply AQ|]. intros H. apply AT; [now apply (ki_at s I u)|].
    apply (ki_busy s I) in H. intros X. now rewrite X in H.
  - intros u. rewrite EP, fupd_eq. destruct (Nat.eqb u t); [exact WF|apply (ki_wf s I)].
  - rewrite EP, fupd_other by auto. apply (ki_zero s I).
Qed.
(** kernel tables that hold the same objects *)
Definition same_objs (k k' : nat -> option (nat * bool)) : Prop := forall i p, (exists b, k' i = Some (p, b)) <-> (exists b, k i = Some (p, b)).
Lemma same_refl k : same_objs k k. Proof. now intros i p. Qed.
Lemma set_same k i b : same_objs k (k_set k i b).
Proof.
  intros j p. unfold k_set. destruct (k i) as [[x c]|] eqn:K; [|tauto]. rewrite fupd_eq. destruct (Nat.eqb_spec j i) as [->|N]; [|tauto].
  rewrite K. split; intros (y & H); injection H as -> _; eauto.
Qed.
Lemma dtor0 k : k_dtor k 0 = k. Proof. reflexivity. Qed.
Lemma kinv_same s s' t q :
  kinv s -> t <> 0 -> k_pc s' = fupd (k_pc s) t q -> kwf q ->
  (kcs (k_pc s t) = false -> kcs q = true -> k_mtx s = None) ->
  k_mtx s' = (if kcs q then Some t else if kcs (k_pc s t) then None else k_mtx s) ->
  k_id s' = k_id s -> same_objs (k_kern s) (k_kern s') -> k_blk s' = k_blk s -> k_st s' = k_st s ->
  kob q = kob (k_pc s t) ->
  (forall u p, In u (k_busy s' p) <-> at_obj (if u =? t then q else k_pc s u) = Some p) ->
  (forall p, at_obj q = Some p -> k_st s p = SLive) ->
  kinv s'.
Proof.
  intros I T0 EP WF LK EM E1 E2 E3 E4 PQ BU AQ.
  apply (kinv_move s s' t q I T0 EP WF LK EM); rewrite ?E1, ?E3, ?E4, ?PQ; auto.
  - apply (ki_st s I).
  - eauto.
  - eauto.
  - apply (ki_blk s I).
  - apply (ki_lt s I).
  - intros i p. rewrite (E2 i p). apply (ki_kern s I).
  - apply (ki_pos s I).
  - apply (ki_make s I).
Qed.
Lemma busy_same s t q : kinv s -> at_obj (k_pc s t) = None -> at_obj q = None -> forall u p, In u (k_busy s p) <-> at_obj (if u =? t then q else k_pc s u) = Some p.
Proof. intros I A B u p. rewrite (ki_busy s I). destruct (Nat.eqb_spec u t) as [->|N]; [|tauto]. rewrite A, B. tauto. Qed.

Ltac stg x y := destruct (Nat.eqb_spec y x) as [->|].
Variable timer : bool.

Lemma dtor_kern s p : kinv s -> k_st s p = SDying -> forall i y, (exists b, k_dtor (k_kern s) (k_id s p) i = Some (y, b)) <-> k_id s y = i /\ alive (k_st s y) = true /\ y <> p.
Proof.
  intros I ST i y. assert (P : k_id s p <> 0) by (apply (ki_pos s I); now rewrite ST). unfold k_dtor. rewrite (proj2 (Nat.ltb_lt _ _)) by lia. rewrite fupd_eq.
  destruct (Nat.eqb_spec i (k_id s p)) as [->|N].
  - split; [intros (b & H); discriminate|]. intros (A & B & C). elim C. apply (kinj s); auto. now rewrite ST.
  - rewrite (ki_kern s I). split; [intros (A & B); repeat split; auto; congruence|tauto].
Qed.
Lemma kinv_task s l s' e : kinv s -> k_task max timer s l = Some (s', e) -> kinv s'.
Proof.
  intros I E. pose proof (ki_zero s I) as Z0. destruct l as [t c|t|t p|t i|i|b]; cbn beta iota delta [k_task] in E; try discriminate.
  - destruct (k_pc s t) eqn:ET; try discriminate. destruct (Nat.ltb_spec 0 t) as [T0|T0]; [|discriminate].
    assert (AT : forall c p, on_obj c = Some p -> k_st s p = SLive ->
      kinv (mkK (k_id s) (k_kern s) (k_blk s) (k_mtx s) (k_cb s) (k_st s) (fupd (k_busy s) p (t :: k_busy s p)) (fupd (k_pc s) t (KAt c)))).
    { intros c' p O ST. eapply (kinv_same s _ t); [exact I|lia|reflexivity|cbn; congruence|..]; rewrite ?ET; cbn; auto using same_refl; try discriminate.
      - intros u y. rewrite fupd_eq. stg p y.
        + cbn. destruct (Nat.eqb_spec u t) as [->|N]; [cbn; tauto|]. rewrite (ki_busy s I). split; [intros [H|H]; congruence|auto].
        + rewrite (ki_busy s I). destruct (Nat.eqb_spec u t) as [->|N]; [|tauto]. rewrite ET. cbn. split; congruence.
      - congruence. }
    destruct c as [|p|p|p|p|p|p]; try discriminate.
    + injection E as <- <-. eapply (kinv_same s _ t); [exact I|lia|reflexivity|exact Logic.I|..]; rewrite ?ET; cbn; auto using same_refl; try discriminate.
      now apply (busy_same s t (KLock OCreate) I); [rewrite ET|].
    + destruct (k_st s p) eqn:ST; try discriminate. cbn in E. destruct (k_busy s p) eqn:BP; [|discriminate]. injection E as <- <-.
      assert (KQ : forall q, q = (if timer then KStp p else KLock (ODestroy p)) -> kob q = Some (p, SDying) /\ kcs q = false /\ kwf q /\ at_obj q = None)
        by (intros q ->; destruct timer; cbn; auto).
      set (q := if timer then KStp p else KLock (ODestroy p)) in *. destruct (KQ q eq_refl) as (Q1 & Q2 & Q3 & Q4). clearbody q.
      eapply (kinv_move s _ t q); [exact I|lia|reflexivity|exact Q3|..]; rewrite ?ET, ?Q1, ?Q2; cbn; auto; try discriminate.
      * intros y a [= <- <-]. apply fupd_same.
      * intros y H _. apply fupd_other. intros ->. now apply (H SDying).
      * intros y a [= <- <-]. auto.
      * intros y. rewrite (ki_blk s I), fupd_eq. stg p y; [rewrite ST; split; discriminate|tauto].
      * intros y. rewrite fupd_eq. stg p y; [intros _; apply (ki_lt s I); rewrite ST; discriminate|apply (ki_lt s I)].
      * intros i y. rewrite (ki_kern s I), fupd_eq. stg p y; [rewrite ST; tauto|tauto].
      * intros y. rewrite fupd_eq. stg p y; [intros _; apply (ki_pos s I); now rewrite ST|apply (ki_pos s I)].
      * intros y. rewrite fupd_eq. stg p y; [discriminate|apply (ki_make s I)].
      * apply (busy_same s t q I); [now rewrite ET|exact Q4].
      * intros y H N. rewrite fupd_eq. stg p y; [congruence|exact H].
      * intros y. rewrite Q4. discriminate.
    + destruct timer; cbn in E; [|discriminate]. destruct (k_st s p) eqn:ST; try discriminate. injection E as <- <-. now apply AT.
    + destruct timer; cbn in E; [|discriminate]. destruct (k_st s p) eqn:ST; try discriminate. injection E as <- <-. now apply AT.
    + destruct timer; cbn in E; [|discriminate]. destruct (k_st s p) eqn:ST; try discriminate. injection E as <- <-. now apply AT.
  - assert (T0 : k_pc s t <> KIdle -> t <> 0) by (intros H ->; auto).
    pose proof (ki_wf s I t) as WF.
    destruct (k_pc s t) as [|c| |p|p|p|p|p|p|r|c|r] eqn:ET; try discriminate; specialize (T0 ltac:(discriminate)).
    + (* lock *)
      destruct (k_mtx s) eqn:M; [discriminate|]. injection E as <- <-. destruct c; cbn in WF; try tauto.
      * eapply (kinv_same s _ t); [exact I|exact T0|reflexivity|exact Logic.I|..]; rewrite ?ET; cbn; auto using same_refl; try discriminate.
        now apply (busy_same s t KGet I); [rewrite ET|].
      * eapply (kinv_same s _ t); [exact I|exact T0|reflexivity|exact Logic.I|..]; rewrite ?ET; cbn; auto using same_refl; try discriminate.
        now apply (busy_same s t (KDel p) I); [rewrite ET|].
    + (* no block *)
      destruct (k_free max s); [discriminate|]. injection E as <- <-.
      eapply (kinv_same s _ t); [exact I|exact T0|reflexivity|exact Logic.I|..]; rewrite ?ET; cbn; auto using same_refl; try discriminate.
      * apply kholder; [exact I|now rewrite ET].
      * now apply (busy_same s t (KUnl ONoRoom) I); [rewrite ET|].
    + (* destructor of an object that was not created *)
      injection E as <- <-. assert (ST : k_st s p = SMake) by (apply (ki_st s I t); now rewrite ET).
      eapply (kinv_same s _ t); [exact I|exact T0|reflexivity|exact Logic.I|..]; rewrite ?ET; cbn; auto using same_refl; try discriminate.
      * apply kholder; [exact I|now rewrite ET].
      * rewrite (ki_make s I p ST). apply same_refl.
      * now apply (busy_same s t (KRelF p) I); [rewrite ET|].
    + (* its block *)
      injection E as <- <-. assert (ST : k_st s p = SMake) by (apply (ki_st s I t); now rewrite ET).
      eapply (kinv_move s _ t (KUnl ORefused)); [exact I|exact T0|reflexivity|exact Logic.I|..]; rewrite ?ET; cbn; auto; try discriminate.
      * apply kholder; [exact I|now rewrite ET].
      * intros y _ H. apply fupd_other. intros ->. now apply (H SMake).
      * intros y a [= <- <-]. right. left. apply fupd_same.
      * intros y. rewrite !fupd_eq. stg p y; [split; congruence|apply (ki_blk s I)].
      * intros y. rewrite fupd_eq. stg p y; [congruence|apply (ki_lt s I)].
      * intros i y. rewrite (ki_kern s I), fupd_eq. stg p y; [rewrite ST; tauto|tauto].
      * intros y. rewrite fupd_eq. stg p y; [discriminate|apply (ki_pos s I)].
      * intros y. rewrite fupd_eq. stg p y; [discriminate|apply (ki_make s I)].
      * now apply (busy_same s t (KUnl ORefused) I); [rewrite ET|].
      * intros y H _. rewrite fupd_eq. stg p y; [congruence|exact H].
    + (* stop *)
      injection E as <- <-. eapply (kinv_same s _ t); [exact I|exact T0|reflexivity|exact Logic.I|..]; rewrite ?ET; cbn; auto using set_same; try discriminate.
      now apply (busy_same s t (KLock (ODestroy p)) I); [rewrite ET|].
    + (* destructor *)
      injection E as <- <-. assert (ST : k_st s p = SDying) by (apply (ki_st s I t); now rewrite ET).
      eapply (kinv_move s _ t (KRel p)); [exact I|exact T0|reflexivity|exact Logic.I|..]; rewrite ?ET; cbn; auto; try discriminate.
      * apply kholder; [exact I|now rewrite ET].
      * intros y a [= <- <-]. apply fupd_same.
      * intros y H _. apply fupd_other. intros ->. now apply (H SGone).
      * intros y a [= <- <-]. eauto.
      * intros y a [= <- <-]. eauto.
      * intros y. rewrite (ki_blk s I), fupd_eq. stg p y; [rewrite ST; split; discriminate|tauto].
      * intros y. rewrite fupd_eq. stg p y; [intros _; apply (ki_lt s I); rewrite ST; discriminate|apply (ki_lt s I)].
      * intros i y. rewrite (dtor_kern s p I ST), fupd_eq. stg p y; [|tauto]. split; [tauto|]. intros (_ & H). discriminate.
      * intros y. rewrite fupd_eq. stg p y; [discriminate|apply (ki_pos s I)].
      * intros y. rewrite fupd_eq. stg p y; [discriminate|apply (ki_make s I)].
      * now apply (busy_same s t (KRel p) I); [rewrite ET|].
      * intros y H _. rewrite fupd_eq. stg p y; [congruence|exact H].
    + (* block *)
      injection E as <- <-. assert (ST : k_st s p = SGone) by (apply (ki_st s I t); now rewrite ET).
      eapply (kinv_move s _ t (KUnl OVoid)); [exact I|exact T0|reflexivity|exact Logic.I|..]; rewrite ?ET; cbn; auto; try discriminate.
      * apply kholder; [exact I|now rewrite ET].
      * intros y _ H. apply fupd_other. intros ->. now apply (H SGone).
      * intros y a [= <- <-]. right. left. apply fupd_same.
      * intros y. rewrite !fupd_eq. stg p y; [split; congruence|apply (ki_blk s I)].
      * intros y. rewrite fupd_eq. stg p y; [congruence|apply (ki_lt s I)].
      * intros i y. rewrite (ki_kern s I), fupd_eq. stg p y; [rewrite ST; tauto|tauto].
      * intros y. rewrite fupd_eq. stg p y; [discriminate|apply (ki_pos s I)].
      * intros y. rewrite fupd_eq. stg p y; [discriminate|apply (ki_make s I)].
      * now apply (busy_same s t (KUnl OVoid) I); [rewrite ET|].
      * intros y H _. rewrite fupd_eq. stg p y; [congruence|exact H].
    + (* unlock *)
      injection E as <- <-. eapply (kinv_same s _ t (KRet r)); [exact I|exact T0|reflexivity|exact Logic.I|..]; rewrite ?ET; cbn; auto using same_refl; try discriminate.
      now apply (busy_same s t (KRet r) I); [rewrite ET|].
    + (* start, stop, isStarted *)
      destruct (on_obj c) as [p|] eqn:O; [|discriminate]. injection E as <- <-.
      assert (RT : kob (KRet (match c with OIsStarted _ => OBool (match k_kern s (k_id s p) with Some (_, b) => b | None => false end) | _ => OVoid end)) = None) by now destruct c.
      eapply (kinv_same s _ t); [exact I|exact T0|reflexivity|exact Logic.I|..]; rewrite ?ET; cbn; auto using same_refl; try discriminate.
      * destruct c; auto using same_refl, set_same.
      * intros u y. rewrite fupd_eq. stg p y.
        -- rewrite filter_In, (ki_busy s I). destruct (Nat.eqb_spec u t) as [->|N]; cbn; [split; [intros (_ & H); discriminate|discriminate]|tauto].
        -- rewrite (ki_busy s I). destruct (Nat.eqb_spec u t) as [->|N]; [|tauto]. rewrite ET. cbn. split; congruence.
    + (* return *)
      injection E as <- <-. destruct r as [p| | | |b];
        try (eapply (kinv_same s _ t KIdle); [exact I|exact T0|reflexivity|exact Logic.I|..]; rewrite ?ET; cbn; auto using same_refl; try discriminate; now apply (busy_same s t KIdle I); [rewrite ET|]).
      assert (ST : k_st s p = SMade) by (apply (ki_st s I t); now rewrite ET).
      eapply (kinv_move s _ t KIdle); [exact I|exact T0|reflexivity|exact Logic.I|..]; rewrite ?ET; cbn; auto; try discriminate.
      * intros y _ H. apply fupd_other. intros ->. now apply (H SMade).
      * intros y a [= <- <-]. right. right. apply fupd_same.
      * intros y. rewrite (ki_blk s I), fupd_eq. stg p y; [rewrite ST; split; discriminate|tauto].
      * intros y. rewrite fupd_eq. stg p y; [intros _; apply (ki_lt s I); rewrite ST; discriminate|apply (ki_lt s I)].
      * intros i y. rewrite (ki_kern s I), fupd_eq. stg p y; [rewrite ST; tauto|tauto].
      * intros y. rewrite fupd_eq. stg p y; [intros _; apply (ki_pos s I); now rewrite ST|apply (ki_pos s I)].
      * intros y. rewrite fupd_eq. stg p y; [discriminate|apply (ki_make s I)].
      * now apply (busy_same s t KIdle I); [rewrite ET|].
      * intros y H _. rewrite fupd_eq. stg p y; auto.
  - (* a block *)
    destruct (k_pc s t) eqn:ET; try discriminate. destruct (Nat.ltb_spec p max) as [LM|]; [|discriminate]. destruct (k_blk s p) eqn:BP; [discriminate|]. cbn in E. injection E as <- <-.
    assert (T0 : t <> 0) by (intros ->; congruence).
    assert (ST : k_st s p = SFree). { destruct (k_st s p) eqn:S; try reflexivity; (assert (X : k_blk s p = true) by (apply (ki_blk s I); rewrite S; discriminate); congruence). }
    eapply (kinv_move s _ t (KAcre p)); [exact I|exact T0|reflexivity|exact Logic.I|..]; rewrite ?ET; cbn; auto; try discriminate.
    + apply kholder; [exact I|now rewrite ET].
    + intros y a [= <- <-]. apply fupd_same.
    + intros y H _. apply fupd_other. intros ->. now apply (H SMake).
    + intros y a [= <- <-]. auto.
    + intros y. rewrite !fupd_eq. stg p y; [split; congruence|apply (ki_blk s I)].
    + intros y. rewrite fupd_eq. stg p y; [auto|apply (ki_lt s I)].
    + intros i y. rewrite (ki_kern s I), !fupd_eq. stg p y; [rewrite ST; cbn; split; intros (_ & H); discriminate|tauto].
    + intros y. rewrite !fupd_eq. stg p y; [discriminate|apply (ki_pos s I)].
    + intros y. rewrite !fupd_eq. stg p y; [auto|apply (ki_make s I)].
    + now apply (busy_same s t (KAcre p) I); [rewrite ET|].
    + intros y H _. rewrite fupd_eq. stg p y; [congruence|exact H].
  - (* the kernel object *)
    destruct (k_pc s t) as [|c| |p|p|p|p|p|p|r|c|r] eqn:ET; try discriminate. assert (T0 : t <> 0) by (intros ->; congruence).
    assert (ST : k_st s p = SMake) by (apply (ki_st s I t); now rewrite ET).
    destruct (Nat.eqb_spec i 0) as [->|NI].
    + injection E as <- <-. eapply (kinv_same s _ t (KDtorF p)); [exact I|exact T0|reflexivity|exact Logic.I|..]; rewrite ?ET; cbn; auto using same_refl; try discriminate.
      * apply kholder; [exact I|now rewrite ET].
      * now apply (busy_same s t (KDtorF p) I); [rewrite ET|].
    + destruct (k_kern s i) eqn:KI; [discriminate|]. injection E as <- <-.
      eapply (kinv_move s _ t (KUnl (OObj p))); [exact I|exact T0|reflexivity|exact Logic.I|..]; rewrite ?ET; cbn; auto; try discriminate.
      * apply kholder; [exact I|now rewrite ET].
      * intros y a [= <- <-]. apply fupd_same.
      * intros y H _. apply fupd_other. intros ->. now apply (H SMade).
      * intros y a [= <- <-]. eauto.
      * intros y a [= <- <-]. eauto.
      * intros y. rewrite (ki_blk s I), !fupd_eq. stg p y; [rewrite ST; split; discriminate|tauto].
      * intros y. rewrite fupd_eq. stg p y; [intros _; apply (ki_lt s I); rewrite ST; discriminate|apply (ki_lt s I)].
      * intros j y. rewrite !fupd_eq. destruct (Nat.eqb_spec j i) as [->|N].
        -- stg p y; [split; [tauto|eauto]|]. split; [intros (b & H); congruence|]. intros H. apply (ki_kern s I) in H. destruct H as (b & H). congruence.
        -- rewrite (ki_kern s I). stg p y; [rewrite ST; cbn; split; [intros (_ & H); discriminate|intros (H & _); congruence]|tauto].
      * intros y. rewrite !fupd_eq. stg p y; [auto|apply (ki_pos s I)].
      * intros y. rewrite !fupd_eq. stg p y; [discriminate|apply (ki_make s I)].
      * now apply (busy_same s t (KUnl (OObj p)) I); [rewrite ET|].
      * intros y H _. rewrite fupd_eq. stg p y; [congruence|exact H].
Qed.
Variable smp : bool.
Lemma kinv_step s l s' e : kinv s -> k_step max timer smp s l = Some (s', e) -> kinv s'.
Proof.
  intros I E. assert (T : forall l0, (match k_cb s with Some _ => if smp then k_task max timer s l0 else None | None => k_task max timer s l0 end) = Some (s', e) -> kinv s').
  { intros l0 H. apply (kinv_task s l0 s' e I). destruct (k_cb s); [destruct smp; [exact H|discriminate]|exact H]. }
  destruct l as [t c|t|t p|t i|i|b]; cbn beta iota delta [k_step] in E; try exact (T _ E).
  - destruct (k_cb s); [discriminate|]. destruct (k_kern s i) as [[p [|]]|]; try discriminate. injection E as <- <-. destruct I. constructor; assumption.
  - destruct (k_cb s) as [p|]; [|discriminate]. destruct b; injection E as <- <-.
    + destruct I as [A B C D E F G H J K L M N]. constructor; try assumption. cbn. intros i y. rewrite (set_same (k_kern s) (k_id s p) false i y). apply G.
    + destruct I. constructor; assumption.
Qed.
Lemma kinv_exec ls s es : exec (k_step max timer smp) k_init ls = Some (s, es) -> kinv s.
Proof. exact (exec_inv_st _ _ _ (k_step max timer smp) kinv kinv_step ls k_init s es kinv_init). Qed.


(** * linearizability *)
Definition bit (s : kst) (p : nat) : bool := match k_kern s (k_id s p) with Some (_, b) => b | None => false end.
(** the specification's objects: once destroy was called the timer is stopped before the call takes effect *)
Definition krel (a : ostate) (s : kst) : Prop := forall p,
  if alive (k_st s p) then exists b, a p = Some b /\ (bit s p = true -> b = true) /\ (k_st s p <> SDying -> b = bit s p) else a p = None.
Definition kst_of (q : kpc) : status ocall ores :=
  match q with
  | KIdle => Out
  | KLock c | KAt c => Pending c
  | KGet | KAcre _ | KDtorF _ | KRelF _ => Pending OCreate
  | KStp p | KDel p => Pending (ODestroy p)
  | KRel _ => Done OVoid
  | KUnl r | KRet r => Done r
  end.
Definition kstof (s : kst) (t : nat) : status ocall ores := kst_of (k_pc s t).
Definition klin (s : kst) (es : kout) : Prop :=
  exists f a, lin_run (ospec max) (fun _ => Out) o_none es f a /\ (forall t, f t = kstof s t) /\ krel a s.

Lemma klin_nil s es s' : klin s es -> (forall a, krel a s -> krel a s') -> (forall u, kstof s' u = kstof s u) -> klin s' (es ++ []).
Proof. intros (f & a & L & F & A) P S. rewrite app_nil_r. exists f, a. split; [exact L|]. split; [intros u; now rewrite S|auto]. Qed.
Lemma klin_call s es s' t c : klin s es -> (forall a, krel a s -> krel a s') -> kstof s t = Out ->
  (forall u, kstof s' u = if Nat.eqb u t then Pending c else kstof s u) -> klin s' (es ++ [Call t c]).
Proof.
  intros (f & a & L & F & A) P O S. exists (set_st f t (Pending c)), a. split.
  - apply (lin_run_app _ _ _ _ _ _ _ _ _ _ _ _ L). constructor; [now rewrite F|constructor].
  - split; [intros u; unfold set_st; rewrite S; destruct (Nat.eqb u t); auto|auto].
Qed.
Lemma klin_eff s es s' t c r : klin s es -> kstof s t = Pending c -> (forall a, krel a s -> exists a', ospec max a t c r a' /\ krel a' s') ->
  (forall u, kstof s' u = if Nat.eqb u t then Done r else kstof s u) -> klin s' (es ++ [Eff t c r]).
Proof.
  intros (f & a & L & F & A) O H S. destruct (H a A) as (a' & H1 & H2). exists (set_st f t (Done r)), a'. split.
  - apply (lin_run_app _ _ _ _ _ _ _ _ _ _ _ _ L). econstructor; [now rewrite F|exact H1|constructor].
  - split; [intros u; unfold set_st; rewrite S; destruct (Nat.eqb u t); auto|exact H2].
Qed.
Lemma klin_ret s es s' t r : klin s es -> (forall a, krel a s -> krel a s') -> kstof s t = Done r ->
  (forall u, kstof s' u = if Nat.eqb u t then Out else kstof s u) -> klin s' (es ++ [Ret t r]).
Proof.
  intros (f & a & L & F & A) P O S. exists (set_st f t Out), a. split.
  - apply (lin_run_app _ _ _ _ _ _ _ _ _ _ _ _ L). constructor; [now rewrite F|constructor].
  - split; [intros u; unfold set_st; rewrite S; destruct (Nat.eqb u t); auto|auto].
Qed.
Lemma klin_act s es s' c : kinv s -> klin s es -> k_pc s' = k_pc s -> (forall a, krel a s -> exists a', ospec max a 0 c OVoid a' /\ krel a' s') -> klin s' (es ++ k_act c).
Proof.
  intros I (f & a & L & F & A) PC H. destruct (H a A) as (a' & H1 & H2). exists (set_st (set_st (set_st f 0 (Pending c)) 0 (Done OVoid)) 0 Out), a'. split.
  - apply (lin_run_app _ _ _ _ _ _ _ _ _ _ _ _ L). unfold k_act. constructor; [rewrite F; unfold kstof; now rewrite (ki_zero s I)|].
    econstructor; [unfold set_st; reflexivity|exact H1|]. constructor; [reflexivity|]. constructor.
  - split; [|exact H2]. intros u. unfold set_st, kstof. rewrite PC. destruct (Nat.eqb_spec u 0) as [->|N]; [now rewrite (ki_zero s I)|apply F].
Qed.
Lemma kstof_upd s s' t q x u : k_pc s' = fupd (k_pc s) t q -> kst_of q = x -> kstof s' u = if Nat.eqb u t then x else kstof s u.
Proof. intros H <-. unfold kstof. rewrite H, fupd_eq. now destruct (Nat.eqb u t). Qed.
Lemma kstof_same s s' t q u : k_pc s' = fupd (k_pc s) t q -> kstof s t = kst_of q -> kstof s' u = kstof s u.
Proof. intros H E. rewrite (kstof_upd s s' t q (kst_of q) u H eq_refl). destruct (Nat.eqb_spec u t) as [->|]; [now rewrite E|reflexivity]. Qed.

(** changes that the specification does not see *)
Lemma krel_same a s s' : (forall p, alive (k_st s' p) = alive (k_st s p)) ->
  (forall p, alive (k_st s p) = true -> bit s' p = bit s p \/ bit s' p = false /\ k_st s' p = SDying) ->
  (forall p, k_st s p = SDying -> k_st s' p = SDying) -> krel a s -> krel a s'.
Proof.
  intros A B C R p. specialize (R p). rewrite A. destruct (alive (k_st s p)) eqn:AL; [|exact R]. destruct R as (b & R1 & R2 & R3). exists b. split; [exact R1|].
  destruct (B p AL) as [X|(X & Y)]; rewrite X.
  - split; [exact R2|]. intros N. apply R3. intros Z. apply N. now apply C.
  - split; [discriminate|]. intros N. congruence.
Qed.
Lemma bit_set s s' p b : kinv s -> alive (k_st s p) = true -> k_id s' = k_id s -> k_kern s' = k_set (k_kern s) (k_id s p) b ->
  forall y, alive (k_st s y) = true -> bit s' y = if y =? p then b else bit s y.
Proof.
  intros I A EI EK y Y. unfold bit. rewrite EI, EK. unfold k_set. destruct (kern_of s p I A) as (c & K). rewrite K, fupd_eq. destruct (Nat.eqb_spec y p) as [->|N].
  - now rewrite Nat.eqb_refl.
  - destruct (Nat.eqb_spec (k_id s y) (k_id s p)) as [X|X]; [|reflexivity]. elim N. now apply (kinj s).
Qed.
Lemma oset_eq f p x y : oset f p x y = if y =? p then x else f y. Proof. reflexivity. Qed.
(** the started bit of an object set, in both *)
Lemma krel_set s s' a p b : kinv s -> krel a s -> alive (k_st s p) = true -> k_id s' = k_id s -> k_kern s' = k_set (k_kern s) (k_id s p) b -> k_st s' = k_st s ->
  krel (oset a p (Some b)) s'.
Proof.
  intros I R A EI EK ES y. specialize (R y). rewrite ES. destruct (alive (k_st s y)) eqn:Y.
  - rewrite (bit_set s s' p b I A EI EK y Y), oset_eq. destruct (Nat.eqb_spec y p) as [->|N]; [eauto|exact R].
  - rewrite oset_eq. destruct (Nat.eqb_spec y p) as [->|N]; [congruence|exact R].
Qed.
Lemma krel_some a s p : krel a s -> alive (k_st s p) = true -> a p <> None.
Proof. intros R A. specialize (R p). rewrite A in R. destruct R as (b & -> & _). discriminate. Qed.

(** the callback *)
Definition kcb (s : kst) : Prop := forall p, k_cb s = Some p -> alive (k_st s p) = true /\ k_kern s (k_id s p) = Some (p, true).
Lemma task_cb s l s' e : k_task max timer s l = Some (s', e) -> k_cb s' = k_cb s.
Proof.
  intros E. destruct l as [t c|t|t p|t i|i|b]; cbn beta iota delta [k_task] in E; try discriminate.
  - destruct (k_pc s t); try discriminate. destruct (0 <? t); [|discriminate]. destruct c; try discriminate; try (destruct (_ && _); [|discriminate]); now injection E as <- <-.
  - destruct (k_pc s t) as [|c| |p|p|p|p|p|p|r|c|r]; try discriminate.
    + destruct (k_mtx s); [discriminate|]. now injection E as <- <-.
    + destruct (k_free max s); [discriminate|]. now injection E as <- <-.
    + now injection E as <- <-.
    + now injection E as <- <-.
    + now injection E as <- <-.
    + now injection E as <- <-.
    + now injection E as <- <-.
    + now injection E as <- <-.
    + destruct (on_obj c); [|discriminate]. now injection E as <- <-.
    + now injection E as <- <-.
  - destruct (k_pc s t); try discriminate. destruct (_ && _); [|discriminate]. now injection E as <- <-.
  - destruct (k_pc s t); try discriminate. destruct (i =? 0); [now injection E as <- <-|]. destruct (k_kern s i); [discriminate|]. now injection E as <- <-.
Qed.

Lemma klin_task s es l s' e : kinv s -> k_cb s = None -> klin s es -> k_task max timer s l = Some (s', e) -> klin s' (es ++ e).
Proof.
  intros I CB L E. destruct l as [t c|t|t p|t i|i|b]; cbn beta iota delta [k_task] in E; try discriminate.
  - destruct (k_pc s t) eqn:ET; try discriminate. destruct (Nat.ltb_spec 0 t) as [T0|T0]; [|discriminate].
    assert (O : kstof s t = Out) by (unfold kstof; now rewrite ET).
    destruct c as [|p|p|p|p|p|p]; try discriminate.
    + injection E as <- <-. apply (klin_call s); [exact L|auto|exact O|intros u; eapply kstof_upd; reflexivity].
    + destruct (k_st s p) eqn:ST; try discriminate. cbn in E. destruct (k_busy s p) eqn:BP; [|discriminate]. injection E as <- <-.
      apply (klin_call s); [exact L| |exact O|intros u; eapply kstof_upd; [reflexivity|now destruct timer]].
      intros a. apply krel_same; cbn.
      * intros y. rewrite fupd_eq. stg p y; [now rewrite ST|reflexivity].
      * intros y _. now left.
      * intros y. rewrite fupd_eq. stg p y; auto.
    + destruct (_ && _); [|discriminate]. injection E as <- <-. apply (klin_call s); [exact L|auto|exact O|intros u; eapply kstof_upd; reflexivity].
    + destruct (_ && _); [|discriminate]. injection E as <- <-. apply (klin_call s); [exact L|auto|exact O|intros u; eapply kstof_upd; reflexivity].
    + destruct (_ && _); [|discriminate]. injection E as <- <-. apply (klin_call s); [exact L|auto|exact O|intros u; eapply kstof_upd; reflexivity].
  - pose proof (ki_wf s I t) as WF. pose proof (ki_st s I t) as STG. pose proof (kcs_unique s t) as UNI.
    destruct (k_pc s t) as [|c| |p|p|p|p|p|p|r|c|r] eqn:ET; try discriminate.
    + destruct (k_mtx s) eqn:M; [discriminate|]. injection E as <- <-. apply (klin_nil s); [exact L|auto|].
      intros u. destruct c; cbn in WF; try tauto; (eapply kstof_same; [reflexivity|unfold kstof; now rewrite ET]).
    + (* no block: under the lock, every block belongs to an object *)
      destruct (k_free max s) eqn:FR; [discriminate|]. injection E as <- <-.
      apply (klin_eff s); [exact L|unfold kstof; now rewrite ET| |intros u; eapply kstof_upd; reflexivity].
      intros a R. exists a. split; [|exact R]. cbn. split; [|now intros p]. intros p P.
      apply (krel_some a s p R).
      assert (B : k_blk s p = true).
      { destruct (k_blk s p) eqn:B; [reflexivity|]. assert (X : k_free max s = true); [|congruence]. apply existsb_exists. exists p. rewrite B. split; [apply in_seq; lia|reflexivity]. }
      apply (ki_blk s I) in B. destruct (ki_own s I p) as [X|[X|(u & b & X)]]; [contradiction|now rewrite X|].
      pose proof (ki_st s I _ _ _ X) as Y. destruct (kcs (k_pc s u)) eqn:CS.
      * assert (u = t) by (apply UNI; auto). subst u. rewrite ET in X. discriminate.
      * destruct (k_pc s u) as [|[| | | | | |]| | | | | | | |[| | | |]| |[| | | |]]; cbn in X, CS; try discriminate; injection X as _ <-; now rewrite Y.
    + (* nothing was created *)
      injection E as <- <-. specialize (STG p SMake eq_refl). apply (klin_nil s); [exact L| |intros u; eapply kstof_same; [reflexivity|unfold kstof; now rewrite ET]].
      intros a. cbn. rewrite (ki_make s I p STG). apply krel_same; auto.
    + injection E as <- <-. specialize (STG p SMake eq_refl).
      apply (klin_eff s); [exact L|unfold kstof; now rewrite ET| |intros u; eapply kstof_upd; reflexivity].
      intros a R. exists a. split.
      * cbn. split; [|now intros q]. exists p. split; [apply (ki_lt s I); rewrite STG; discriminate|]. specialize (R p). now rewrite STG in R.
      * revert R. apply krel_same; cbn.
        -- intros y. rewrite fupd_eq. stg p y; [now rewrite STG|reflexivity].
        -- intros y _. now left.
        -- intros y. rewrite fupd_eq. stg p y; [congruence|auto].
    + (* stop in destroy *)
      injection E as <- <-. specialize (STG p SDying eq_refl). apply (klin_nil s); [exact L| |intros u; eapply kstof_same; [reflexivity|unfold kstof; now rewrite ET]].
      intros a. apply krel_same; auto. intros y Y. rewrite (bit_set s _ p false I); auto; [|now rewrite STG]. stg p y; auto.
    + injection E as <- <-. specialize (STG p SDying eq_refl).
      apply (klin_eff s); [exact L|unfold kstof; now rewrite ET| |intros u; eapply kstof_upd; reflexivity].
      intros a R. exists (oset a p None). split.
      * cbn. split; [reflexivity|]. split; [apply (krel_some a s p R); now rewrite STG|now intros q].
      * intros y. cbn. rewrite fupd_eq, oset_eq. stg p y; [reflexivity|]. specialize (R y). destruct (alive (k_st s y)) eqn:Y; [|exact R].
        enough (X : bit s y = match k_dtor (k_kern s) (k_id s p) (k_id s y) with Some (_, b) => b | None => false end) by (unfold bit in *; cbn; now rewrite <- X).
        unfold bit, k_dtor. destruct (0 <? k_id s p); [|reflexivity]. rewrite fupd_other; [reflexivity|]. intros X. apply n. apply (kinj s); auto. now rewrite STG.
    + injection E as <- <-. specialize (STG p SGone eq_refl). apply (klin_nil s); [exact L| |intros u; eapply kstof_same; [reflexivity|unfold kstof; now rewrite ET]].
      intros a. apply krel_same; cbn.
      * intros y. rewrite fupd_eq. stg p y; [now rewrite STG|reflexivity].
      * intros y _. now left.
      * intros y. rewrite fupd_eq. stg p y; [congruence|auto].
    + injection E as <- <-. apply (klin_nil s); [exact L|auto|intros u; eapply kstof_same; [reflexivity|unfold kstof; now rewrite ET]].
    + (* start, stop, isStarted *)
      destruct (on_obj c) as [p|] eqn:O; [|discriminate]. injection E as <- <-.
      assert (ST : k_st s p = SLive) by (apply (ki_at s I t); rewrite ET; exact O). assert (A : alive (k_st s p) = true) by now rewrite ST.
      apply (klin_eff s); [exact L|unfold kstof; now rewrite ET| |intros u; eapply kstof_upd; reflexivity].
      intros a R. destruct c as [|p'|p'|p'|p'|p'|p']; cbn in O; try discriminate; injection O as ->.
      * exists (oset a p (Some true)). split; [|now apply (krel_set s)]. cbn. split; [reflexivity|]. split; [now apply (krel_some a s)|now intros q].
      * exists (oset a p (Some false)). split; [|now apply (krel_set s)]. cbn. split; [reflexivity|]. split; [now apply (krel_some a s)|now intros q].
      * exists a. split; [|exact R]. cbn. split; [|now intros q]. specialize (R p). rewrite A in R. destruct R as (b & R1 & _ & R2). exists b. split; [exact R1|].
        rewrite R2 by (rewrite ST; discriminate). reflexivity.
    + injection E as <- <-. apply (klin_ret s); [exact L| |unfold kstof; now rewrite ET|intros u; eapply kstof_upd; reflexivity].
      destruct r as [p| | | |b]; auto. specialize (STG p SMade eq_refl). intros a. apply krel_same; cbn.
      * intros y. rewrite fupd_eq. stg p y; [now rewrite STG|reflexivity].
      * intros y _. now left.
      * intros y. rewrite fupd_eq. stg p y; [congruence|auto].
  - destruct (k_pc s t) eqn:ET; try discriminate. destruct (Nat.ltb_spec p max) as [LM|]; [|discriminate]. destruct (k_blk s p) eqn:BP; [discriminate|]. cbn in E. injection E as <- <-.
    assert (ST : k_st s p = SFree). { destruct (k_st s p) eqn:S; try reflexivity; (assert (X : k_blk s p = true) by (apply (ki_blk s I); rewrite S; discriminate); congruence). }
    apply (klin_nil s); [exact L| |intros u; eapply kstof_same; [reflexivity|unfold kstof; now rewrite ET]].
    intros a. apply krel_same; cbn.
    + intros y. rewrite fupd_eq. stg p y; [now rewrite ST|reflexivity].
    + intros y Y. left. unfold bit. cbn. rewrite fupd_eq. stg p y; [rewrite ST in Y; discriminate|reflexivity].
    + intros y. rewrite fupd_eq. stg p y; [congruence|auto].
  - destruct (k_pc s t) as [|c| |p|p|p|p|p|p|r|c|r] eqn:ET; try discriminate.
    assert (ST : k_st s p = SMake) by (apply (ki_st s I t); now rewrite ET).
    destruct (Nat.eqb_spec i 0) as [->|NI].
    + injection E as <- <-. apply (klin_nil s); [exact L|auto|intros u; eapply kstof_same; [reflexivity|unfold kstof; now rewrite ET]].
    + destruct (k_kern s i) eqn:KI; [discriminate|]. injection E as <- <-.
      apply (klin_eff s); [exact L|unfold kstof; now rewrite ET| |intros u; eapply kstof_upd; reflexivity].
      intros a R. exists (oset a p (Some false)). split.
      * cbn. split; [apply (ki_lt s I); rewrite ST; discriminate|]. split; [specialize (R p); now rewrite ST in R|now intros q].
      * intros y. unfold bit. cbn. rewrite !fupd_eq, oset_eq. stg p y; [cbn; rewrite Nat.eqb_refl; exists false; auto|].
        specialize (R y). destruct (alive (k_st s y)) eqn:Y; [|exact R]. unfold bit in R. destruct (Nat.eqb_spec (k_id s y) i) as [X|X]; [|exact R].
        destruct (kern_of s y I Y) as (b & K). congruence.
Qed.
End M.

(** * handlers have precedence over tasks *)
Section One.
Variables (max : nat) (timer : bool).
Notation step := (k_step max timer false).
Definition kall (s : kst) (es : kout) : Prop := kinv max s /\ kcb s /\ klin max s es.
Lemma kall_step s es l s' e : kall s es -> step s l = Some (s', e) -> kall s' (es ++ e).
Proof.
  intros (I & C & L) E. split; [exact (kinv_step max timer false s l s' e I E)|].
  assert (T : forall l0, (match k_cb s with Some _ => if false then k_task max timer s l0 else None | None => k_task max timer s l0 end) = Some (s', e) -> kcb s' /\ klin max s' (es ++ e)).
  { intros l0 H. destruct (k_cb s) eqn:CB; [discriminate|]. split; [|exact (klin_task max timer s es l0 s' e I CB L H)].
    intros p. rewrite (task_cb max timer s l0 s' e H), CB. discriminate. }
  destruct l as [t c|t|t p|t i|i|b]; cbn beta iota delta [k_step] in E; try exact (T _ E); clear T.
  - destruct (k_cb s) eqn:CB; [discriminate|]. destruct (k_kern s i) as [[p [|]]|] eqn:K; try discriminate. injection E as <- <-.
    destruct (proj1 (ki_kern max s I i p)) as (EI & A); [eauto|]. split.
    + intros p' H. cbn in H. injection H as <-. cbn. split; [exact A|]. now rewrite EI.
    + apply (klin_act max s); auto. intros a R. exists a. split; [|exact R]. cbn. split; [reflexivity|]. split; [|now intros q].
      specialize (R p). rewrite A in R. destruct R as (b & R1 & R2 & _). rewrite R1. f_equal. apply R2. unfold bit. now rewrite EI, K.
  - destruct (k_cb s) as [p|] eqn:CB; [|discriminate]. destruct (C p CB) as (A & K). destruct b; injection E as <- <-; (split; [intros p' H; discriminate|]).
    + apply (klin_act max s); auto. intros a R. exists (oset a p (Some false)). split; [|now apply (krel_set max s)].
      cbn. split; [reflexivity|]. split; [now apply (krel_some a s)|now intros q].
    + destruct L as (f & a & L & F & R). rewrite app_nil_r. exists f, a. auto.
Qed.
Lemma kall_exec ls s es : exec step k_init ls = Some (s, es) -> kall s es.
Proof.
  intros E. refine (exec_inv _ _ _ step kall kall_step ls k_init [] s es _ E). split; [apply kinv_init|]. split; [intros p H; discriminate|].
  exists (fun _ => Out), o_none. split; [constructor|]. split; [reflexivity|]. intros p. reflexivity.
Qed.
Theorem k_linearizable ls s es : exec step k_init ls = Some (s, es) -> linearizable (ospec max) o_none (history es).
Proof. intros E. destruct (kall_exec ls s es E) as (_ & _ & f & a & L & _). exists es, f, a. auto. Qed.
Theorem k_callback_exists ls s es p : exec step k_init ls = Some (s, es) -> k_cb s = Some p ->
  k_blk s p = true /\ k_kern s (k_id s p) = Some (p, true) /\ exists a, sp_run (ospec max) o_none (effects es) a /\ a p = Some true.
Proof.
  intros E CB. destruct (kall_exec ls s es E) as (I & C & f & a & L & _ & R). destruct (C p CB) as (A & K). split; [|split; [exact K|]].
  - apply (ki_blk max s I). intros X. rewrite X in A. discriminate.
  - exists a. split; [exact (lin_run_effects _ _ _ _ _ _ _ _ _ L)|]. specialize (R p). rewrite A in R. destruct R as (b & R1 & R2 & _). rewrite R1. f_equal. apply R2. unfold bit. now rewrite K.
Qed.
Theorem k_no_leak ls s es : exec step k_init ls = Some (s, es) -> (forall t, k_idle s t) ->
  exists a, sp_run (ospec max) o_none (effects es) a /\
    (forall p, k_blk s p = true <-> a p <> None) /\
    (forall i p b, k_kern s i = Some (p, b) <-> k_id s p = i /\ a p = Some b).
Proof.
  intros E ID. destruct (kall_exec ls s es E) as (I & _ & f & a & L & _ & R). exists a. split; [exact (lin_run_effects _ _ _ _ _ _ _ _ _ L)|].
  assert (ST : forall p, k_st s p = SFree \/ k_st s p = SLive).
  { intros p. destruct (ki_own max s I p) as [X|[X|(t & b & X)]]; auto. rewrite (ID t) in X. discriminate. }
  split.
  - intros p. rewrite (ki_blk max s I). specialize (R p). destruct (ST p) as [X|X]; rewrite X in R |- *; cbn in R.
    + rewrite R. tauto.
    + destruct R as (b & R & _). rewrite R. split; discriminate.
  - intros i p b. split.
    + intros K. destruct (proj1 (ki_kern max s I i p)) as (EI & A); [eauto|]. split; [exact EI|]. specialize (R p). rewrite A in R. destruct R as (b' & R1 & _ & R2). rewrite R1.
      f_equal. rewrite R2; [unfold bit; now rewrite EI, K|]. destruct (ST p) as [X|X]; rewrite X; discriminate.
    + intros (EI & A). specialize (R p). destruct (alive (k_st s p)) eqn:AL; [|congruence]. destruct R as (b' & R1 & _ & R2). assert (b' = b) by congruence. subst b'.
      destruct (kern_of max s p I AL) as (c & K). rewrite EI in K. rewrite K. f_equal. f_equal.
      rewrite R2; [unfold bit; now rewrite EI, K|]. destruct (ST p) as [X|X]; rewrite X; discriminate.
Qed.
End One.

(** * progress *)
Section Prog.
Variables (max : nat) (timer smp : bool).
Notation step := (k_step max timer smp).
Theorem k_progress ls s es : exec step k_init ls = Some (s, es) -> k_cb s = None -> k_stuck max timer smp s -> forall t, k_idle s t.
Proof.
  intros E CB ST. pose proof (kinv_exec max timer smp ls s es E) as I.
  assert (STP : forall t, k_task max timer s (MStep t) = None) by (intros t; specialize (ST (MStep t) Logic.I); cbn beta iota delta [k_step] in ST; now rewrite CB in ST).
  assert (STG : forall t p, k_task max timer s (MGet t p) = None) by (intros t p; specialize (ST (MGet t p) Logic.I); cbn beta iota delta [k_step] in ST; now rewrite CB in ST).
  assert (STA : forall t i, k_task max timer s (MAcre t i) = None) by (intros t i; specialize (ST (MAcre t i) Logic.I); cbn beta iota delta [k_step] in ST; now rewrite CB in ST).
  assert (CS : forall t, kcs (k_pc s t) = false).
  { intros t. destruct (kcs (k_pc s t)) eqn:X; [|reflexivity]. specialize (STP t). specialize (STG t). specialize (STA t 0). unfold k_task in STP, STG, STA.
    destruct (k_pc s t) as [|c| |p|p|p|p|p|p|r|c|r]; cbn in X; try discriminate.
    destruct (k_free max s) eqn:FR; [|discriminate]. apply existsb_exists in FR. destruct FR as (p & P & B). apply in_seq in P.
    specialize (STG p). rewrite B, (proj2 (Nat.ltb_lt _ _)) in STG by lia. discriminate. }
  intros t. unfold k_idle. specialize (STP t). pose proof (ki_wf max s I t) as WF. specialize (CS t) as CT. unfold k_task in STP.
  destruct (k_pc s t) as [|c| |p|p|p|p|p|p|r|c|r] eqn:ET; cbn in CT; try discriminate; [reflexivity| |].
  - destruct (k_mtx s) as [u|] eqn:M; [|discriminate]. apply (ki_lock max s I) in M. rewrite CS in M. discriminate.
  - cbn in WF. destruct (on_obj c); [discriminate|now elim WF].
Qed.
Definition km (q : kpc) : nat :=
  match q with
  | KIdle => 0 | KStp _ => 8 | KLock _ => 7 | KGet => 6 | KAcre _ => 5 | KDtorF _ => 4 | KRelF _ => 3 | KDel _ => 4 | KRel _ => 3 | KUnl _ => 2 | KAt _ => 2 | KRet _ => 1
  end.
Definition k_own (l : klab) : bool := match l with MStep _ | MGet _ _ | MAcre _ _ => true | _ => false end.
Lemma k_step_decr s l s' e : k_own l = true -> step s l = Some (s', e) -> exists t q, k_pc s' = fupd (k_pc s) t q /\ km q < km (k_pc s t).
Proof.
  intros O E. assert (T : k_task max timer s l = Some (s', e)).
  { destruct l; try discriminate; cbn beta iota delta [k_step] in E; (destruct (k_cb s); [destruct smp; [exact E|discriminate]|exact E]). }
  clear E. destruct l as [t c|t|t p|t i|i|b]; try discriminate; cbn beta iota delta [k_task] in T; exists t.
  - destruct (k_pc s t) as [|c| |p|p|p|p|p|p|r|c|r] eqn:ET; try discriminate.
    + destruct (k_mtx s); [discriminate|]. injection T as <- <-. eexists. split; [reflexivity|]. destruct c; cbn; lia.
    + destruct (k_free max s); [discriminate|]. injection T as <- <-. eexists. split; [reflexivity|]. cbn; lia.
    + injection T as <- <-. eexists. split; [reflexivity|]. cbn; lia.
    + injection T as <- <-. eexists. split; [reflexivity|]. cbn; lia.
    + injection T as <- <-. eexists. split; [reflexivity|]. cbn; lia.
    + injection T as <- <-. eexists. split; [reflexivity|]. cbn; lia.
    + injection T as <- <-. eexists. split; [reflexivity|]. cbn; lia.
    + injection T as <- <-. eexists. split; [reflexivity|]. cbn; lia.
    + destruct (on_obj c); [|discriminate]. injection T as <- <-. eexists. split; [reflexivity|]. cbn; lia.
    + injection T as <- <-. eexists. split; [reflexivity|]. cbn; lia.
  - destruct (k_pc s t) eqn:ET; try discriminate. destruct (_ && _); [|discriminate]. injection T as <- <-. eexists. split; [reflexivity|]. cbn; lia.
  - destruct (k_pc s t) eqn:ET; try discriminate. destruct (i =? 0); [|destruct (k_kern s i); [discriminate|]]; injection T as <- <-; (eexists; split; [reflexivity|]); cbn; lia.
Qed.
Lemma k_env_pc s l s' e : k_own l = false -> (forall t c, l <> MCall t c) -> step s l = Some (s', e) -> k_pc s' = k_pc s.
Proof.
  intros O N E. destruct l as [t c|t|t p|t i|i|b]; try discriminate; [now elim (N t c)| |]; cbn beta iota delta [k_step] in E.
  - destruct (k_cb s); [discriminate|]. destruct (k_kern s i) as [[p [|]]|]; try discriminate. now injection E as <- <-.
  - destruct (k_cb s); [|discriminate]. destruct b; now injection E as <- <-.
Qed.
Theorem k_bounded n : forall ls s s' es, (forall t, n <= t -> k_idle s t) -> (forall l, In l ls -> forall t c, l <> MCall t c) ->
  exec step s ls = Some (s', es) -> length (filter k_own ls) <= n * 8.
Proof.
  set (m := fun s => sumn (fun t => km (k_pc s t)) n).
  assert (H : forall ls s s' es, (forall t, n <= t -> k_idle s t) -> (forall l, In l ls -> forall t c, l <> MCall t c) -> exec step s ls = Some (s', es) -> length (filter k_own ls) + m s' <= m s).
  { induction ls as [|l ls IH]; intros s s' es ID NC E; cbn in E.
    - injection E as <- <-. cbn. lia.
    - destruct (step s l) as [[s1 e1]|] eqn:E1; [|discriminate]. destruct (exec step s1 ls) as [[s2 e2]|] eqn:E2; [|discriminate]. injection E as <- <-.
      assert (NC' : forall l0, In l0 ls -> forall t c, l0 <> MCall t c) by (intros l0 H; apply NC; now right).
      cbn [filter]. destruct (k_own l) eqn:O.
      + destruct (k_step_decr s l s1 e1 O E1) as (t & q & ET & D).
        assert (T : t < n). { destruct (Nat.lt_ge_cases t n) as [X|X]; [exact X|]. specialize (ID t X). unfold k_idle in ID. rewrite ID in D. cbn in D. lia. }
        assert (ID' : forall u, n <= u -> k_idle s1 u). { intros u U. unfold k_idle. rewrite ET, fupd_other by lia. now apply ID. }
        specialize (IH s1 s2 e2 ID' NC' E2). cbn [length].
        assert (m s1 < m s); [|lia]. unfold m. pose proof (sumn_change n (fun u => km (k_pc s u)) (fun u => km (k_pc s1 u)) t T) as C. cbn beta in C.
        rewrite ET, fupd_same in C. rewrite ET. assert (X : forall u, u <> t -> km (fupd (k_pc s) t q u) = km (k_pc s u)) by (intros u U; now rewrite fupd_other).
        specialize (C X). lia.
      + pose proof (k_env_pc s l s1 e1 O (NC l (or_introl eq_refl)) E1) as PC.
        assert (ID' : forall u, n <= u -> k_idle s1 u) by (intros u U; unfold k_idle; rewrite PC; now apply ID).
        specialize (IH s1 s2 e2 ID' NC' E2). replace (m s) with (m s1) by (unfold m; now rewrite PC). exact IH. }
  intros ls s s' es ID NC E. specialize (H ls s s' es ID NC E). assert (m s <= n * 8). { apply sumn_bound. intros k _. destruct (k_pc s k); cbn; lia. } lia.
Qed.
End Prog.

(** * what the specification implies *)
Lemma o_run_tick max : forall l s s' p t r, sp_run (ospec max) s (l ++ [(t, OTick p, r)]) s' -> s p <> Some true -> exists u r', In (u, OStart p, r') l.
Proof.
  induction l as [|[[u c] r1] l IH]; intros s s' p t r H NS.
  - cbn in H. inversion H; subst. match goal with h : ospec _ _ _ _ _ _ |- _ => cbn in h; destruct h as (_ & h & _) end. congruence.
  - cbn in H. inversion H as [|? ? ? ? s1 ? ? SP H1]; subst.
    assert (D : c = OStart p \/ s1 p <> Some true).
    { destruct c as [|q|q|q|q|q|q]; cbn in SP.
      - right. destruct r1; try tauto.
        + destruct SP as (_ & _ & SP). rewrite (SP p). unfold oset. destruct (Nat.eqb p p0); congruence.
        + destruct SP as (_ & SP). now rewrite (SP p).
        + destruct SP as (_ & SP). now rewrite (SP p).
      - right. destruct SP as (_ & _ & SP). rewrite (SP p). unfold oset. destruct (Nat.eqb p q); congruence.
      - destruct SP as (_ & _ & SP). rewrite (SP p). unfold oset. destruct (Nat.eqb_spec p q) as [->|N]; auto.
      - right. destruct SP as (_ & _ & SP). rewrite (SP p). unfold oset. destruct (Nat.eqb p q); congruence.
      - right. destruct SP as (_ & SP). now rewrite (SP p).
      - right. destruct SP as (_ & _ & SP). now rewrite (SP p).
      - right. destruct SP as (_ & _ & SP). rewrite (SP p). unfold oset. destruct (Nat.eqb p q); congruence. }
    destruct D as [->|D]; [exists u, r1; now left|]. destruct (IH s1 s' p t r H1 D) as (v & r' & V). exists v, r'. now right.
Qed.
Definition quiet (c : ocall) (p : nat) : Prop := c = OStop p \/ c = ODestroy p \/ c = OThrow p.
Lemma o_tick_needs_start max l1 u c r l2 t r' l3 s' p : quiet c p ->
  sp_run (ospec max) o_none (l1 ++ (u, c, r) :: l2 ++ (t, OTick p, r') :: l3) s' -> exists v r'', In (v, OStart p, r'') l2.
Proof.
  intros Q H. apply sp_run_app_inv in H. destruct H as (s1 & _ & H). inversion H as [|? ? ? ? s2 ? ? SP H1]; subst.
  change ((t, OTick p, r') :: l3) with ([(t, OTick p, r')] ++ l3) in H1. rewrite app_assoc in H1. apply sp_run_app_inv in H1. destruct H1 as (s3 & H1 & _).
  apply (o_run_tick max l2 s2 s3 p t r' H1). destruct Q as [->|[->| ->]]; cbn in SP; destruct SP as (_ & _ & SP); rewrite (SP p); unfold oset; rewrite Nat.eqb_refl; discriminate.
Qed.
Theorem k_tick_needs_start max timer ls s es l1 u c r l2 t r' l3 p : exec (k_step max timer false) k_init ls = Some (s, es) -> quiet c p ->
  effects es = l1 ++ (u, c, r) :: l2 ++ (t, OTick p, r') :: l3 -> exists v r'', In (v, OStart p, r'') l2.
Proof.
  intros E Q H. destruct (kall_exec max timer ls s es E) as (_ & _ & f & a & L & _). apply lin_run_effects in L. rewrite H in L. exact (o_tick_needs_start max _ _ _ _ _ _ _ _ _ _ Q L).
Qed.
Theorem k_first_tick_needs_start max timer ls s es l1 t r l2 p : exec (k_step max timer false) k_init ls = Some (s, es) ->
  effects es = l1 ++ (t, OTick p, r) :: l2 -> exists v r', In (v, OStart p, r') l1.
Proof.
  intros E H. destruct (kall_exec max timer ls s es E) as (_ & _ & f & a & L & _). apply lin_run_effects in L. rewrite H in L.
  change ((t, OTick p, r) :: l2) with ([(t, OTick p, r)] ++ l2) in L. rewrite app_assoc in L. apply sp_run_app_inv in L. destruct L as (s3 & L & _).
  apply (o_run_tick max l1 o_none s3 p t r L). discriminate.
Qed.

(** * on several processors a callback may outlive its timer *)
Definition uaf_schedule : list klab :=
  [MCall 1 OCreate; MStep 1; MGet 1 0; MAcre 1 5; MStep 1; MStep 1; MCall 1 (OStart 0); MStep 1; MStep 1; MTick 5;
   MCall 1 (ODestroy 0); MStep 1; MStep 1; MStep 1; MStep 1].
Theorem k_smp_uaf : ~ (forall max timer ls s es p, exec (k_step max timer true) k_init ls = Some (s, es) -> k_cb s = Some p -> k_blk s p = true).
Proof.
  intros H. specialize (H 4 true uaf_schedule). destruct (exec (k_step 4 true true) k_init uaf_schedule) as [[s es]|] eqn:E; [|vm_compute in E; discriminate].
  specialize (H s es 0 eq_refl). vm_compute in E. injection E as <- <-. cbn in H. specialize (H eq_refl). discriminate.
Qed.

(** * event flags and mutexes: there are no handlers *)
Definition no_cb (s : kst) : Prop := k_cb s = None /\ (forall i p, k_kern s i <> Some (p, true)) /\ forall t, match k_pc s t with KAt _ => False | _ => True end.
Lemma no_cb_task max s l s' e : no_cb s -> k_task max false s l = Some (s', e) -> no_cb s'.
Proof.
  intros (C & B & A) E. split; [now rewrite (task_cb max false s l s' e E)|].
  assert (D : forall i, forall j p, k_dtor (k_kern s) i j <> Some (p, true)).
  { intros i j p. unfold k_dtor. destruct (0 <? i); [|apply B]. rewrite fupd_eq. destruct (Nat.eqb j i); [discriminate|apply B]. }
  assert (S : forall i, forall j p, k_set (k_kern s) i false j <> Some (p, true)).
  { intros i j p. unfold k_set. destruct (k_kern s i) as [[q b]|]; [|apply B]. rewrite fupd_eq. destruct (Nat.eqb j i); [discriminate|apply B]. }
  assert (P : forall t q, (forall c, q <> KAt c) -> forall u, match fupd (k_pc s) t q u with KAt _ => False | _ => True end).
  { intros t q N u. rewrite fupd_eq. destruct (Nat.eqb u t); [destruct q; auto; now elim (N c)|apply A]. }
  destruct l as [t c|t|t p|t i|i|b]; cbn beta iota delta [k_task] in E; try discriminate.
  - destruct (k_pc s t); try discriminate. destruct (0 <? t); [|discriminate]. destruct c; try discriminate.
    + injection E as <- <-. split; [exact B|]. now apply P.
    + destruct (_ && _); [|discriminate]. injection E as <- <-. split; [exact B|]. now apply P.
  - specialize (A t) as AT. destruct (k_pc s t) as [|c| |p|p|p|p|p|p|r|c|r]; try discriminate; try tauto.
    + destruct (k_mtx s); [discriminate|]. injection E as <- <-. split; [exact B|]. apply P. now destruct c.
    + destruct (k_free max s); [discriminate|]. injection E as <- <-. split; [exact B|]. now apply P.
    + injection E as <- <-. split; [apply D|]. now apply P.
    + injection E as <- <-. split; [exact B|]. now apply P.
    + injection E as <- <-. split; [apply S|]. now apply P.
    + injection E as <- <-. split; [apply D|]. now apply P.
    + injection E as <- <-. split; [exact B|]. now apply P.
    + injection E as <- <-. split; [exact B|]. now apply P.
    + injection E as <- <-. split; [exact B|]. now apply P.
  - destruct (k_pc s t); try discriminate. destruct (_ && _); [|discriminate]. injection E as <- <-. split; [exact B|]. now apply P.
  - destruct (k_pc s t); try discriminate. destruct (i =? 0); [injection E as <- <-; split; [exact B|]; now apply P|]. destruct (k_kern s i); [discriminate|]. injection E as <- <-. split; [|now apply P].
    cbn. intros j q. rewrite fupd_eq. destruct (Nat.eqb j i); [discriminate|apply B].
Qed.
Lemma no_cb_exec max smp : forall ls s s' es, no_cb s -> exec (k_step max false smp) s ls = Some (s', es) -> exec (k_step max false false) s ls = Some (s', es).
Proof.
  induction ls as [|l ls IH]; intros s s' es N E; cbn in *; [exact E|]. destruct (k_step max false smp s l) as [[s1 e1]|] eqn:E1; [|discriminate].
  assert (T : k_task max false s l = Some (s1, e1)).
  { destruct N as (C & B & _). destruct l as [t c|t|t p|t i|i|b]; cbn beta iota delta [k_step] in E1; rewrite C in E1; try exact E1; try discriminate.
    destruct (k_kern s i) as [[p [|]]|] eqn:K; try discriminate. now elim (B i p). }
  assert (X : k_step max false false s l = Some (s1, e1)).
  { destruct N as (C & _). destruct l; cbn beta iota delta [k_step]; rewrite ?C; try exact T; discriminate. }
  rewrite X. destruct (exec (k_step max false smp) s1 ls) as [[s2 e2]|] eqn:E2; [|discriminate]. now rewrite (IH s1 s2 e2 (no_cb_task max s l s1 e1 N T) E2).
Qed.
Theorem k_flags_linearizable max smp ls s es : exec (k_step max false smp) k_init ls = Some (s, es) -> linearizable (ospec max) o_none (history es).
Proof. intros E. apply (k_linearizable max false ls s es). apply (no_cb_exec max smp); [|exact E]. split; [reflexivity|]. split; [discriminate|]. intros t. exact Logic.I. Qed.
