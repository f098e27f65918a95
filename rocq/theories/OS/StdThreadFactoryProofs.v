(** Proofs about the StdCpp thread factory. *)
From Coq Require Import List Bool Lia Arith.
Import ListNotations.
From Verif Require Import Spec.Linear Spec.CurrentThreadSpec OS.Sched OS.StdThreadFactoryModel.
From Verif Require OS.ItronThreadFactoryProofs.

Definition cs (q : spc) : bool := match q with SNew | SBegin _ | SUnlF _ | SDel _ | SUnl1 _ | SIns _ | SUnlG _ | DErase _ | DDel _ | GScan | PUnl _ => true | _ => false end.
(** the object a caller works on, and its stage *)
Definition pst (q : spc) : option (nat * ost) :=
  match q with
  | SBegin x => Some (x, ONew)
  | SUnlF x | SLockF x | SDel x | DDel x => Some (x, ODead)
  | SUnl1 x | SLock2 x | SIns x | SUnlG x | SJoinG x => Some (x, ONat)
  | PUnl (TThread x) | PRet (TThread x) => Some (x, OMade)
  | DWait x | DJoin x => Some (x, ODying)
  | PLock (TDestroy x) | DErase x => Some (x, OWin)
  | _ => None
  end.
Definition inmap (a : ost) : bool := match a with OMade | OLive | ODying | OWin => true | _ => false end.
Definition innat (a : ost) : bool := match a with ONat | OMade | OLive | ODying => true | _ => false end.

(** [g]: no id was used again too early.  What does not depend on it holds in any case. *)
Section G.
Variable g : bool.
Record sinv (s : sst) : Prop := {
  si_lock : forall t, cs (s_pc s t) = true <-> s_mtx s = Some t;
  si_st : forall t x a, pst (s_pc s t) = Some (x, a) -> s_st s x = a;
  si_one : forall t u x a b, pst (s_pc s t) = Some (x, a) -> pst (s_pc s u) = Some (x, b) -> t = u;
  si_own : forall x, s_st s x = ONone \/ s_st s x = OLive \/ exists t a, pst (s_pc s t) = Some (x, a);
  si_obj : forall x, s_obj s x = true <-> s_st s x <> ONone;
  si_map : g = true -> forall i x, s_map s i = Some x <-> s_oid s x = i /\ inmap (s_st s x) = true;
  si_res : forall i x, s_res s i = Some (Own x) <-> s_oid s x = i /\ innat (s_st s x) = true;
  si_win : g = true -> forall x, s_st s x = OWin -> s_res s (s_oid s x) = None;
  si_run : forall x, s_run s x = true -> s_st s x = OLive \/ exists t, s_pc s t = DWait x;
  si_act : forall t, s_pc s t <> PIdle -> s_acts s t = true;
  si_cur : g = true -> forall t r, s_pc s t = PUnl (TCur r) \/ s_pc s t = PRet (TCur r) -> r = thread_of (s_res s t)
}.
Lemma sinv_init app : sinv (s_init app).
Proof.
  constructor; cbn; try congruence; try tauto; try (intros; split; congruence).
  - intros _ i x. split; [discriminate|]. intros [_ H]. discriminate.
  - intros i x. split; [destruct (app i); discriminate|]. intros [_ H]. discriminate.
  - intros _ t r [H|H]; discriminate.
Qed.
Lemma run_nat s x : sinv s -> s_run s x = true -> s_res s (s_oid s x) = Some (Own x) /\ (g = true -> s_map s (s_oid s x) = Some x).
Proof.
  intros I H. assert (S : s_st s x = OLive \/ s_st s x = ODying).
  { destruct (si_run s I x H) as [A|(t & A)]; [now left|right]. apply (si_st s I t). now rewrite A. }
  split; [apply (si_res s I)|intros G; apply (si_map s I G)]; (split; [reflexivity|]); destruct S as [-> | ->]; reflexivity.
Qed.
Lemma act_run s t x : sinv s -> s_acts s t = true -> s_res s t = Some (Own x) -> s_run s x = true /\ s_oid s x = t /\ (g = true -> s_map s t = Some x).
Proof.
  intros I A R. unfold s_acts in A. rewrite R in A. split; [exact A|]. destruct (run_nat s x I A) as (_ & M). apply (si_res s I) in R. destruct R as (R & _). rewrite R in M. auto.
Qed.
Lemma find_right s t : g = true -> sinv s -> s_acts s t = true -> s_map s t = thread_of (s_res s t).
Proof.
  intros G I A. destruct (s_res s t) as [[|x]|] eqn:R; cbn.
  - destruct (s_map s t) as [x|] eqn:M; [|reflexivity]. apply (si_map s I G) in M. destruct M as (E & M).
    assert (X : innat (s_st s x) = true \/ s_st s x = OWin) by (destruct (s_st s x); cbn in *; auto; discriminate).
    destruct X as [X|X].
    + assert (s_res s t = Some (Own x)) by (apply (si_res s I); auto). congruence.
    + apply (si_win s I G) in X. rewrite E in X. congruence.
  - now apply (act_run s t x I A R) in G.
  - unfold s_acts in A. rewrite R in A. discriminate.
Qed.
Lemma acts_res s s' t : s_acts s t = true -> s_res s' t = s_res s t -> s_run s' = s_run s -> s_acts s' t = true.
Proof. intros A B C. unfold s_acts in *. now rewrite B, C. Qed.

(** a caller moves and the stage of its object may change *)
Lemma sinv_move s s' t q :
  sinv s -> s_pc s t <> PIdle \/ s_acts s t = true ->
  s_pc s' = fupd (s_pc s) t q -> s_run s' = s_run s ->
  (cs (s_pc s t) = false -> cs q = true -> s_mtx s = None) ->
  s_mtx s' = (if cs q then Some t else if cs (s_pc s t) then None else s_mtx s) ->
  (* stages: only that of an object which is nobody else's *)
  (forall x a, pst q = Some (x, a) -> s_st s' x = a) ->
  (forall x, (forall a, pst q <> Some (x, a)) -> (forall a, pst (s_pc s t) <> Some (x, a)) -> s_st s' x = s_st s x) ->
  (forall x a, pst q = Some (x, a) -> (exists b, pst (s_pc s t) = Some (x, b)) \/ s_st s x = ONone \/ s_st s x = OLive) ->
  (forall x a, pst (s_pc s t) = Some (x, a) -> (exists b, pst q = Some (x, b)) \/ s_st s' x = ONone \/ s_st s' x = OLive) ->
  (forall x, s_obj s' x = true <-> s_st s' x <> ONone) ->
  (g = true -> forall i x, s_map s' i = Some x <-> s_oid s' x = i /\ inmap (s_st s' x) = true) ->
  (forall i x, s_res s' i = Some (Own x) <-> s_oid s' x = i /\ innat (s_st s' x) = true) ->
  (g = true -> forall x, s_st s' x = OWin -> s_res s' (s_oid s' x) = None) ->
  (forall x, s_st s x = OLive -> s_st s' x = OLive \/ q = DWait x) ->
  (forall x, s_pc s t = DWait x -> s_run s x = false) ->
  (forall u, s_acts s u = true -> s_res s' u = s_res s u) ->
  (g = true -> forall r, q = PUnl (TCur r) \/ q = PRet (TCur r) -> r = thread_of (s_res s' t)) ->
  sinv s'.
Proof.
  intros I AC EP ER LK EM S1 S2 S3 S4 OB MA RE WI LI DW RA CU.
  assert (OT : forall u x a, u <> t -> pst (s_pc s u) = Some (x, a) -> (forall b, pst (s_pc s t) <> Some (x, b)) /\ (forall b, pst q <> Some (x, b))).
  { intros u x a N H. assert (A : forall b, pst (s_pc s t) <> Some (x, b)) by (intros b B; apply N; exact (si_one s I _ _ _ _ _ H B)). split; [exact A|].
    intros b B. pose proof (si_st s I _ _ _ H) as X. destruct (S3 x b B) as [(c & C)|[C|C]]; [now apply (A c)| |]; destruct (s_pc s u) as [|[| |]| | | | | | | | | | | | | | | |[| | |]|[| | |]]; cbn in H; try discriminate; injection H as -> <-; congruence. }
  constructor.
  - intros u. rewrite EP, EM, fupd_eq. destruct (Nat.eqb_spec u t) as [->|N].
    + destruct (cs q) eqn:Q; [tauto|]. split; [discriminate|]. destruct (cs (s_pc s t)) eqn:P; [discriminate|]. intros H. apply (si_lock s I) in H. congruence.
    + rewrite (si_lock s I). destruct (cs q) eqn:Q.
      * destruct (cs (s_pc s t)) eqn:P; [apply (si_lock s I) in P; rewrite P; split; congruence|]. rewrite LK by auto. split; congruence.
      * destruct (cs (s_pc s t)) eqn:P; [|tauto]. apply (si_lock s I) in P. rewrite P. split; congruence.
  - intros u x a. rewrite EP, fupd_eq. destruct (Nat.eqb_spec u t) as [->|N]; [apply S1|]. intros H. destruct (OT u x a N H) as (A & B).
    rewrite S2 by assumption. exact (si_st s I _ _ _ H).
  - intros u v x a b. rewrite EP, !fupd_eq. destruct (Nat.eqb_spec u t) as [->|N]; destruct (Nat.eqb_spec v t) as [->|N']; auto.
    + intros A B. destruct (OT v x b N' B) as (_ & X). now elim (X a).
    + intros A B. destruct (OT u x a N A) as (_ & X). now elim (X b).
    + apply (si_one s I).
  - intros x. destruct (pst q) as [[y a]|] eqn:PQ.
    + destruct (Nat.eq_dec x y) as [->|N]; [right; right; exists t, a; now rewrite EP, fupd_same|].
      assert (NQ : forall a0 : ost, Some (y, a) <> Some (x, a0)) by congruence.
      destruct (pst (s_pc s t)) as [[z b]|] eqn:PT.
      * destruct (Nat.eq_dec x z) as [->|M]; [destruct (S4 z b eq_refl) as [(c & C)|[C|C]]; [congruence|auto|auto]|].
        rewrite S2 by congruence. destruct (si_own s I x) as [A|[A|(u & c & A)]]; auto. right. right. exists u, c. rewrite EP, fupd_other; [exact A|]. intros ->. congruence.
      * rewrite S2 by congruence. destruct (si_own s I x) as [A|[A|(u & c & A)]]; auto. right. right. exists u, c. rewrite EP, fupd_other; [exact A|]. intros ->. congruence.
    + destruct (pst (s_pc s t)) as [[z b]|] eqn:PT.
      * destruct (Nat.eq_dec x z) as [->|M]; [destruct (S4 z b eq_refl) as [(c & C)|[C|C]]; [congruence|auto|auto]|].
        rewrite S2 by congruence. destruct (si_own s I x) as [A|[A|(u & c & A)]]; auto. right. right. exists u, c. rewrite EP, fupd_other; [exact A|]. intros ->. congruence.
      * rewrite S2 by congruence. destruct (si_own s I x) as [A|[A|(u & c & A)]]; auto. right. right. exists u, c. rewrite EP, fupd_other; [exact A|]. intros ->. congruence.
  - exact OB.
  - exact MA.
  - exact RE.
  - exact WI.
  - intros x. rewrite ER. intros H. destruct (si_run s I x H) as [A|(u & A)].
    + destruct (LI x A) as [B|B]; [now left|right; exists t; now rewrite EP, fupd_same].
    + destruct (Nat.eq_dec u t) as [->|N]; [rewrite (DW x A) in H; discriminate|]. right. exists u. now rewrite EP, fupd_other.
  - intros u H. assert (A : s_acts s u = true).
    { destruct (Nat.eq_dec u t) as [->|N]; [destruct AC as [AC|AC]; [now apply (si_act s I)|exact AC]|]. apply (si_act s I). now rewrite EP, fupd_other in H by exact N. }
    apply (acts_res s); auto.
  - intros G u r. rewrite EP, fupd_eq. destruct (Nat.eqb_spec u t) as [->|N]; [exact (CU G r)|]. intros H. rewrite RA; [now apply (si_cur s I G)|].
    apply (si_act s I). destruct H as [H|H]; rewrite H; discriminate.
Qed.
(** nothing but the caller's place and the lock changes, or the object only passes to its client *)
Lemma sinv_same s s' t q :
  sinv s -> s_pc s t <> PIdle \/ s_acts s t = true ->
  s_pc s' = fupd (s_pc s) t q -> s_run s' = s_run s ->
  (cs (s_pc s t) = false -> cs q = true -> s_mtx s = None) ->
  s_mtx s' = (if cs q then Some t else if cs (s_pc s t) then None else s_mtx s) ->
  s_map s' = s_map s -> s_oid s' = s_oid s -> s_res s' = s_res s -> s_obj s' = s_obj s -> s_st s' = s_st s ->
  pst q = pst (s_pc s t) ->
  (forall x, s_pc s t = DWait x -> s_run s x = false) ->
  (g = true -> forall r, q = PUnl (TCur r) \/ q = PRet (TCur r) -> r = thread_of (s_res s t)) ->
  sinv s'.
Proof.
  intros I AC EP ER LK EM E1 E2 E3 E4 E5 PQ DW CU.
  apply (sinv_move s s' t q I AC EP ER LK EM); rewrite ?E1, ?E2, ?E3, ?E4, ?E5, ?PQ; auto.
  - apply (si_st s I).
  - eauto.
  - eauto.
  - apply (si_obj s I).
  - exact (si_map s I).
  - apply (si_res s I).
  - exact (si_win s I).
Qed.
Lemma holder s t : sinv s -> cs (s_pc s t) = true -> s_mtx s = Some t.
Proof. intros I H. now apply (si_lock s I). Qed.
(** deletion of a native thread: nobody acts for it *)
Lemma gone_acts s x : sinv s -> innat (s_st s x) = true -> s_run s x = false -> forall u, s_acts s u = true -> fupd (s_res s) (s_oid s x) None u = s_res s u.
Proof.
  intros I N R u A. apply fupd_other. intros ->. assert (X : s_res s (s_oid s x) = Some (Own x)) by (apply (si_res s I); auto).
  destruct (act_run s _ x I A X) as (Y & _). congruence.
Qed.
Lemma born_acts s i y : s_res s i = None -> forall u, s_acts s u = true -> fupd (s_res s) i y u = s_res s u.
Proof. intros R u A. apply fupd_other. intros ->. unfold s_acts in A. rewrite R in A. discriminate. Qed.
Lemma not_run s x : sinv s -> s_st s x <> OLive -> (forall t, s_pc s t <> DWait x) -> s_run s x = false.
Proof. intros I A B. destruct (s_run s x) eqn:R; [|reflexivity]. destruct (si_run s I x R) as [H|(t & H)]; [contradiction|now elim (B t)]. Qed.
Lemma not_wait s t x a : sinv s -> pst (s_pc s t) = Some (x, a) -> (forall y, s_pc s t <> DWait y) -> forall u, s_pc s u <> DWait x.
Proof. intros I P N u H. assert (u = t); [|subst; now apply (N x)]. apply (si_one s I u t x ODying a); [now rewrite H|exact P]. Qed.

Ltac stg x y := destruct (Nat.eqb_spec y x) as [->|].

Lemma sinv_step s l s' e : sinv s -> (g = true -> fresh_at s l) -> s_step s l = Some (s', e) -> sinv s'.
Proof.
  intros I FR E. destruct l as [t c|t|t|t x|t i|i|i|x|x]; cbn beta iota delta [s_step] in E.
  - destruct (s_pc s t) eqn:ET; try discriminate. destruct (s_acts s t) eqn:AC; [|discriminate].
    assert (SAME : forall c, (forall x, c <> TDestroy x) -> sinv (s_go s t (PLock c))).
    { intros c' N. eapply (sinv_same s _ t); [exact I|now right|reflexivity|reflexivity|..]; rewrite ?ET; cbn; auto; try discriminate.
      - destruct c'; try reflexivity. now elim (N p).
      - intros G r [H|H]; discriminate. }
    destruct c as [|x|]; [injection E as <- <-; now apply SAME| |injection E as <- <-; now apply SAME].
    destruct (s_st s x) eqn:SX; try discriminate. destruct (s_oid s x =? t); [discriminate|]. cbn in E. injection E as <- <-.
    eapply (sinv_move s _ t); [exact I|now right|reflexivity|reflexivity|..]; rewrite ?ET; cbn; auto; try discriminate.
    + intros y a [= <- <-]. apply fupd_same.
    + intros y H _. apply fupd_other. intros ->. now apply (H ODying).
    + intros y a [= <- <-]. auto.
    + intros y. rewrite (si_obj s I), fupd_eq. stg x y; [rewrite SX; split; discriminate|tauto].
    + intros G i y. rewrite (si_map s I G), fupd_eq. stg x y; [rewrite SX; tauto|tauto].
    + intros i y. rewrite (si_res s I), fupd_eq. stg x y; [rewrite SX; tauto|tauto].
    + intros G y. rewrite fupd_eq. stg x y; [discriminate|apply (si_win s I G)].
    + intros y H. rewrite fupd_eq. stg x y; auto.
    + intros G r [H|H]; discriminate.
  - destruct (s_pc s t) as [|c| |x|x|x|x|x|x|x|x|x|x|x|x|x| |r|r] eqn:ET; try discriminate;
      (assert (NI : s_pc s t <> PIdle \/ s_acts s t = true) by (left; rewrite ET; discriminate)).
    + (* lock *)
      destruct (s_mtx s) eqn:M; [discriminate|]. injection E as <- <-.
      destruct c; (eapply (sinv_same s _ t); [exact I|exact NI|reflexivity|reflexivity|..]; rewrite ?ET; cbn; auto; try discriminate; intros G r [H|H]; discriminate).
    + (* unlock after a throw *)
      injection E as <- <-. eapply (sinv_same s _ t); [exact I|exact NI|reflexivity|reflexivity|..]; rewrite ?ET; cbn; auto; try discriminate. intros G r [H|H]; discriminate.
    + destruct (s_mtx s) eqn:M; [discriminate|]. injection E as <- <-.
      eapply (sinv_same s _ t); [exact I|exact NI|reflexivity|reflexivity|..]; rewrite ?ET; cbn; auto; try discriminate. intros G r [H|H]; discriminate.
    + (* delete *)
      injection E as <- <-. assert (ST : s_st s x = ODead) by (apply (si_st s I t); now rewrite ET).
      eapply (sinv_move s _ t); [exact I|exact NI|reflexivity|reflexivity|..]; rewrite ?ET; cbn; auto; try discriminate.
      * apply holder; [exact I|now rewrite ET].
      * intros y _ H. apply fupd_other. intros ->. now apply (H ODead).
      * intros y a [= <- <-]. right. left. apply fupd_same.
      * intros y. rewrite !fupd_eq. stg x y; [split; congruence|apply (si_obj s I)].
      * intros G i y. rewrite (si_map s I G), fupd_eq. stg x y; [rewrite ST; tauto|tauto].
      * intros i y. rewrite (si_res s I), fupd_eq. stg x y; [rewrite ST; tauto|tauto].
      * intros G y. rewrite fupd_eq. stg x y; [discriminate|apply (si_win s I G)].
      * intros y H. rewrite fupd_eq. stg x y; [congruence|auto].
      * intros G r [H|H]; discriminate.
    + injection E as <- <-. eapply (sinv_same s _ t); [exact I|exact NI|reflexivity|reflexivity|..]; rewrite ?ET; cbn; auto; try discriminate. intros G r [H|H]; discriminate.
    + destruct (s_mtx s) eqn:M; [discriminate|]. injection E as <- <-.
      eapply (sinv_same s _ t); [exact I|exact NI|reflexivity|reflexivity|..]; rewrite ?ET; cbn; auto; try discriminate. intros G r [H|H]; discriminate.
    + (* insert *)
      injection E as <- <-. assert (ST : s_st s x = ONat) by (apply (si_st s I t); now rewrite ET).
      assert (RX : s_res s (s_oid s x) = Some (Own x)) by (apply (si_res s I); now rewrite ST).
      assert (MX : g = true -> s_map s (s_oid s x) = None).
      { intros G. destruct (s_map s (s_oid s x)) as [y|] eqn:MY; [|reflexivity]. apply (si_map s I G) in MY. destruct MY as (EY & MY).
        assert (X : innat (s_st s y) = true \/ s_st s y = OWin) by (destruct (s_st s y); cbn in *; auto; discriminate).
        destruct X as [X|X].
        - assert (Z : s_res s (s_oid s x) = Some (Own y)) by (apply (si_res s I); auto). assert (y = x) by congruence. subst y. rewrite ST in MY. discriminate.
        - apply (si_win s I G) in X. rewrite EY in X. congruence. }
      eapply (sinv_move s _ t); [exact I|exact NI|reflexivity|reflexivity|..]; rewrite ?ET; cbn; auto; try discriminate.
      * apply holder; [exact I|now rewrite ET].
      * intros y a [= <- <-]. apply fupd_same.
      * intros y H _. apply fupd_other. intros ->. now apply (H OMade).
      * intros y a [= <- <-]. eauto.
      * intros y a [= <- <-]. eauto.
      * intros y. rewrite (si_obj s I), fupd_eq. stg x y; [rewrite ST; split; discriminate|tauto].
      * intros G i y. unfold s_insert. rewrite (MX G), !fupd_eq. stg x y.
        -- destruct (Nat.eqb_spec i (s_oid s x)) as [->|N]; [tauto|]. rewrite (si_map s I G), ST. split; [intros (_ & X); discriminate|intros (X & _); congruence].
        -- destruct (Nat.eqb_spec i (s_oid s x)) as [->|N]; [|apply (si_map s I G)]. rewrite <- (si_map s I G), (MX G). split; congruence.
      * intros i y. rewrite (si_res s I), fupd_eq. stg x y; [rewrite ST; tauto|tauto].
      * intros G y. rewrite fupd_eq. stg x y; [discriminate|apply (si_win s I G)].
      * intros y H. rewrite fupd_eq. stg x y; [congruence|auto].
      * intros G r [H|H]; discriminate.
    + injection E as <- <-. eapply (sinv_same s _ t); [exact I|exact NI|reflexivity|reflexivity|..]; rewrite ?ET; cbn; auto; try discriminate. intros G r [H|H]; discriminate.
    + (* endThread of a thread that could not be inserted *)
      injection E as <- <-. assert (P : pst (s_pc s t) = Some (x, ONat)) by now rewrite ET. assert (ST : s_st s x = ONat) by now apply (si_st s I t).
      assert (RX : s_res s (s_oid s x) = Some (Own x)) by (apply (si_res s I); now rewrite ST).
      eapply (sinv_move s _ t); [exact I|exact NI|reflexivity|reflexivity|..]; rewrite ?ET; cbn; auto; try discriminate.
      * intros y a [= <- <-]. apply fupd_same.
      * intros y H _. apply fupd_other. intros ->. now apply (H ODead).
      * intros y a [= <- <-]. eauto.
      * intros y a [= <- <-]. eauto.
      * intros y. rewrite (si_obj s I), fupd_eq. stg x y; [rewrite ST; split; discriminate|tauto].
      * intros G i y. rewrite (si_map s I G), fupd_eq. stg x y; [rewrite ST; tauto|tauto].
      * intros i y. rewrite !fupd_eq. stg x y.
        -- destruct (Nat.eqb_spec i (s_oid s x)) as [->|N]; [split; [discriminate|intros (_ & X); discriminate]|]. rewrite (si_res s I), ST. cbn. split; [intros (X & _); congruence|intros (_ & X); discriminate].
        -- destruct (Nat.eqb_spec i (s_oid s x)) as [->|N]; [|apply (si_res s I)]. rewrite <- (si_res s I), RX. split; [discriminate|congruence].
      * intros G y. rewrite !fupd_eq. stg x y; [discriminate|]. intros H. apply (si_win s I G) in H. now destruct (Nat.eqb (s_oid s y) (s_oid s x)).
      * intros y H. rewrite fupd_eq. stg x y; [congruence|auto].
      * intros u A. rewrite (gone_acts s x I); auto; [now rewrite ST|]. apply not_run; [exact I|congruence|]. apply (not_wait s t x _ I P). rewrite ET. discriminate.
      * intros G r [H|H]; discriminate.
    + (* wait *)
      destruct (s_run s x) eqn:RU; [discriminate|]. injection E as <- <-.
      eapply (sinv_same s _ t); [exact I|exact NI|reflexivity|reflexivity|..]; rewrite ?ET; cbn; auto; try discriminate; [congruence|]. intros G r [H|H]; discriminate.
    + (* join *)
      injection E as <- <-. assert (P : pst (s_pc s t) = Some (x, ODying)) by now rewrite ET. assert (ST : s_st s x = ODying) by now apply (si_st s I t).
      assert (RX : s_res s (s_oid s x) = Some (Own x)) by (apply (si_res s I); now rewrite ST).
      eapply (sinv_move s _ t); [exact I|exact NI|reflexivity|reflexivity|..]; rewrite ?ET; cbn; auto; try discriminate.
      * intros y a [= <- <-]. apply fupd_same.
      * intros y H _. apply fupd_other. intros ->. now apply (H OWin).
      * intros y a [= <- <-]. eauto.
      * intros y a [= <- <-]. eauto.
      * intros y. rewrite (si_obj s I), fupd_eq. stg x y; [rewrite ST; split; discriminate|tauto].
      * intros G i y. rewrite (si_map s I G), fupd_eq. stg x y; [rewrite ST; tauto|tauto].
      * intros i y. rewrite !fupd_eq. stg x y.
        -- destruct (Nat.eqb_spec i (s_oid s x)) as [->|N]; [split; [discriminate|intros (_ & X); discriminate]|]. rewrite (si_res s I), ST. cbn. split; [intros (X & _); congruence|intros (_ & X); discriminate].
        -- destruct (Nat.eqb_spec i (s_oid s x)) as [->|N]; [|apply (si_res s I)]. rewrite <- (si_res s I), RX. split; [discriminate|congruence].
      * intros G y. rewrite !fupd_eq. stg x y; [now rewrite Nat.eqb_refl|]. intros H. apply (si_win s I G) in H. now destruct (Nat.eqb (s_oid s y) (s_oid s x)).
      * intros y H. rewrite fupd_eq. stg x y; [congruence|auto].
      * intros u A. rewrite (gone_acts s x I); auto; [now rewrite ST|]. apply not_run; [exact I|congruence|]. apply (not_wait s t x _ I P). rewrite ET. discriminate.
      * intros G r [H|H]; discriminate.
    + (* erase *)
      injection E as <- <-. assert (ST : s_st s x = OWin) by (apply (si_st s I t); now rewrite ET).
      assert (MX : g = true -> s_map s (s_oid s x) = Some x) by (intros G; apply (si_map s I G); now rewrite ST).
      eapply (sinv_move s _ t); [exact I|exact NI|reflexivity|reflexivity|..]; rewrite ?ET; cbn; auto; try discriminate.
      * apply holder; [exact I|now rewrite ET].
      * intros y a [= <- <-]. apply fupd_same.
      * intros y H _. apply fupd_other. intros ->. now apply (H ODead).
      * intros y a [= <- <-]. eauto.
      * intros y a [= <- <-]. eauto.
      * intros y. rewrite (si_obj s I), fupd_eq. stg x y; [rewrite ST; split; discriminate|tauto].
      * intros G i y. rewrite !fupd_eq. stg x y.
        -- destruct (Nat.eqb_spec i (s_oid s x)) as [->|N]; [split; [discriminate|intros (_ & X); discriminate]|]. rewrite (si_map s I G), ST. cbn. split; [intros (X & _); congruence|intros (_ & X); discriminate].
        -- destruct (Nat.eqb_spec i (s_oid s x)) as [->|N]; [|apply (si_map s I G)]. rewrite <- (si_map s I G), (MX G). split; [discriminate|congruence].
      * intros i y. rewrite (si_res s I), fupd_eq. stg x y; [rewrite ST; tauto|tauto].
      * intros G y. rewrite !fupd_eq. stg x y; [discriminate|apply (si_win s I G)].
      * intros y H. rewrite fupd_eq. stg x y; [congruence|auto].
      * intros G r [H|H]; discriminate.
    + (* delete *)
      injection E as <- <-. assert (ST : s_st s x = ODead) by (apply (si_st s I t); now rewrite ET).
      eapply (sinv_move s _ t); [exact I|exact NI|reflexivity|reflexivity|..]; rewrite ?ET; cbn; auto; try discriminate.
      * apply holder; [exact I|now rewrite ET].
      * intros y _ H. apply fupd_other. intros ->. now apply (H ODead).
      * intros y a [= <- <-]. right. left. apply fupd_same.
      * intros y. rewrite !fupd_eq. stg x y; [split; congruence|apply (si_obj s I)].
      * intros G i y. rewrite (si_map s I G), fupd_eq. stg x y; [rewrite ST; tauto|tauto].
      * intros i y. rewrite (si_res s I), fupd_eq. stg x y; [rewrite ST; tauto|tauto].
      * intros G y. rewrite fupd_eq. stg x y; [discriminate|apply (si_win s I G)].
      * intros y H. rewrite fupd_eq. stg x y; [congruence|auto].
      * intros G r [H|H]; discriminate.
    + (* find *)
      injection E as <- <-. eapply (sinv_same s _ t); [exact I|exact NI|reflexivity|reflexivity|..]; rewrite ?ET; cbn; auto; try discriminate.
      * apply holder; [exact I|now rewrite ET].
      * intros G r [H|H]; [|discriminate]. injection H as <-. apply find_right; [exact G|exact I|]. apply (si_act s I). rewrite ET. discriminate.
    + (* unlock *)
      injection E as <- <-. eapply (sinv_same s _ t); [exact I|exact NI|reflexivity|reflexivity|..]; rewrite ?ET; cbn; auto; try discriminate.
      intros G r' [H|H]; [discriminate|]. injection H as ->. apply (si_cur s I G). rewrite ET. now left.
    + (* return *)
      injection E as <- <-. destruct r as [x|w| |r].
      * assert (ST : s_st s x = OMade) by (apply (si_st s I t); now rewrite ET).
        eapply (sinv_move s _ t); [exact I|exact NI|reflexivity|reflexivity|..]; rewrite ?ET; cbn; auto; try discriminate.
        -- intros y _ H. apply fupd_other. intros ->. now apply (H OMade).
        -- intros y a [= <- <-]. right. right. apply fupd_same.
        -- intros y. rewrite (si_obj s I), fupd_eq. stg x y; [rewrite ST; split; discriminate|tauto].
        -- intros G i y. rewrite (si_map s I G), fupd_eq. stg x y; [rewrite ST; tauto|tauto].
        -- intros i y. rewrite (si_res s I), fupd_eq. stg x y; [rewrite ST; tauto|tauto].
        -- intros G y. rewrite fupd_eq. stg x y; [discriminate|apply (si_win s I G)].
        -- intros y H. rewrite fupd_eq. stg x y; auto.
        -- intros G r [H|H]; discriminate.
      * eapply (sinv_same s _ t); [exact I|exact NI|reflexivity|reflexivity|..]; rewrite ?ET; cbn; auto; try discriminate. intros G r [H|H]; discriminate.
      * eapply (sinv_same s _ t); [exact I|exact NI|reflexivity|reflexivity|..]; rewrite ?ET; cbn; auto; try discriminate. intros G r [H|H]; discriminate.
      * eapply (sinv_same s _ t); [exact I|exact NI|reflexivity|reflexivity|..]; rewrite ?ET; cbn; auto; try discriminate. intros G r' [H|H]; discriminate.
  - destruct (s_pc s t) as [|c| |x|x|x|x|x|x|x|x|x|x|x|x|x| |r|r] eqn:ET; try discriminate; injection E as <- <-;
      (assert (NI : s_pc s t <> PIdle \/ s_acts s t = true) by (left; rewrite ET; discriminate)); (assert (MT : s_mtx s = Some t) by (apply holder; [exact I|now rewrite ET])).
    + eapply (sinv_same s _ t); [exact I|exact NI|reflexivity|reflexivity|..]; rewrite ?ET; cbn; auto; try discriminate. intros G r [H|H]; discriminate.
    + assert (ST : s_st s x = ONew) by (apply (si_st s I t); now rewrite ET).
      eapply (sinv_move s _ t); [exact I|exact NI|reflexivity|reflexivity|..]; rewrite ?ET; cbn; auto; try discriminate.
      * intros y a [= <- <-]. apply fupd_same.
      * intros y H _. apply fupd_other. intros ->. now apply (H ODead).
      * intros y a [= <- <-]. eauto.
      * intros y a [= <- <-]. eauto.
      * intros y. rewrite (si_obj s I), fupd_eq. stg x y; [rewrite ST; split; discriminate|tauto].
      * intros G i y. rewrite (si_map s I G), fupd_eq. stg x y; [rewrite ST; tauto|tauto].
      * intros i y. rewrite (si_res s I), fupd_eq. stg x y; [rewrite ST; tauto|tauto].
      * intros G y. rewrite fupd_eq. stg x y; [discriminate|apply (si_win s I G)].
      * intros y H. rewrite fupd_eq. stg x y; [congruence|auto].
      * intros G r [H|H]; discriminate.
    + eapply (sinv_same s _ t); [exact I|exact NI|reflexivity|reflexivity|..]; rewrite ?ET; cbn; auto; try discriminate. intros G r [H|H]; discriminate.
  - (* new *)
    destruct (s_pc s t) as [|c| |y|y|y|y|y|y|y|y|y|y|y|y|y| |r|r] eqn:ET; try discriminate. destruct (s_obj s x) eqn:OX; [discriminate|]. injection E as <- <-.
    assert (NI : s_pc s t <> PIdle \/ s_acts s t = true) by (left; rewrite ET; discriminate).
    assert (ST : s_st s x = ONone). { destruct (s_st s x) eqn:X; [reflexivity|..]; (assert (s_obj s x = true) by (apply (si_obj s I); congruence)); congruence. }
    eapply (sinv_move s _ t); [exact I|exact NI|reflexivity|reflexivity|..]; rewrite ?ET; cbn; auto; try discriminate.
    + apply holder; [exact I|now rewrite ET].
    + intros y a [= <- <-]. apply fupd_same.
    + intros y H _. apply fupd_other. intros ->. now apply (H ONew).
    + intros y a [= <- <-]. auto.
    + intros y. rewrite !fupd_eq. stg x y; [split; congruence|apply (si_obj s I)].
    + intros G i y. rewrite (si_map s I G), fupd_eq. stg x y; [rewrite ST; tauto|tauto].
    + intros i y. rewrite (si_res s I), fupd_eq. stg x y; [rewrite ST; tauto|tauto].
    + intros G y. rewrite fupd_eq. stg x y; [discriminate|apply (si_win s I G)].
    + intros y H. rewrite fupd_eq. stg x y; [congruence|auto].
    + intros G r [H|H]; discriminate.
  - (* a native thread for the object *)
    destruct (s_pc s t) as [|c| |x|x|x|x|x|x|x|x|x|x|x|x|x| |r|r] eqn:ET; try discriminate. destruct (s_res s i) eqn:RI; [discriminate|]. injection E as <- <-.
    assert (NI : s_pc s t <> PIdle \/ s_acts s t = true) by (left; rewrite ET; discriminate).
    assert (ST : s_st s x = ONew) by (apply (si_st s I t); now rewrite ET).
    eapply (sinv_move s _ t); [exact I|exact NI|reflexivity|reflexivity|..]; rewrite ?ET; cbn; auto; try discriminate.
    + apply holder; [exact I|now rewrite ET].
    + intros y a [= <- <-]. apply fupd_same.
    + intros y H _. apply fupd_other. intros ->. now apply (H ONat).
    + intros y a [= <- <-]. eauto.
    + intros y a [= <- <-]. eauto.
    + intros y. rewrite (si_obj s I), fupd_eq. stg x y; [rewrite ST; split; discriminate|tauto].
    + intros G j y. rewrite (si_map s I G), !fupd_eq. stg x y; [rewrite ST; cbn; split; intros (_ & X); discriminate|tauto].
    + intros j y. rewrite !fupd_eq. stg x y.
      * destruct (Nat.eqb_spec j i) as [->|N]; [tauto|]. rewrite (si_res s I), ST. cbn. split; [intros (_ & X); discriminate|intros (X & _); congruence].
      * destruct (Nat.eqb_spec j i) as [->|N]; [|apply (si_res s I)]. rewrite <- (si_res s I), RI. split; congruence.
    + intros G y. rewrite !fupd_eq. stg x y; [discriminate|]. intros H. destruct (Nat.eqb_spec (s_oid s y) i) as [X|N]; [|now apply (si_win s I G)]. exfalso.
      destruct (si_own s I y) as [A|[A|(u & a & A)]]; [congruence|congruence|]. pose proof (si_st s I _ _ _ A) as B.
      apply (FR G u y); [|exact X]. rewrite H in B. destruct (s_pc s u) as [|[|?|]| | | | | | | | | | | | | | | |[| | |]|[| | |]]; cbn in A; try discriminate; injection A as -> <-; try discriminate; auto.
    + intros y H. rewrite fupd_eq. stg x y; [congruence|auto].
    + exact (born_acts s i _ RI).
    + intros G r [H|H]; discriminate.
  - destruct (s_res s i) eqn:RI; [discriminate|]. injection E as <- <-. pose proof I as [A1 A2 A3 A4 A5 A6 A7 A8 A9 A10 A11]. constructor; cbn; auto.
    + intros j x. rewrite fupd_eq. destruct (Nat.eqb_spec j i) as [->|N]; [|apply A7]. rewrite <- A7, RI. split; congruence.
    + intros G y H. rewrite fupd_eq. destruct (Nat.eqb_spec (s_oid s y) i) as [X|N]; [|now apply A8]. exfalso.
      destruct (A4 y) as [A|[A|(u & a & A)]]; [congruence|congruence|]. pose proof (A2 _ _ _ A) as B.
      apply (FR G u y); [|exact X]. rewrite H in B. destruct (s_pc s u) as [|[|?|]| | | | | | | | | | | | | | | |[| | |]|[| | |]]; cbn in A; try discriminate; injection A as -> <-; try discriminate; auto.
    + intros t H. apply (acts_res s); [now apply A10| |reflexivity]. cbn. now apply born_acts; [|apply A10].
    + intros G t r H. rewrite born_acts; [now apply A11|exact RI|]. apply A10. destruct H as [H|H]; rewrite H; discriminate.
  - destruct (s_res s i) as [[|?]|] eqn:RI; try discriminate. destruct (s_pc s i) eqn:PI; try discriminate. injection E as <- <-.
    pose proof I as [A1 A2 A3 A4 A5 A6 A7 A8 A9 A10 A11]. constructor; cbn; auto.
    + intros j x. rewrite fupd_eq. destruct (Nat.eqb_spec j i) as [->|N]; [|apply A7]. rewrite <- A7, RI. split; congruence.
    + intros G y H. rewrite fupd_eq. destruct (Nat.eqb (s_oid s y) i); [reflexivity|now apply A8].
    + intros t H. assert (t <> i) by congruence. apply (acts_res s); [now apply A10| |reflexivity]. cbn. now apply fupd_other.
    + intros G t r H. assert (t <> i) by (intros ->; destruct H; congruence). rewrite fupd_other by assumption. now apply A11.
  - destruct (s_st s x) eqn:SX; try discriminate. injection E as <- <-. pose proof I as [A1 A2 A3 A4 A5 A6 A7 A8 A9 A10 A11]. constructor; cbn; auto.
    + intros y. rewrite fupd_eq. stg x y; auto.
    + intros t H. specialize (A10 t H). unfold s_acts in *. cbn. destruct (s_res s t) as [[|y]|]; auto. rewrite fupd_eq. now destruct (Nat.eqb y x).
  - destruct (s_pc s (s_oid s x)) eqn:EP; try discriminate. destruct (s_run s x) eqn:RU; [|discriminate]. injection E as <- <-.
    pose proof I as [A1 A2 A3 A4 A5 A6 A7 A8 A9 A10 A11]. constructor; cbn; auto.
    + intros y. rewrite fupd_eq. stg x y; [discriminate|auto].
    + intros t H. specialize (A10 t H). pose proof A10 as X. unfold s_acts. cbn. unfold s_acts in X. destruct (s_res s t) as [[|y]|] eqn:RT; auto. rewrite fupd_eq.
      stg x y; [|exact X]. destruct (act_run s t x I A10 RT) as (_ & Y & _). congruence.
Qed.
End G.

(** * the history *)
Lemma reach g : forall ls s s' es, sinv g s -> (g = true -> always fresh_at s ls) -> exec s_step s ls = Some (s', es) -> sinv g s'.
Proof.
  induction ls as [|l ls IH]; intros s s' es I F E; cbn in E; [now injection E as <- <-|].
  destruct (s_step s l) as [[s1 e]|] eqn:E1; [|discriminate]. destruct (exec s_step s1 ls) as [[s2 e2]|] eqn:E2; [|discriminate]. injection E as <- <-.
  apply (IH s1 s2 e2); [|intros G; specialize (F G); cbn in F; rewrite E1 in F; apply F|exact E2].
  apply (sinv_step g s l s1 e I); [intros G; now apply F|exact E1].
Qed.
Lemma reach_any app ls s es : exec s_step (s_init app) ls = Some (s, es) -> sinv false s.
Proof. intros E. apply (reach false ls (s_init app) s es); [apply sinv_init|discriminate|exact E]. Qed.
Lemma reach_fresh app ls s es : exec s_step (s_init app) ls = Some (s, es) -> fresh_ids app ls -> sinv true s.
Proof. intros E F. apply (reach true ls (s_init app) s es); [apply sinv_init|intros _; exact F|exact E]. Qed.

Definition live_ok (s : sst) (es : sout) : Prop := forall x, s_st s x = OLive <-> in_use x es.
Lemma live_nil s s' es : live_ok s es -> (forall x, s_st s' x = OLive <-> s_st s x = OLive) -> live_ok s' (es ++ []).
Proof. intros H E p. now rewrite E, app_nil_r. Qed.
Lemma live_upd s st es x a : live_ok s es -> s_st s x <> OLive -> a <> OLive -> (forall y, st y = fupd (s_st s) x a y) -> forall y, st y = OLive <-> s_st s y = OLive.
Proof. intros L A B H y. rewrite H, fupd_eq. destruct (Nat.eqb_spec y x) as [->|]; [split; contradiction|tauto]. Qed.
Lemma live_step s l s' e es : sinv false s -> live_ok s es -> s_step s l = Some (s', e) -> live_ok s' (es ++ e).
Proof.
  intros I L E.
  assert (CL : forall t c s1, s_st s1 = s_st s -> (forall p, c <> TDestroy p) -> live_ok s1 (es ++ [Call t c])).
  { intros t c s1 E1 N p. rewrite E1, ItronThreadFactoryProofs.in_use_snoc, (L p). split; [intros H; right; split; [exact H|]; intros u [= -> ->]; now elim (N p)|]. intros [(u & X)|(X & _)]; [discriminate|exact X]. }
  assert (RT : forall t r s1, s_st s1 = s_st s -> (forall p, r <> TThread p) -> live_ok s1 (es ++ [Ret t r])).
  { intros t r s1 E1 N p. rewrite E1, ItronThreadFactoryProofs.in_use_snoc, (L p). split; [intros H; right; split; [exact H|discriminate]|]. intros [(u & X)|(X & _)]; [injection X as -> ->; now elim (N p)|exact X]. }
  assert (UP : forall t x a b s1, pst (s_pc s t) = Some (x, a) -> a <> OLive -> b <> OLive -> s_st s1 = fupd (s_st s) x b -> live_ok s1 (es ++ [])).
  { intros t x a b s1 P A B H. apply (live_nil s); [exact L|]. apply (live_upd s _ es x b L); [|exact B|intros; now rewrite H]. rewrite (si_st _ s I t x a P). exact A. }
  destruct l as [t c|t|t|t x|t i|i|i|x|x]; cbn beta iota delta [s_step] in E.
  - destruct (s_pc s t); try discriminate. destruct (s_acts s t); [|discriminate]. destruct c as [|p|].
    + injection E as <- <-. now apply CL.
    + destruct (s_st s p) eqn:LP; try discriminate. destruct (s_oid s p =? t); [discriminate|]. cbn in E. injection E as <- <-.
      intros q. cbn. rewrite fupd_eq, ItronThreadFactoryProofs.in_use_snoc. destruct (Nat.eqb_spec q p) as [->|N].
      * split; [discriminate|]. intros [(u & X)|(_ & X)]; [discriminate|now elim (X t)].
      * rewrite (L q). split; [intros H; right; split; [exact H|congruence]|]. intros [(u & X)|(X & _)]; [discriminate|exact X].
    + injection E as <- <-. now apply CL.
  - destruct (s_pc s t) as [|c| |x|x|x|x|x|x|x|x|x|x|x|x|x| |r|r] eqn:ET; try discriminate;
      try (injection E as <- <-; apply (live_nil s); [exact L|reflexivity]; fail);
      try (injection E as <- <-; eapply (UP t); [rewrite ET; reflexivity| | |reflexivity]; discriminate).
    + destruct (s_mtx s); [discriminate|]. injection E as <- <-. apply (live_nil s); [exact L|reflexivity].
    + destruct (s_mtx s); [discriminate|]. injection E as <- <-. apply (live_nil s); [exact L|reflexivity].
    + destruct (s_mtx s); [discriminate|]. injection E as <- <-. apply (live_nil s); [exact L|reflexivity].
    + destruct (s_run s x); [discriminate|]; injection E as <- <-; (apply (live_nil s); [exact L|reflexivity]).
    + injection E as <- <-. destruct r as [p|w| |r]; try (apply RT; [reflexivity|discriminate]).
      intros q. cbn. rewrite fupd_eq, ItronThreadFactoryProofs.in_use_snoc. destruct (Nat.eqb_spec q p) as [->|N].
      * split; [intros _; left; eauto|reflexivity].
      * rewrite (L q). split; [intros H; right; split; [exact H|discriminate]|]. intros [(u & X)|(X & _)]; [congruence|exact X].
  - destruct (s_pc s t) as [|c| |x|x|x|x|x|x|x|x|x|x|x|x|x| |r|r] eqn:ET; try discriminate;
      try (injection E as <- <-; apply (live_nil s); [exact L|reflexivity]; fail);
      try (injection E as <- <-; eapply (UP t); [rewrite ET; reflexivity| | |reflexivity]; discriminate).
  - destruct (s_pc s t) as [|c| |y|y|y|y|y|y|y|y|y|y|y|y|y| |r|r] eqn:ET; try discriminate. destruct (s_obj s x) eqn:OX; [discriminate|]. injection E as <- <-.
    apply (live_nil s); [exact L|]. apply (live_upd s _ es x ONew L); [|discriminate|reflexivity].
    intros X. assert (s_obj s x = true) by (apply (si_obj _ s I); congruence). congruence.
  - destruct (s_pc s t) as [|c| |x|x|x|x|x|x|x|x|x|x|x|x|x| |r|r] eqn:ET; try discriminate. destruct (s_res s i); [discriminate|]. injection E as <- <-.
    eapply (UP t); [rewrite ET; reflexivity| | |reflexivity]; discriminate.
  - destruct (s_res s i); [discriminate|]. injection E as <- <-. apply (live_nil s); [exact L|reflexivity].
  - destruct (s_res s i) as [[|?]|]; try discriminate. destruct (s_pc s i); try discriminate. injection E as <- <-. apply (live_nil s); [exact L|reflexivity].
  - destruct (is_live (s_st s x)); [|discriminate]. injection E as <- <-. apply (live_nil s); [exact L|reflexivity].
  - destruct (s_pc s _); try discriminate. destruct (s_run s x); [|discriminate]. injection E as <- <-. apply (live_nil s); [exact L|reflexivity].
Qed.
Lemma s_reach app ls s es : exec s_step (s_init app) ls = Some (s, es) -> sinv false s /\ live_ok s es.
Proof.
  intros E. refine (exec_inv _ _ _ s_step (fun s es => sinv false s /\ live_ok s es) _ ls (s_init app) [] s es (conj (sinv_init false app) _) E).
  - intros s0 es0 l s1 es1 (A & B) E1. split; [apply (sinv_step false s0 l s1 es1 A); [discriminate|exact E1]|exact (live_step _ _ _ _ _ A B E1)].
  - intros p. split; [discriminate|]. intros (e1 & e2 & t & X & _). destruct e1; discriminate.
Qed.
Lemma ret_step s l s' e t r : s_step s l = Some (s', e) -> In (Ret t r) e -> l = VStep t /\ s_pc s t = PRet r.
Proof.
  intros E H. destruct l as [u c|u|u|u x|u i|i|i|x|x]; cbn beta iota delta [s_step] in E.
  - destruct (s_pc s u); try discriminate. destruct (s_acts s u); [|discriminate]. destruct c as [|p|]; [| destruct (_ && _); [|discriminate]|]; injection E as <- <-; destruct H as [H|[]]; discriminate.
  - destruct (s_pc s u) as [|c| |x|x|x|x|x|x|x|x|x|x|x|x|x| |r'|r'] eqn:EP; try discriminate;
      try (injection E as <- <-; destruct H; fail).
    + destruct (s_mtx s); [discriminate|]. injection E as <- <-; destruct H.
    + destruct (s_mtx s); [discriminate|]. injection E as <- <-; destruct H.
    + destruct (s_mtx s); [discriminate|]. injection E as <- <-; destruct H.
    + destruct (s_run s x); [discriminate|]; injection E as <- <-; destruct H.
    + injection E as <- <-. destruct H as [H|[]]. injection H as <- <-. auto.
  - destruct (s_pc s u); try discriminate; injection E as <- <-; destruct H.
  - destruct (s_pc s u); try discriminate. destruct (s_obj s x); [discriminate|]. injection E as <- <-; destruct H.
  - destruct (s_pc s u); try discriminate. destruct (s_res s i); [discriminate|]. injection E as <- <-; destruct H.
  - destruct (s_res s i); [discriminate|]. injection E as <- <-; destruct H.
  - destruct (s_res s i) as [[|?]|]; try discriminate. destruct (s_pc s i); try discriminate. injection E as <- <-; destruct H.
  - destruct (is_live (s_st s x)); [|discriminate]. injection E as <- <-; destruct H.
  - destruct (s_pc s _); try discriminate. destruct (s_run s x); [|discriminate]. injection E as <- <-; destruct H.
Qed.

(** * theorems *)
Theorem s_current app ls s es l s' e t r : exec s_step (s_init app) ls = Some (s, es) -> fresh_ids app ls -> s_step s l = Some (s', e) -> In (Ret t (TCur r)) e ->
  r = thread_of (s_res s t) /\ forall x, r = Some x -> s_run s x = true /\ s_obj s x = true.
Proof.
  intros E F E1 H. pose proof (reach_fresh _ _ _ _ E F) as I. destruct (ret_step _ _ _ _ _ _ E1 H) as (_ & P).
  assert (R : r = thread_of (s_res s t)) by (apply (si_cur _ s I eq_refl); now right). split; [exact R|].
  intros x X. rewrite X in R. destruct (s_res s t) as [[|q]|] eqn:RT; cbn in R; try discriminate. injection R as <-.
  assert (A : s_acts s t = true) by (apply (si_act _ s I); rewrite P; discriminate). destruct (act_run true s t x I A RT) as (B & _). split; [exact B|].
  apply (si_obj _ s I). apply (si_res _ s I) in RT. destruct RT as (_ & RT). intros Z. rewrite Z in RT. discriminate.
Qed.
Lemma always_weaken (P Q : sst -> slab -> Prop) : (forall s l, P s l -> Q s l) -> forall ls s, always P s ls -> always Q s ls.
Proof.
  intros H ls. induction ls as [|l ls IH]; intros s; cbn; [auto|]. intros (A & B). split; [now apply H|]. destruct (s_step s l) as [[s1 e]|]; [now apply IH|auto].
Qed.
Lemma calm_fresh app ls : calm app ls -> fresh_ids app ls.
Proof.
  apply always_weaken. intros s l H. destruct l; cbn; auto; intros u x [P|P]; elim (H Logic.I u); rewrite P; exact Logic.I.
Qed.
Theorem s_in_use_owns app ls s es x : exec s_step (s_init app) ls = Some (s, es) -> in_use x es ->
  s_obj s x = true /\ exists i, s_res s i = Some (Own x) /\ forall j, s_res s j = Some (Own x) -> j = i.
Proof.
  intros E U. destruct (s_reach _ _ _ _ E) as (I & L). apply L in U. split; [apply (si_obj _ s I); congruence|].
  exists (s_oid s x). split; [apply (si_res _ s I); now rewrite U|]. intros j J. apply (si_res _ s I) in J. symmetry. apply J.
Qed.
Lemma idle_live s es x : sinv false s -> live_ok s es -> (forall t, s_idle s t) -> s_st s x <> ONone -> in_use x es.
Proof. intros I L D N. apply L. destruct (si_own _ s I x) as [A|[A|(t & a & A)]]; [contradiction|exact A|]. unfold s_idle in D. rewrite D in A. discriminate. Qed.
Theorem s_no_leak app ls s es : exec s_step (s_init app) ls = Some (s, es) -> (forall t, s_idle s t) ->
  (forall i x, s_res s i = Some (Own x) -> in_use x es) /\ (forall x, s_obj s x = true -> in_use x es).
Proof.
  intros E D. destruct (s_reach _ _ _ _ E) as (I & L). split.
  - intros i x H. apply (idle_live s es x I L D). apply (si_res _ s I) in H. intros Z. rewrite Z in H. destruct H. discriminate.
  - intros x H. apply (idle_live s es x I L D). now apply (si_obj _ s I).
Qed.
Theorem s_distinct app ls s es l s' e t x : exec s_step (s_init app) ls = Some (s, es) -> s_step s l = Some (s', e) -> In (Ret t (TThread x)) e -> ~ in_use x es.
Proof.
  intros E E1 H U. destruct (s_reach _ _ _ _ E) as (I & L). apply L in U. destruct (ret_step _ _ _ _ _ _ E1 H) as (_ & P).
  assert (s_st s x = OMade) by (apply (si_st _ s I t); now rewrite P). congruence.
Qed.
Theorem s_progress app ls s es : exec s_step (s_init app) ls = Some (s, es) -> s_stuck s -> forall t, s_idle s t \/ exists x, s_pc s t = DWait x /\ s_run s x = true.
Proof.
  intros E ST. destruct (s_reach _ _ _ _ E) as (I & _).
  assert (CS : forall t, cs (s_pc s t) = false).
  { intros t. destruct (cs (s_pc s t)) eqn:X; [|reflexivity]. pose proof (ST (VStep t) Logic.I) as A. pose proof (ST (VThrow t) Logic.I) as B.
    cbn beta iota delta [s_step] in A, B. destruct (s_pc s t); cbn in X; discriminate. }
  intros t. pose proof (ST (VStep t) Logic.I) as A. pose proof (CS t) as CT. cbn beta iota delta [s_step] in A. unfold s_idle.
  assert (NM : s_mtx s = None). { destruct (s_mtx s) as [u|] eqn:M; [|reflexivity]. apply (si_lock _ s I) in M. rewrite CS in M. discriminate. }
  rewrite NM in A. destruct (s_pc s t) as [|c| |x|x|x|x|x|x|x|x|x|x|x|x|x| |r|r] eqn:EP; cbn in CT; try discriminate; auto.
  right. exists x. split; [reflexivity|]. destruct (s_run s x); [reflexivity|discriminate].
Qed.
Definition sm (q : spc) : nat :=
  match q with
  | PIdle => 0 | PRet _ => 1 | PUnl _ => 2 | SDel _ | DDel _ | GScan => 3 | SLockF _ | DErase _ => 4 | SUnlF _ | SJoinG _ => 5 | SUnlG _ => 6 | SIns _ => 7 | SLock2 _ => 8 | SUnl1 _ => 9 | SBegin _ => 10
  | SNew => 11 | PLock (TDestroy _) => 5 | PLock _ => 12 | DJoin _ => 6 | DWait _ => 7
  end.
Lemma s_step_decr s l s' e : s_own_step l -> s_step s l = Some (s', e) -> exists t q, s_pc s' = fupd (s_pc s) t q /\ sm q < sm (s_pc s t).
Proof.
  intros P E. destruct l as [t c|t|t|t x|t i|i|i|x|x]; cbn in P; try tauto; cbn beta iota delta [s_step] in E; exists t.
  - destruct (s_pc s t) as [|c| |x|x|x|x|x|x|x|x|x|x|x|x|x| |r|r] eqn:EP; try discriminate;
      try (injection E as <- <-; eexists; split; [reflexivity|cbn; lia]; fail).
    + destruct (s_mtx s); [discriminate|]. injection E as <- <-. eexists; split; [reflexivity|destruct c; cbn; lia].
    + destruct (s_mtx s); [discriminate|]. injection E as <- <-. eexists; split; [reflexivity|cbn; lia].
    + destruct (s_mtx s); [discriminate|]. injection E as <- <-. eexists; split; [reflexivity|cbn; lia].
    + destruct (s_run s x); [discriminate|]; injection E as <- <-; (eexists; split; [reflexivity|cbn; lia]).
  - destruct (s_pc s t) eqn:EP; try discriminate; injection E as <- <-; (eexists; split; [reflexivity|cbn; lia]).
  - destruct (s_pc s t) eqn:EP; try discriminate. destruct (s_obj s x); [discriminate|]. injection E as <- <-. eexists; split; [reflexivity|cbn; lia].
  - destruct (s_pc s t) eqn:EP; try discriminate. destruct (s_res s i); [discriminate|]. injection E as <- <-. eexists; split; [reflexivity|cbn; lia].
Qed.
Theorem s_bounded n ls s s' es : (forall t, n <= t -> s_idle s t) -> (forall l, In l ls -> s_own_step l) -> exec s_step s ls = Some (s', es) -> length ls <= n * 12.
Proof.
  intros ID OW E. set (m := fun s => sumn (fun t => sm (s_pc s t)) n).
  assert (H : length ls + m s' <= m s).
  { refine (exec_measure _ _ _ s_step (fun s => forall t, n <= t -> s_idle s t) s_own_step m _ ls s s' es ID OW E).
    clear. intros s l s' e ID P E. destruct (s_step_decr s l s' e P E) as (t & q & ET & D).
    assert (T : t < n). { destruct (Nat.lt_ge_cases t n) as [X|X]; [exact X|]. specialize (ID t X). unfold s_idle in ID. rewrite ID in D. cbn in D. lia. }
    split.
    - intros u U. unfold s_idle. rewrite ET, fupd_other by lia. now apply ID.
    - unfold m. pose proof (sumn_change n (fun u => sm (s_pc s u)) (fun u => sm (s_pc s' u)) t T) as C. cbn beta in C.
      rewrite ET, fupd_same in C. rewrite ET. assert (X : forall u, u <> t -> sm (fupd (s_pc s) t q u) = sm (s_pc s u)) by (intros u U; now rewrite fupd_other).
      specialize (C X). lia. }
  assert (m s <= n * 12). { apply sumn_bound. intros k _. destruct (s_pc s k) as [|[| |]| | | | | | | | | | | | | | | | |]; cbn; lia. }
  lia.
Qed.
