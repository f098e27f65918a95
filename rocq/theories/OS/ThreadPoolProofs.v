(** Proofs about OS/ThreadPoolModel. *)
From Coq Require Import List ZArith Bool Arith Lia Permutation.
Import ListNotations.
From Verif Require Import Spec.OSError Spec.Linear Spec.ThreadPoolSpec OS.Sched OS.ThreadPoolModel.

(** who is responsible for a runner *)
Inductive owner := OQueue | OClient (t : nat) | OTask (j : job) | OGuard (t g : nat) (j : job) | OLost.
Definition quiet (w : wpc) : Prop := w = WOff \/ w = WEnd.
Definition is_some {A} (o : option A) : bool := match o with Some _ => true | None => false end.

Section P.
  Variable N : nat.
  Variable dflt : Z.
  Variable ext_prio : nat -> Z.
  Notation step := (p_step N dflt ext_prio).
  Notation resolve := (resolve N ext_prio).

  Definition hold_ok (s : pst) (t r : nat) (k : stage) (x : task) (g : option nat) (p : option Z) : Prop :=
    x <> 0 /\
    match k with
    | SJoin => quiet (p_run s r) /\ p_prio s r = dflt
    | STask => p_run s r = WOff /\ p_prio s r = dflt
    | SNeeds => p_run s r = WOff /\ p_task s r = x
    | SPrio => p_run s r = WOff /\ p_task s r = x /\ p_needs s r = is_some g
    | SGo => p_run s r = WOff /\ p_task s r = x /\ p_needs s r = is_some g /\ p_prio s r = resolve s t p
    end.
  Definition runner_ok (s : pst) (r : nat) (o : owner) : Prop :=
    match o with
    | OQueue | OLost => quiet (p_run s r) /\ p_ev s r = false /\ p_prio s r = dflt
    | OClient t => p_ev s r = false /\ match p_thr s t with PHold k r' x ms g p => r' = r /\ hold_ok s t r k x g p | _ => False end
    | OTask j => j_guard j = None /\ p_needs s r = false /\ p_task s r = j_task j /\ j_task j <> 0 /\ p_ev s r = false /\
        match p_run s r with WStarted | WRead | WIn | WAfter APrio _ => p_prio s r = j_prio j | WAfter ANeeds _ | WAfter AReset _ | WAfter ASend _ => p_prio s r = dflt | _ => False end
    | OGuard t g j => j_guard j = Some (t, g) /\ p_needs s r = true /\ p_task s r = j_task j /\ j_task j <> 0 /\ p_guard s t g = Some r /\
        match p_run s r with
        | WStarted | WRead | WIn | WAfter APrio _ => p_prio s r = j_prio j /\ p_ev s r = false
        | WAfter ANeeds _ | WAfter ANotify _ => p_prio s r = dflt /\ p_ev s r = false
        | WEnd | WOff => p_prio s r = dflt /\ (p_ev s r = true \/ (p_ev s r = false /\ p_thr s t = PRel true r g))
        | _ => False
        end
    end.
  Definition client_ok (s : pst) (own : nat -> owner) (t : nat) : Prop :=
    match p_thr s t with
    | PHold k r x ms g p => r < N /\ own r = OClient t /\ (forall i, g = Some i -> p_guard s t i = None)
    | PRel b r g => p_guard s t g = Some r /\ quiet (p_run s r) /\ p_ev s r = negb b
    | PAt (PBegin _ _) | PAt (PEnd _ _) => False
    | PAt (PStart _ _ g _) => forall i, g = Some i -> p_guard s t i = None
    | _ => True
    end.
  Record Inv (s : pst) (own : nat -> owner) : Prop := mkInv {
    iv_nodup : NoDup (p_q s);
    iv_q : forall r, In r (p_q s) <-> r < N /\ own r = OQueue;
    iv_run : forall r, r < N -> runner_ok s r (own r);
    iv_off : forall r, N <= r -> p_run s r = WOff;
    iv_thr : forall t, client_ok s own t;
    iv_guard : forall t g r, p_guard s t g = Some r -> r < N /\ exists j, own r = OGuard t g j;
    iv_in : forall t, t < N -> p_thr s t <> PIdle -> p_run s t = WIn }.

  Definition own_step (s : pst) (own : nat -> owner) (l : plab) : nat -> owner :=
    match l with
    | XStep t =>
        match p_thr s t with
        | PAt (PStart x _ _ _) => if x =? 0 then own else match p_q s with r :: _ => fupd own r (OClient t) | [] => own end
        | PHold SGo r x ms g p =>
            fupd own r (match g with None => OTask (mkJob x (p_prio s r) None) | Some i => OGuard t i (mkJob x (p_prio s r) (Some (t, i))) end)
        | PRel true r g => fupd own r OQueue
        | _ => own
        end
    | XTimeout t _ => match p_thr s t with PHold SJoin r x ms g p => fupd own r OLost | _ => own end
    | XRun r => match p_run s r with WAfter ASend _ => fupd own r OQueue | _ => own end
    | _ => own
    end.

  Lemma inv_init : Inv (p_init N dflt) (fun _ => OQueue).
  Proof.
    split; cbn; auto.
    - apply seq_NoDup.
    - intros r. rewrite in_seq. split; intros; [split; [lia|reflexivity]|lia].
    - intros r H. split; [left; reflexivity|auto].
    - discriminate.
    - intros t H X. now elim X.
  Qed.

  Lemma resolve_frame s s' t p : (t < N -> p_prio s' t = p_prio s t) -> resolve s' t p = resolve s t p.
  Proof. intros H. unfold ThreadPoolModel.resolve. destruct p; [reflexivity|]. destruct (t <? N) eqn:E; [|reflexivity]. apply H. now apply Nat.ltb_lt. Qed.
  (** what a runner's condition depends on *)
  Lemma runner_frame s s' r o :
    runner_ok s r o ->
    p_run s' r = p_run s r -> p_ev s' r = p_ev s r -> p_prio s' r = p_prio s r -> p_needs s' r = p_needs s r -> p_task s' r = p_task s r ->
    (forall t, o = OClient t -> p_thr s' t = p_thr s t /\ (t < N -> p_prio s' t = p_prio s t)) ->
    (forall t g j, o = OGuard t g j -> p_guard s' t g = p_guard s t g /\ (p_thr s t = PRel true r g -> p_thr s' t = PRel true r g)) ->
    runner_ok s' r o.
  Proof.
    intros H E1 E2 E3 E4 E5 HC HG. destruct o as [|t|j|t g j|]; cbn in *; rewrite ?E1, ?E2, ?E3, ?E4, ?E5; auto.
    - destruct (HC t eq_refl) as (-> & HP). destruct H as (H1 & H2). split; [exact H1|].
      destruct (p_thr s t) as [| |k r' x ms g p| |]; auto. destruct H2 as (-> & H2 & H3). split; [reflexivity|]. split; [exact H2|].
      destruct k; rewrite ?E1, ?E2, ?E3, ?E4, ?E5; auto. rewrite (resolve_frame s s' t p HP). auto.
    - destruct (HG t g j eq_refl) as (EG & HT). rewrite EG. destruct H as (A & B & C & D & F & H). repeat (split; [assumption|]).
      destruct (p_run s r); auto.
      + destruct H as (H1 & [H|(H2 & H)]); split; auto.
      + destruct H as (H1 & [H|(H2 & H)]); split; auto.
  Qed.
  (** an agent moves between states in which it holds nothing *)
  Definition plain (q : ppc) : bool := match q with PHold _ _ _ _ _ _ | PRel _ _ _ => false | _ => true end.
  Lemma inv_go_plain s own t q : Inv s own -> plain (p_thr s t) = true -> plain q = true ->
    (t < N -> q <> PIdle -> p_run s t = WIn) -> client_ok (p_go s t q) own t -> Inv (p_go s t q) own.
  Proof.
    intros H P1 P2 HI HC. destruct H as [A B C D E F G]. split; try assumption.
    - intros r Hr. eapply runner_frame; [exact (C r Hr)|reflexivity..| |].
      + intros u Eu. cbn. split; [|reflexivity]. rewrite fupd_eq. destruct (Nat.eqb_spec u t) as [->|]; [|reflexivity].
        specialize (C r Hr). rewrite Eu in C. cbn in C. destruct C as (_ & C). destruct (p_thr s t); try contradiction. discriminate P1.
      + intros u g j Eu. cbn. split; [reflexivity|]. intros X. rewrite fupd_eq. destruct (Nat.eqb_spec u t) as [->|]; [|exact X].
        rewrite X in P1. discriminate P1.
    - intros u. destruct (Nat.eq_dec u t) as [->|Hu]; [exact HC|]. specialize (E u). unfold client_ok in *. cbn. rewrite fupd_other by exact Hu. exact E.
    - intros u Hu X. cbn in *. rewrite fupd_eq in X. destruct (Nat.eqb_spec u t) as [->|]; [now apply HI|now apply G].
  Qed.
  (** pool thread [r] moves; its condition is shown separately *)
  Lemma inv_worker s s' own r : Inv s own -> r < N ->
    p_q s' = p_q s -> p_guard s' = p_guard s -> p_thr s' = p_thr s ->
    (forall u, u <> r -> p_run s' u = p_run s u /\ p_ev s' u = p_ev s u /\ p_prio s' u = p_prio s u /\ p_needs s' u = p_needs s u /\ p_task s' u = p_task s u) ->
    runner_ok s' r (own r) -> (quiet (p_run s r) -> quiet (p_run s' r) /\ p_ev s' r = p_ev s r) ->
    (p_thr s r <> PIdle -> p_run s' r = WIn) -> (p_run s r = WIn -> p_prio s' r = p_prio s r) -> Inv s' own.
  Proof.
    intros H Hr E1 E2 E3 FR HR HQ HN HP. destruct H as [A B C D E F G]. split; rewrite ?E1, ?E2, ?E3; try assumption.
    - intros u Hu. destruct (Nat.eq_dec u r) as [->|Nu]; [exact HR|]. destruct (FR u Nu) as (F1 & F2 & F3 & F4 & F5).
      eapply runner_frame; [exact (C u Hu)|assumption..| |].
      + intros t Et. split; [now rewrite E3|]. intros Ht. destruct (Nat.eq_dec t r) as [->|Nt]; [|exact (proj1 (proj2 (proj2 (FR t Nt))))].
        apply HP. apply G; [exact Ht|]. specialize (C u Hu). rewrite Et in C. cbn in C. destruct C as (_ & C). destruct (p_thr s r); discriminate || contradiction.
      + intros t g j Et. rewrite E2, E3. auto.
    - intros u Hu. rewrite (proj1 (FR u ltac:(lia))). auto.
    - intros t. specialize (E t). unfold client_ok in *. rewrite E3, E2. destruct (p_thr s t) as [|c|k rr x ms g p|b rr g|]; auto.
      destruct E as (X1 & X2 & X3). destruct (Nat.eq_dec rr r) as [->|Nr].
      + destruct (HQ X2) as (Y1 & Y2). rewrite Y2. auto.
      + destruct (FR rr Nr) as (Y1 & Y2 & _). rewrite Y1, Y2. auto.
    - intros t Ht X. destruct (Nat.eq_dec t r) as [->|Nt]; [now apply HN|]. rewrite (proj1 (FR t Nt)). now apply G.
  Qed.
  (** agent [t] works on the runner it holds *)
  Lemma inv_hold s s' own t r q : Inv s own -> r < N -> own r = OClient t ->
    p_q s' = p_q s -> p_guard s' = p_guard s -> p_run s' = p_run s -> p_thr s' = fupd (p_thr s) t q -> q <> PIdle ->
    (forall u, u <> r -> p_ev s' u = p_ev s u /\ p_prio s' u = p_prio s u /\ p_needs s' u = p_needs s u /\ p_task s' u = p_task s u) ->
    (p_run s r = WIn -> p_prio s' r = p_prio s r) ->
    runner_ok s' r (OClient t) -> client_ok s' own t -> Inv s' own.
  Proof.
    intros H Hr EO E1 E2 E3 E4 Hq FR HP HR HC. destruct H as [A B C D E F G]. split; rewrite ?E1, ?E2, ?E3; try assumption.
    - intros u Hu. destruct (Nat.eq_dec u r) as [->|Nu]; [rewrite EO; exact HR|]. destruct (FR u Nu) as (F2 & F3 & F4 & F5).
      eapply runner_frame; [exact (C u Hu)|try assumption; now rewrite E3| assumption..| |].
      + intros v Ev. rewrite E4, fupd_eq. destruct (Nat.eqb_spec v t) as [->|Nv].
        * exfalso. pose proof (C u Hu) as C1. pose proof (C r Hr) as C2. rewrite Ev in C1. rewrite EO in C2. cbn in C1, C2.
          destruct C1 as (_ & C1), C2 as (_ & C2). destruct (p_thr s t) as [| |k r' x ms g p| |]; try contradiction.
          destruct C1 as (X & _), C2 as (Y & _). congruence.
        * split; [reflexivity|]. intros Hv. destruct (Nat.eq_dec v r) as [->|Nr]; [|exact (proj1 (proj2 (FR v Nr)))].
          apply HP. apply G; [exact Hv|]. specialize (C u Hu). rewrite Ev in C. cbn in C. destruct C as (_ & C). destruct (p_thr s r); discriminate || contradiction.
      + intros v g j Ev. rewrite E2, E4. split; [reflexivity|]. intros X. rewrite fupd_eq. destruct (Nat.eqb_spec v t) as [->|]; [|exact X].
        exfalso. specialize (C r Hr). rewrite EO in C. cbn in C. rewrite X in C. tauto.
    - intros v. destruct (Nat.eq_dec v t) as [->|Hv]; [exact HC|]. specialize (E v). unfold client_ok in *. rewrite E4, E3, E2, fupd_other by exact Hv.
      destruct (p_thr s v) as [|c|k rr x ms g p|b rr g|]; auto. destruct E as (X1 & X2 & X3). split; [exact X1|]. split; [exact X2|].
      destruct (F _ _ _ X1) as (_ & j & X). destruct (FR rr) as (Y & _); [congruence|]. now rewrite Y.
    - intros v Hv X. apply G; [exact Hv|]. rewrite E4, fupd_eq in X. destruct (Nat.eqb_spec v t) as [->|]; [|exact X].
      specialize (C r Hr). rewrite EO in C. cbn in C. destruct C as (_ & C). destruct (p_thr s t); discriminate || contradiction.
  Qed.
  (** runner [r] changes hands; only agent [t] and pool thread [r] are concerned *)
  Lemma inv_own s s' own r o t : Inv s own -> r < N ->
    (forall u, u <> r -> p_run s' u = p_run s u /\ p_ev s' u = p_ev s u /\ p_prio s' u = p_prio s u /\ p_needs s' u = p_needs s u /\ p_task s' u = p_task s u) ->
    (p_run s r = WIn -> p_run s' r = WIn /\ p_prio s' r = p_prio s r) ->
    (forall v, v <> t -> p_thr s' v = p_thr s v /\ p_guard s' v = p_guard s v) ->
    (forall u, u <> r -> u < N -> own u <> OClient t) ->
    (forall v, own r = OClient v -> v = t) -> (forall v g j, own r = OGuard v g j -> v = t) ->
    (forall u g j, u <> r -> u < N -> own u = OGuard t g j -> p_guard s' t g = p_guard s t g /\ p_thr s t <> PRel true u g) ->
    runner_ok s' r o -> NoDup (p_q s') -> (forall u, In u (p_q s') <-> u < N /\ fupd own r o u = OQueue) ->
    client_ok s' (fupd own r o) t ->
    (forall g u, p_guard s' t g = Some u -> u < N /\ exists j, fupd own r o u = OGuard t g j) ->
    (t < N -> p_thr s' t <> PIdle -> p_run s' t = WIn) -> Inv s' (fupd own r o).
  Proof.
    intros H Hr FR HW FT H1 H2 H2' H3 HR HN HQ HC HG HI. destruct H as [A B C D E F G].
    assert (TG : forall v g u, v <> t -> p_guard s v g = Some u -> u <> r).
    { intros v g u Nv X ->. destruct (F _ _ _ X) as (_ & j & Y). apply Nv. eapply H2'; eassumption. }
    split; try assumption.
    - intros u Hu. rewrite fupd_eq. destruct (Nat.eqb_spec u r) as [->|Nu]; [exact HR|]. destruct (FR u Nu) as (F1 & F2 & F3 & F4 & F5).
      eapply runner_frame; [exact (C u Hu)|assumption..| |].
      + intros v Ev. assert (Nv : v <> t) by (intros ->; exact (H1 u Nu Hu Ev)). destruct (FT v Nv) as (-> & _). split; [reflexivity|].
        intros Hv. destruct (Nat.eq_dec v r) as [->|Nr]; [|exact (proj1 (proj2 (proj2 (FR v Nr))))].
        apply HW. apply G; [exact Hv|]. specialize (C u Hu). rewrite Ev in C. cbn in C. destruct C as (_ & C). destruct (p_thr s r); discriminate || contradiction.
      + intros v g j Ev. destruct (Nat.eq_dec v t) as [->|Nv].
        * destruct (H3 u g j Nu Hu Ev) as (X & Y). split; [exact X|]. intros Z. now elim Y.
        * destruct (FT v Nv) as (-> & ->). auto.
    - intros u Hu. rewrite (proj1 (FR u ltac:(lia))). auto.
    - intros v. destruct (Nat.eq_dec v t) as [->|Nv]; [exact HC|]. specialize (E v). unfold client_ok in *. destruct (FT v Nv) as (-> & ->).
      destruct (p_thr s v) as [|c|k rr x ms g p|b rr g|]; auto.
      + destruct E as (X1 & X2 & X3). split; [exact X1|]. split; [|exact X3]. rewrite fupd_other; [exact X2|].
        intros ->. apply Nv. now apply H2.
      + destruct E as (X1 & X2 & X3). destruct (FR rr (TG v g rr Nv X1)) as (Y1 & Y2 & _). rewrite Y1, Y2. auto.
    - intros v g u X. destruct (Nat.eq_dec v t) as [->|Nv]; [now apply HG|]. rewrite (proj2 (FT v Nv)) in X. destruct (F _ _ _ X) as (Y & j & Z).
      split; [exact Y|]. exists j. rewrite fupd_other; [exact Z|]. now apply (TG v g).
    - intros v Hv X. destruct (Nat.eq_dec v t) as [->|Nv]; [now apply HI|]. rewrite (proj1 (FT v Nv)) in X. specialize (G v Hv X).
      destruct (Nat.eq_dec v r) as [->|Nr]; [exact (proj1 (HW G))|]. now rewrite (proj1 (FR v Nr)).
  Qed.
  Lemma held_by s own t k r x ms g p : Inv s own -> p_thr s t = PHold k r x ms g p ->
    r < N /\ own r = OClient t /\ (forall i, g = Some i -> p_guard s t i = None) /\ p_ev s r = false /\ hold_ok s t r k x g p.
  Proof.
    intros H E. pose proof (iv_thr _ _ H t) as X. unfold client_ok in X. rewrite E in X. destruct X as (X1 & X2 & X3).
    pose proof (iv_run _ _ H r X1) as Y. rewrite X2 in Y. cbn in Y. rewrite E in Y. destruct Y as (Y1 & _ & Y2). auto 6.
  Qed.
  Lemma holds_one s own t u v : Inv s own -> u < N -> v < N -> own u = OClient t -> own v = OClient t -> u = v.
  Proof.
    intros H Hu Hv E1 E2. pose proof (iv_run _ _ H u Hu) as A. pose proof (iv_run _ _ H v Hv) as B. rewrite E1 in A. rewrite E2 in B. cbn in A, B.
    destruct A as (_ & A), B as (_ & B). destruct (p_thr s t); try contradiction. destruct A as (X & _), B as (Y & _). congruence.
  Qed.
  Lemma holds_nothing s own t u : Inv s own -> plain (p_thr s t) = true -> u < N -> own u <> OClient t.
  Proof.
    intros H P Hu E. pose proof (iv_run _ _ H u Hu) as A. rewrite E in A. cbn in A. destruct (p_thr s t); try discriminate P; tauto.
  Qed.
  Lemma queue_room s own r : Inv s own -> r < N -> own r <> OQueue -> (length (p_q s) <? N) = true.
  Proof.
    intros H Hr HO. apply Nat.ltb_lt. pose proof (iv_nodup _ _ H) as ND.
    assert (ND' : NoDup (r :: p_q s)). { constructor; [|exact ND]. intros X. apply (iv_q _ _ H) in X. tauto. }
    assert (IN : incl (r :: p_q s) (seq 0 N)).
    { intros u [<-|X]; apply in_seq; [lia|]. apply (iv_q _ _ H) in X. lia. }
    pose proof (NoDup_incl_length ND' IN) as L. rewrite seq_length in L. cbn in L. lia.
  Qed.
  Lemma nodup_snoc (l : list nat) r : NoDup l -> ~ In r l -> NoDup (l ++ [r]).
  Proof.
    intros A B. induction A as [|a l Ha A IH]; cbn; [constructor; [intros []|constructor]|].
    constructor; [|apply IH; intros X; apply B; now right]. rewrite in_app_iff. intros [X|[X|[]]]; [now apply Ha|]. apply B. now left.
  Qed.
  Lemma call_in s own t : Inv s own -> p_thr s t <> PIdle -> t < N -> p_run s t = WIn.
  Proof. intros H X Y. now apply (iv_in _ _ H). Qed.

  Lemma run_owner s own r : Inv s own -> r < N -> ~ quiet (p_run s r) ->
    (exists j, own r = OTask j) \/ (exists t g j, own r = OGuard t g j).
  Proof.
    intros H Hr NQ. pose proof (iv_run _ _ H r Hr) as RO. destruct (own r) as [|v|j|v g j|]; cbn in RO; try tauto; eauto.
    exfalso. destruct RO as (_ & RO). destruct (p_thr s v) as [| |k r' x ms g p| |]; try contradiction. destruct RO as (-> & RO). unfold hold_ok in RO.
    destruct RO as (_ & RO). unfold quiet in *. destruct k; tauto.
  Qed.
  Ltac wk s r own H Hr NI' ER :=
    apply inv_worker with (s := s) (r := r);
    [ exact H | exact Hr | reflexivity | reflexivity | reflexivity
    | intros ? ?; cbn; rewrite ?fupd_other by assumption; auto 6
    | let Q := fresh in destruct (run_owner s own r H Hr) as [(?j & Q) | (?t & ?g & ?j & Q)];
      [rewrite ER; unfold quiet; intros [?|?]; discriminate| |];
      rewrite Q; let RO := fresh "RO" in pose proof (iv_run _ _ H r Hr) as RO; rewrite Q in RO; cbn in RO |- *; rewrite ER in RO; rewrite ?fupd_same; try tauto
    | rewrite ER; unfold quiet; intros [?|?]; discriminate
    | rewrite NI'; intros X; now elim X
    | cbn; rewrite ?fupd_same; auto; rewrite ER; discriminate ].
  Lemma inv_step s own l s' es : Inv s own -> step s l = Some (s', es) -> Inv s' (own_step s own l).
  Proof.
    intros H E. pose proof (call_in s own) as CI. destruct l as [t c|t|t other|r|r threw]; cbn [p_step own_step] in *.
    - (* call *)
      destruct (p_thr s t) eqn:ET; try discriminate. destruct (callable N s t c) eqn:EC; [|discriminate]. injection E as <- <-.
      unfold callable in EC. apply andb_prop in EC. destruct EC as (EC1 & EC2). apply inv_go_plain; auto; [now rewrite ET| |].
      + intros Ht _. apply Nat.ltb_lt in Ht. rewrite Ht in EC1. destruct (p_run s t); try discriminate. reflexivity.
      + unfold client_ok. cbn. rewrite fupd_same. destruct c; try discriminate EC2; auto. intros i ->. destruct (p_guard s t i); [discriminate|reflexivity].
    - destruct (p_thr s t) as [|c|k r x ms g p|b r g|rr] eqn:ET; [discriminate| | | |].
      + destruct c as [x ms g p|g ms|g|g|x q|x th]; try discriminate.
        * destruct (x =? 0) eqn:EX.
          { injection E as <- <-. apply inv_go_plain; auto; [now rewrite ET|intros; apply CI; auto; now rewrite ET|]. unfold client_ok. cbn. now rewrite fupd_same. }
          destruct (p_q s) as [|r q] eqn:EQ; [discriminate|]. injection E as <- <-. apply Nat.eqb_neq in EX.
          assert (HQ : r < N /\ own r = OQueue). { apply (iv_q _ _ H). rewrite EQ. now left. } destruct HQ as (Hr & HO).
          pose proof (iv_run _ _ H r Hr) as RO. rewrite HO in RO. cbn in RO. destruct RO as (R1 & R2 & R3).
          pose proof (iv_thr _ _ H t) as CO. unfold client_ok in CO. rewrite ET in CO.
          pose proof (iv_nodup _ _ H) as ND. rewrite EQ in ND. inversion ND; subst.
          apply inv_own with (s := s) (t := t); auto; cbn.
          -- intros v Nv. rewrite fupd_other by exact Nv. auto.
          -- intros u Nu Hu. eapply holds_nothing; [exact H| |exact Hu]. now rewrite ET.
          -- intros v X. congruence.
          -- intros v g' j X. congruence.
          -- intros u g' j Nu Hu X. split; [reflexivity|]. rewrite ET. discriminate.
          -- rewrite fupd_same. unfold hold_ok. cbn. auto.
          -- intros u. rewrite fupd_eq. pose proof (iv_q _ _ H u) as Q. rewrite EQ in Q. cbn in Q. destruct (Nat.eqb_spec u r) as [->|Nu].
             ++ split; [intros X; contradiction|intros (_ & X); discriminate].
             ++ rewrite <- Q. split; [intros X; now right|intros [X|X]; [congruence|exact X]].
          -- unfold client_ok. cbn. rewrite !fupd_same. auto.
          -- intros g' u X. destruct (iv_guard _ _ H _ _ _ X) as (Y & j & Z). split; [exact Y|]. exists j. rewrite fupd_other; [exact Z|]. congruence.
          -- intros Ht _. apply CI; auto. now rewrite ET.
        * destruct (p_guard s t g) as [r|] eqn:EG; [destruct (p_ev s r); [|discriminate]|]; injection E as <- <-;
            (apply inv_go_plain; auto; [now rewrite ET|intros; apply CI; auto; now rewrite ET|unfold client_ok; cbn; now rewrite fupd_same]).
        * destruct (p_guard s t g) as [r|] eqn:EG.
          -- destruct (p_ev s r) eqn:EV; [|discriminate]. injection E as <- <-.
             destruct (iv_guard _ _ H _ _ _ EG) as (Hr & j & HO). pose proof (iv_run _ _ H r Hr) as RO. rewrite HO in RO. cbn in RO.
             assert (QU : quiet (p_run s r)).
             { destruct RO as (_ & _ & _ & _ & _ & RO). rewrite EV in RO. unfold quiet. destruct (p_run s r) as [| | | |[] ?|]; auto; try (destruct RO; discriminate); contradiction. }
             destruct H as [A B C D F1 F G]. split; try assumption.
             ++ intros u Hu. eapply runner_frame; [exact (C u Hu)|reflexivity..| |].
                ** intros v Ev. cbn. split; [|reflexivity]. rewrite fupd_eq. destruct (Nat.eqb_spec v t) as [->|]; [|reflexivity].
                   specialize (C u Hu). rewrite Ev in C. cbn in C. rewrite ET in C. tauto.
                ** intros v g' j' Ev. cbn. split; [reflexivity|]. intros X. rewrite fupd_eq. destruct (Nat.eqb_spec v t) as [->|]; [|exact X]. congruence.
             ++ intros v. unfold client_ok. cbn. rewrite fupd_eq. destruct (Nat.eqb_spec v t) as [->|Nv]; [auto|exact (F1 v)].
             ++ intros v Hv X. cbn in X. rewrite fupd_eq in X. destruct (Nat.eqb_spec v t) as [->|]; [|now apply G]. apply G; [exact Hv|]. now rewrite ET.
          -- injection E as <- <-. apply inv_go_plain; auto; [now rewrite ET|intros; apply CI; auto; now rewrite ET|unfold client_ok; cbn; now rewrite fupd_same].
        * injection E as <- <-. apply inv_go_plain; auto; [now rewrite ET|intros; apply CI; auto; now rewrite ET|unfold client_ok; cbn; now rewrite fupd_same].
      + (* PHold *)
        destruct (held_by s own t k r x ms g p H ET) as (Hr & HO & HG & HV & HX & HK).
        assert (NW : p_run s r <> WIn). { destruct k; (destruct HK as ([-> | ->] & _) || destruct HK as (-> & _)); discriminate. }
        destruct k.
        * destruct (p_run s r) eqn:ER; try discriminate. injection E as <- <-.
          eapply inv_hold with (s := s) (t := t) (r := r); auto; cbn; try reflexivity.
          -- discriminate.
          -- rewrite fupd_same. unfold hold_ok. cbn. tauto.
          -- unfold client_ok. cbn. rewrite fupd_same. auto.
        * injection E as <- <-. eapply inv_hold with (s := s) (t := t) (r := r); auto; cbn; try reflexivity; try discriminate.
          -- intros u Nu. rewrite fupd_other by exact Nu. auto.
          -- rewrite fupd_same. unfold hold_ok. cbn. rewrite fupd_same. tauto.
          -- unfold client_ok. cbn. rewrite fupd_same. auto.
        * injection E as <- <-. eapply inv_hold with (s := s) (t := t) (r := r); auto; cbn; try reflexivity; try discriminate.
          -- intros u Nu. rewrite fupd_other by exact Nu. auto.
          -- rewrite fupd_same. unfold hold_ok. cbn. rewrite fupd_same. unfold is_some. tauto.
          -- unfold client_ok. cbn. rewrite fupd_same. auto.
        * injection E as <- <-. eapply inv_hold with (s := s) (t := t) (r := r); auto; cbn; try reflexivity; try discriminate.
          -- intros u Nu. rewrite fupd_other by exact Nu. auto.
          -- intros X. contradiction.
          -- rewrite fupd_same. unfold hold_ok. cbn. rewrite fupd_same. split; [exact HV|]. split; [reflexivity|]. split; [exact HX|].
             destruct HK as (K1 & K2 & K3). repeat (split; [assumption|]). apply eq_sym. apply resolve_frame. cbn. intros Ht. apply fupd_other.
             intros ->. apply NW. apply CI; auto. rewrite ET. discriminate.
          -- unfold client_ok. cbn. rewrite fupd_same. auto.
        * injection E as <- <-. destruct HK as (K1 & K2 & K3 & K4). rewrite K1.
          apply inv_own with (s := s) (t := t); auto; cbn.
          -- intros u Nu. rewrite fupd_other by exact Nu. auto.
          -- intros X. contradiction.
          -- intros v Nv. rewrite fupd_other by exact Nv. split; [reflexivity|]. destruct g; [|reflexivity]. unfold set_guard. now rewrite fupd_other.
          -- intros u Nu Hu X. apply Nu. exact (holds_one s own t u r H Hu Hr X HO).
          -- intros v X. congruence.
          -- intros v g' j X. congruence.
          -- intros u g' j Nu Hu X. split; [|rewrite ET; discriminate]. destruct g as [i|]; [|reflexivity].
             unfold set_guard. rewrite fupd_same, fupd_eq. destruct (Nat.eqb_spec g' i) as [->|]; [|reflexivity].
             exfalso. pose proof (iv_run _ _ H u Hu) as RU. rewrite X in RU. cbn in RU. rewrite (HG i eq_refl) in RU. destruct RU as (_ & _ & _ & _ & RU & _). discriminate.
          -- destruct g as [i|]; cbn; rewrite !fupd_same; cbn in K3; unfold set_guard; rewrite ?fupd_same; auto 10.
          -- exact (iv_nodup _ _ H).
          -- intros u. rewrite (iv_q _ _ H u), fupd_eq. destruct (Nat.eqb_spec u r) as [->|]; [|reflexivity]. rewrite HO. destruct g; split; intros (? & ?); discriminate.
          -- unfold client_ok. cbn. now rewrite fupd_same.
          -- intros g' u X. destruct g as [i|]; [unfold set_guard in X; rewrite fupd_same, fupd_eq in X; destruct (Nat.eqb_spec g' i) as [->|]|].
             ++ injection X as <-. split; [exact Hr|]. rewrite fupd_same. eauto.
             ++ destruct (iv_guard _ _ H _ _ _ X) as (Y & j & Z). split; [exact Y|]. exists j. rewrite fupd_other; [exact Z|]. congruence.
             ++ destruct (iv_guard _ _ H _ _ _ X) as (Y & j & Z). split; [exact Y|]. exists j. rewrite fupd_other; [exact Z|]. congruence.
          -- intros Ht _. assert (X : p_run s t = WIn) by (apply CI; auto; rewrite ET; discriminate). rewrite fupd_other; [exact X|]. congruence.
      + (* PRel *)
        pose proof (iv_thr _ _ H t) as CO. unfold client_ok in CO. rewrite ET in CO. destruct CO as (G1 & G2 & G3).
        destruct (iv_guard _ _ H _ _ _ G1) as (Hr & j & HO). pose proof (iv_run _ _ H r Hr) as RO. rewrite HO in RO. cbn in RO.
        destruct RO as (R1 & R2 & R3 & R4 & _ & R5).
        assert (PD : p_prio s r = dflt). { destruct G2 as [-> | ->] in R5; tauto. }
        destruct b.
        * assert (NQ : own r <> OQueue) by congruence. rewrite (queue_room s own r H Hr NQ) in E. injection E as <- <-.
          apply inv_own with (s := s) (t := t); auto; cbn.
          -- intros v Nv. rewrite fupd_other by exact Nv. split; [reflexivity|]. unfold set_guard. now rewrite fupd_other.
          -- intros u Nu Hu X. pose proof (iv_run _ _ H u Hu) as RU. rewrite X in RU. cbn in RU. rewrite ET in RU. tauto.
          -- intros v X. congruence.
          -- intros v g' j' X. congruence.
          -- intros u g' j' Nu Hu X. rewrite ET. split; [|intros Y; congruence]. unfold set_guard. rewrite fupd_same, fupd_eq.
             destruct (Nat.eqb_spec g' g) as [->|]; [|reflexivity].
             exfalso. pose proof (iv_run _ _ H u Hu) as RU. rewrite X in RU. cbn in RU. rewrite G1 in RU. destruct RU as (_ & _ & _ & _ & RU & _). congruence.
          -- split; [exact G2|]. split; [exact G3|exact PD].
          -- apply nodup_snoc; [exact (iv_nodup _ _ H)|]. rewrite (iv_q _ _ H). intros (_ & X). contradiction.
          -- intros u. rewrite in_app_iff, (iv_q _ _ H u), fupd_eq. cbn. destruct (Nat.eqb_spec u r) as [->|Nu].
             ++ split; [intros _; auto|intros _; right; now left].
             ++ split; [intros [X|[X|[]]]; [exact X|congruence]|intros X; now left].
          -- unfold client_ok. cbn. now rewrite fupd_same.
          -- intros g' u X. unfold set_guard in X. rewrite fupd_same, fupd_eq in X. destruct (Nat.eqb_spec g' g) as [->|Ng]; [discriminate|].
             destruct (iv_guard _ _ H _ _ _ X) as (Y & j' & Z). split; [exact Y|]. exists j'. rewrite fupd_other; [exact Z|]. congruence.
          -- intros Ht _. apply CI; auto. rewrite ET. discriminate.
        * injection E as <- <-. destruct H as [A B C D F1 F G]. split; try assumption.
          -- intros u Hu. destruct (Nat.eq_dec u r) as [->|Nu].
             ++ rewrite HO. cbn. rewrite !fupd_same. repeat (split; [assumption|]). destruct G2 as [-> | ->]; auto.
             ++ eapply runner_frame; [exact (C u Hu)|reflexivity|cbn; now rewrite fupd_other|reflexivity..| |].
                ** intros v Ev. cbn. split; [|reflexivity]. rewrite fupd_eq. destruct (Nat.eqb_spec v t) as [->|]; [|reflexivity].
                   specialize (C u Hu). rewrite Ev in C. cbn in C. rewrite ET in C. tauto.
                ** intros v g' j' Ev. cbn. split; [reflexivity|]. intros X. rewrite fupd_eq. destruct (Nat.eqb_spec v t) as [->|]; [|exact X]. congruence.
          -- intros v. unfold client_ok. cbn. rewrite fupd_eq. destruct (Nat.eqb_spec v t) as [->|Nv]; [rewrite fupd_same; auto|].
             specialize (F1 v). unfold client_ok in F1. destruct (p_thr s v) as [|c|k rr x ms g' p|b rr g'|]; auto. destruct F1 as (X1 & X2 & X3).
             rewrite fupd_other; auto. intros ->. destruct (F _ _ _ X1) as (_ & j' & Y). congruence.
          -- intros v Hv X. cbn in X. rewrite fupd_eq in X. destruct (Nat.eqb_spec v t) as [->|]; [|now apply G]. apply G; [exact Hv|]. rewrite ET. discriminate.
      + injection E as <- <-. apply inv_go_plain; [exact H|now rewrite ET|reflexivity|intros _ X; now elim X|unfold client_ok; cbn; now rewrite fupd_same].
    - (* time-outs *)
      destruct (p_thr s t) as [|c|k r x ms g p|b r g|rr] eqn:ET; try discriminate.
      + destruct c as [x ms g p|g ms|g|g|x q|x th]; try discriminate.
        * match type of E with (if ?b then _ else _) = _ => destruct b; [discriminate|] end.
          match type of E with (if ?b then _ else _) = _ => destruct b; [|discriminate] end. injection E as <- <-.
          apply inv_go_plain; auto; [now rewrite ET|intros; apply CI; auto; now rewrite ET|unfold client_ok; cbn; now rewrite fupd_same].
        * destruct (p_guard s t g); [|discriminate]. match type of E with (if ?b then _ else _) = _ => destruct b; [discriminate|] end. injection E as <- <-.
          apply inv_go_plain; auto; [now rewrite ET|intros; apply CI; auto; now rewrite ET|unfold client_ok; cbn; now rewrite fupd_same].
      + destruct (held_by s own t k r x ms g p H ET) as (Hr & HO & HG & HV & HX & HK).
        destruct k; try discriminate. destruct (ms =? -1)%Z; [discriminate|].
        assert (E' : Some (p_go s t (PRet (PErr TimedOut)), [Eff t (PStart x ms g p) (PErr TimedOut)]) = Some (s', es)).
        { destruct (p_run s r); try discriminate; exact E. } clear E. injection E' as <- <-.
        assert (NW : p_run s r <> WIn). { destruct HK as ([-> | ->] & _); discriminate. }
        apply inv_own with (s := s) (t := t); auto; cbn.
        -- intros v Nv. rewrite fupd_other by exact Nv. auto.
        -- intros u Nu Hu X. apply Nu. exact (holds_one s own t u r H Hu Hr X HO).
        -- intros v X. congruence.
        -- intros v g' j X. congruence.
        -- intros u g' j Nu Hu X. split; [reflexivity|]. rewrite ET. discriminate.
        -- tauto.
        -- exact (iv_nodup _ _ H).
        -- intros u. rewrite (iv_q _ _ H u), fupd_eq. destruct (Nat.eqb_spec u r) as [->|]; [|reflexivity]. rewrite HO. split; intros (? & ?); discriminate.
        -- unfold client_ok. cbn. now rewrite fupd_same.
        -- intros g' u X. destruct (iv_guard _ _ H _ _ _ X) as (Y & j & Z). split; [exact Y|]. exists j. rewrite fupd_other; [exact Z|]. congruence.
        -- intros Ht _. apply CI; auto. rewrite ET. discriminate.
    - (* pool thread *)
      assert (Hr : r < N). { destruct (Nat.lt_ge_cases r N) as [X|X]; [exact X|]. rewrite (iv_off _ _ H r X) in E. discriminate. }
      assert (NI : p_run s r <> WIn -> p_thr s r = PIdle).
      { intros X. destruct (p_thr s r) eqn:Y; [reflexivity|exfalso; apply X; apply CI; auto; rewrite Y; discriminate..]. }
      pose proof (iv_run _ _ H r Hr) as RO.
      destruct (p_run s r) as [| | | |[] th|] eqn:ER; try discriminate.
      all: assert (NI' : p_thr s r = PIdle) by (apply NI; discriminate).
      + injection E as <- <-. wk s r own H Hr NI' ER.
      + destruct (p_task s r =? 0) eqn:EX; injection E as <- <-.
        * apply Nat.eqb_eq in EX. exfalso. destruct (run_owner s own r H Hr) as [(j & Q)|(t & g & j & Q)];
            [rewrite ER; unfold quiet; intros [?|?]; discriminate| |]; rewrite Q in RO; cbn in RO; rewrite ER in RO; destruct RO as (_ & _ & X & Y & _); congruence.
        * wk s r own H Hr NI' ER.
      + injection E as <- <-. wk s r own H Hr NI' ER.
      + injection E as <- <-. destruct (p_needs s r) eqn:EN; wk s r own H Hr NI' ER; match goal with h : _ /\ _ |- _ => destruct h as (_ & X & _) end; congruence.
      + injection E as <- <-. wk s r own H Hr NI' ER.
      + injection E as <- <-. wk s r own H Hr NI' ER.
      + assert (HO : exists j, own r = OTask j).
        { destruct (run_owner s own r H Hr) as [(j & Q)|(t & g & j & Q)]; [rewrite ER; unfold quiet; intros [?|?]; discriminate|eauto|].
          rewrite Q in RO. cbn in RO. rewrite ER in RO. tauto. }
        destruct HO as (j & HO). rewrite HO in RO. cbn in RO. rewrite ER in RO. destruct RO as (R1 & R2 & R3 & R4 & R5 & R6).
        assert (NO : own r <> OQueue) by congruence. rewrite (queue_room s own r H Hr NO) in E. injection E as <- <-.
        apply inv_own with (s := s) (t := r); auto; cbn.
        * intros u Nu. rewrite fupd_other by exact Nu. auto.
        * rewrite ER. discriminate.
        * intros u Nu Hu. eapply holds_nothing; [exact H| |exact Hu]. now rewrite NI'.
        * intros v X. congruence.
        * intros v g' j' X. congruence.
        * intros u g' j' Nu Hu X. split; [reflexivity|]. rewrite NI'. discriminate.
        * rewrite fupd_same. unfold quiet. auto.
        * apply nodup_snoc; [exact (iv_nodup _ _ H)|]. rewrite (iv_q _ _ H). intros (_ & X). contradiction.
        * intros u. rewrite in_app_iff, (iv_q _ _ H u), fupd_eq. cbn. destruct (Nat.eqb_spec u r) as [->|Nu].
          -- split; [intros _; auto|intros _; right; now left].
          -- split; [intros [X|[X|[]]]; [exact X|congruence]|intros X; now left].
        * unfold client_ok. cbn. now rewrite NI'.
        * intros g' u X. destruct (iv_guard _ _ H _ _ _ X) as (Y & j' & Z). split; [exact Y|]. exists j'. rewrite fupd_other; [exact Z|]. congruence.
        * intros _ X. congruence.
      + injection E as <- <-. apply inv_worker with (s := s) (r := r);
          [exact H|exact Hr|reflexivity|reflexivity|reflexivity|intros ? ?; cbn; rewrite ?fupd_other by assumption; auto 6| | | |].
        * destruct (own r) as [|v|j|v g j|]; cbn in *; rewrite ?fupd_same; rewrite ?ER in RO; unfold quiet in *; try tauto.
          destruct RO as (R1 & RO). split; [exact R1|]. destruct (p_thr s v) as [| |k r' x ms g p| |]; try contradiction. destruct RO as (-> & R2 & RO).
          split; [reflexivity|]. split; [exact R2|]. cbn. rewrite fupd_same. rewrite ER in RO. destruct k; unfold quiet in *; try (destruct RO as (RO & _); discriminate RO). tauto.
        * intros _. cbn. rewrite fupd_same. unfold quiet. auto.
        * rewrite NI'. intros X. now elim X.
        * rewrite ER. discriminate.
    - (* end of a task *)
      assert (Hr : r < N). { destruct (Nat.lt_ge_cases r N) as [X|X]; [exact X|]. rewrite (iv_off _ _ H r X) in E. discriminate. }
      destruct (p_run s r) eqn:ER; try discriminate. destruct (p_thr s r) eqn:NI'; try discriminate. injection E as <- <-.
      wk s r own H Hr NI' ER.
  Qed.

  (** * Linearization *)
  Definition place_of (o : owner) (w : wpc) : place :=
    match o with
    | OQueue | OClient _ => Free
    | OLost => Lost
    | OTask j => match w with WStarted | WRead => Assigned j | _ => Busy j end
    | OGuard t g j => match w with WStarted | WRead => Assigned j | WOff | WEnd => Ended t g | _ => Busy j end
    end.
  Definition stat (q : ppc) : status pcall pres :=
    match q with
    | PIdle => Out
    | PAt c => Pending c
    | PHold _ _ x ms g p => Pending (PStart x ms g p)
    | PRel _ _ g => Pending (PRelease g)
    | PRet r => Done r
    end.
  Definition fstat (s : pst) (t : nat) : status pcall pres :=
    match p_run s t with WAfter _ th => Pending (PEnd (p_task s t) th) | _ => stat (p_thr s t) end.
  Definition tracks (s : pst) (own : nat -> owner) (f : nat -> status pcall pres) (sg : nat -> place) : Prop :=
    (forall t, f t = fstat s t) /\ (forall r, r < N -> sg r = place_of (own r) (p_run s r)).

  Lemma valid_iff s own sg : Inv s own -> (forall r, r < N -> sg r = place_of (own r) (p_run s r)) ->
    forall t g, valid N sg t g <-> p_guard s t g <> None.
  Proof.
    intros H HS t g. split.
    - intros (r & Hr & X). rewrite (HS r Hr) in X. pose proof (iv_run _ _ H r Hr) as RO.
      destruct (own r) as [|v|j|v g' j|]; cbn in *; try contradiction.
      + destruct RO as (RO & _). destruct (p_run s r); cbn in X; try contradiction; congruence.
      + destruct RO as (R1 & _ & _ & _ & R2 & _).
        assert (v = t /\ g' = g) as (-> & ->) by (destruct (p_run s r); cbn in X; try exact X; rewrite R1 in X; injection X as <- <-; auto). congruence.
    - intros X. destruct (p_guard s t g) as [r|] eqn:EG; [|now elim X]. destruct (iv_guard _ _ H _ _ _ EG) as (Hr & j & HO).
      exists r. split; [exact Hr|]. rewrite (HS r Hr), HO. pose proof (iv_run _ _ H r Hr) as RO. rewrite HO in RO. cbn in RO. destruct RO as (R1 & _).
      cbn. destruct (p_run s r); cbn; auto.
  Qed.
  Lemma guard_place s own sg t g r : Inv s own -> (forall r, r < N -> sg r = place_of (own r) (p_run s r)) -> p_guard s t g = Some r ->
    r < N /\ ((p_ev s r = true \/ quiet (p_run s r)) -> sg r = Ended t g) /\
    (p_ev s r = false -> (forall b, p_thr s t <> PRel b r g) -> exists j, (sg r = Assigned j \/ sg r = Busy j) /\ j_guard j = Some (t, g)).
  Proof.
    intros H HS EG. destruct (iv_guard _ _ H _ _ _ EG) as (Hr & j & HO). split; [exact Hr|]. rewrite (HS r Hr), HO. cbn.
    pose proof (iv_run _ _ H r Hr) as RO. rewrite HO in RO. cbn in RO. destruct RO as (R1 & _ & _ & _ & _ & RO). split.
    - unfold quiet. destruct (p_run s r) as [| | | |[] ?|]; intros [X|[X|X]]; try discriminate; try reflexivity; destruct RO; congruence.
    - intros EV X. destruct (p_run s r) as [| | | |[] ?|]; try solve [exists j; auto]; exfalso; destruct RO as (_ & [Y|(_ & Y)]); congruence || now apply (X true).
  Qed.
  Definition no_after (w : wpc) : Prop := match w with WAfter _ _ => False | _ => True end.
  Lemma fstat_no_after s t : no_after (p_run s t) -> fstat s t = stat (p_thr s t).
  Proof. unfold fstat. destruct (p_run s t); cbn; tauto. Qed.
  Lemma client_fstat s s' own t q : Inv s own -> p_thr s t <> PIdle \/ no_after (p_run s t) -> p_thr s' = fupd (p_thr s) t q ->
    (forall u, (p_run s' u = p_run s u /\ p_task s' u = p_task s u) \/ (no_after (p_run s u) /\ no_after (p_run s' u))) ->
    fstat s t = stat (p_thr s t) /\ fstat s' t = stat q /\ forall u, u <> t -> fstat s' u = fstat s u.
  Proof.
    intros H HT E FR.
    assert (NA : no_after (p_run s t)).
    { destruct HT as [X|X]; [|exact X]. destruct (Nat.lt_ge_cases t N) as [Y|Y]; [now rewrite (iv_in _ _ H t Y X)|now rewrite (iv_off _ _ H t Y)]. }
    split; [now apply fstat_no_after|]. split.
    - rewrite fstat_no_after; [now rewrite E, fupd_same|]. destruct (FR t) as [(-> & _)|(_ & X)]; [exact NA|exact X].
    - intros u Nu. destruct (FR u) as [(X & Y)|(X & Y)].
      + unfold fstat. now rewrite X, Y, E, fupd_other.
      + rewrite !fstat_no_after; auto. now rewrite E, fupd_other.
  Qed.
  Notation lrun := (lin_run (pspec_lossy N ext_prio)).

  Lemma lin1_call s own f sg t c : Inv s own -> tracks s own f sg -> p_thr s t = PIdle -> callable N s t c = true ->
    exists f' sg', lrun f sg [Call t c] f' sg' /\ tracks (p_go s t (PAt c)) own f' sg'.
  Proof.
    intros H (A & B) E C.
    assert (NA : no_after (p_run s t)).
    { unfold callable in C. apply andb_prop in C. destruct C as (C & _). destruct (t <? N) eqn:L; [destruct (p_run s t); try discriminate; exact I|].
      apply Nat.ltb_ge in L. now rewrite (iv_off _ _ H t L). }
    destruct (client_fstat s (p_go s t (PAt c)) own t (PAt c) H (or_intror NA) eq_refl) as (F1 & F2 & F3); [intros u; left; split; reflexivity|].
    exists (set_st f t (Pending c)), sg. split.
    - constructor; [rewrite A, F1, E; reflexivity|constructor].
    - split; [|exact B]. intros u. unfold set_st. destruct (Nat.eqb_spec u t) as [->|Nu]; [now rewrite F2|]. rewrite (F3 u Nu). apply A.
  Qed.
  Lemma lin1_eff s s' own own' f sg sg' t c r : Inv s own -> tracks s own f sg -> p_thr s t <> PIdle -> stat (p_thr s t) = Pending c -> p_thr s' = fupd (p_thr s) t (PRet r) ->
    (forall u, (p_run s' u = p_run s u /\ p_task s' u = p_task s u) \/ (no_after (p_run s u) /\ no_after (p_run s' u))) ->
    pspec_lossy N ext_prio sg t c r sg' -> (forall k, k < N -> sg' k = place_of (own' k) (p_run s' k)) ->
    exists f' sg', lrun f sg [Eff t c r] f' sg' /\ tracks s' own' f' sg'.
  Proof.
    intros H (A & B) NI E E' FR S HS. destruct (client_fstat s s' own t _ H (or_introl NI) E' FR) as (F1 & F2 & F3). exists (set_st f t (Done r)), sg'. split.
    - econstructor; [rewrite A, F1, E; reflexivity|exact S|constructor].
    - split; [|exact HS]. intros u. unfold set_st. destruct (Nat.eqb_spec u t) as [->|Nu]; [now rewrite F2|]. rewrite (F3 u Nu). apply A.
  Qed.
  Lemma lin1_none s s' own own' f sg t q : Inv s own -> tracks s own f sg -> p_thr s t <> PIdle -> p_thr s' = fupd (p_thr s) t q -> stat q = stat (p_thr s t) ->
    (forall u, (p_run s' u = p_run s u /\ p_task s' u = p_task s u) \/ (no_after (p_run s u) /\ no_after (p_run s' u))) ->
    (forall k, k < N -> place_of (own' k) (p_run s' k) = place_of (own k) (p_run s k)) ->
    exists f' sg', lrun f sg [] f' sg' /\ tracks s' own' f' sg'.
  Proof.
    intros H (A & B) NI E' EQ FR E2. destruct (client_fstat s s' own t _ H (or_introl NI) E' FR) as (F1 & F2 & F3).
    exists f, sg. split; [constructor|]. split; [|intros r Hr; rewrite E2; auto].
    intros u. rewrite A. destruct (Nat.eq_dec u t) as [->|Nu]; [now rewrite F1, F2, EQ|]. now rewrite F3.
  Qed.
  (** a pool thread *)
  Lemma lin1_run s s' own own' f sg r : tracks s own f sg -> fstat s' r = fstat s r -> p_thr s' = p_thr s -> p_task s' = p_task s ->
    (forall u, u <> r -> p_run s' u = p_run s u) ->
    (forall k, k < N -> place_of (own' k) (p_run s' k) = place_of (own k) (p_run s k)) ->
    exists f' sg', lrun f sg [] f' sg' /\ tracks s' own' f' sg'.
  Proof.
    intros (A & B) E1 E2 E3 FR E4. exists f, sg. split; [constructor|]. split; [|intros k Hk; rewrite E4; auto].
    intros u. rewrite A. destruct (Nat.eq_dec u r) as [->|Nu]; [now rewrite E1|]. unfold fstat. now rewrite E2, E3, FR.
  Qed.
  Lemma lin1_act s s' own own' f sg r es sg' x : tracks s own f sg -> fstat s' r = x -> p_thr s' = p_thr s -> p_task s' = p_task s ->
    (forall u, u <> r -> p_run s' u = p_run s u) ->
    (forall k, k < N -> sg' k = place_of (own' k) (p_run s' k)) ->
    (exists f', lrun f sg es f' sg' /\ f' r = x /\ forall u, u <> r -> f' u = f u) ->
    exists f' sg', lrun f sg es f' sg' /\ tracks s' own' f' sg'.
  Proof.
    intros (A & B) E1 E2 E3 FR HS (f' & L & F1 & F2). exists f', sg'. split; [exact L|]. split; [|exact HS].
    intros u. destruct (Nat.eq_dec u r) as [->|Nu]; [congruence|]. rewrite (F2 u Nu), A. unfold fstat. now rewrite E2, E3, FR.
  Qed.

  Lemma lin_step s own l s' es f sg : Inv s own -> step s l = Some (s', es) -> tracks s own f sg ->
    exists f' sg', lrun f sg es f' sg' /\ tracks s' (own_step s own l) f' sg'.
  Proof.
    intros H E T. pose proof T as (TA & TB). pose proof (valid_iff s own sg H TB) as VI. pose proof (fun t g r => guard_place s own sg t g r H TB) as GP.
    destruct l as [t c|t|t other|r|r threw]; cbn [p_step own_step] in *.
    - destruct (p_thr s t) eqn:ET; try discriminate. destruct (callable N s t c) eqn:EC; [|discriminate]. injection E as <- <-. now apply lin1_call.
    - assert (NI : p_thr s t <> PIdle) by (intros X; rewrite X in E; discriminate).
      destruct (p_thr s t) as [|c|k r x ms g p|b r g|rr] eqn:ET; [discriminate| | | |]; rewrite <- ET in NI.
      + destruct c as [x ms g p|g ms|g|g|x q|x th]; try discriminate.
        * destruct (x =? 0) eqn:EX.
          { injection E as <- <-. apply Nat.eqb_eq in EX. apply lin1_eff with (s := s) (own := own) (sg' := sg); auto; [now rewrite ET|]. left. cbn. auto. }
          destruct (p_q s) as [|r q] eqn:EQ; [discriminate|]. injection E as <- <-.
          assert (HO : own r = OQueue). { apply (iv_q _ _ H). rewrite EQ. now left. }
          eapply lin1_none; [exact H|exact T|exact NI|reflexivity|now rewrite ET|auto|].
          cbn. intros u Hu. rewrite fupd_eq. destruct (Nat.eqb_spec u r) as [->|]; [now rewrite HO|reflexivity].
        * destruct (p_guard s t g) as [r|] eqn:EG.
          -- destruct (p_ev s r) eqn:EV; [|discriminate]. injection E as <- <-. destruct (GP _ _ _ EG) as (Hr & G1 & _).
             apply lin1_eff with (s := s) (own := own) (sg' := sg); auto; [now rewrite ET|]. left. cbn. left. split; [reflexivity|]. split; [reflexivity|]. right. exists r. auto.
          -- injection E as <- <-. apply lin1_eff with (s := s) (own := own) (sg' := sg); auto; [now rewrite ET|]. left. cbn. left. split; [reflexivity|]. split; [reflexivity|].
             left. rewrite VI, EG. intros X. now elim X.
        * destruct (p_guard s t g) as [r|] eqn:EG.
          -- destruct (p_ev s r) eqn:EV; [|discriminate]. injection E as <- <-.
             eapply lin1_none; [exact H|exact T|exact NI|reflexivity|now rewrite ET|auto|reflexivity].
          -- injection E as <- <-. apply lin1_eff with (s := s) (own := own) (sg' := sg); auto; [now rewrite ET|]. left. cbn. split; [reflexivity|].
             left. rewrite VI, EG. split; [intros X; now elim X|reflexivity].
        * injection E as <- <-. apply lin1_eff with (s := s) (own := own) (sg' := sg); auto; [now rewrite ET|]. left. cbn. split; [reflexivity|].
          rewrite VI. destruct (p_guard s t g); [left|right]; (split; [reflexivity|]); [discriminate|intros X; now elim X].
      + destruct (held_by s own t k r x ms g p H ET) as (Hr & HO & HG & HV & HX & HK).
        destruct k.
        * destruct (p_run s r) eqn:ER; try discriminate. injection E as <- <-. eapply lin1_none; [exact H|exact T|exact NI|reflexivity|now rewrite ET|auto|reflexivity].
        * injection E as <- <-. eapply lin1_none; [exact H|exact T|exact NI|reflexivity|now rewrite ET| |reflexivity].
          intros u. cbn. destruct (Nat.eq_dec u r) as [->|Nu]; [right; destruct HK as (-> & _); split; exact I|left]. now rewrite fupd_other.
        * injection E as <- <-. eapply lin1_none; [exact H|exact T|exact NI|reflexivity|now rewrite ET|auto|reflexivity].
        * injection E as <- <-. eapply lin1_none; [exact H|exact T|exact NI|reflexivity|now rewrite ET|auto|reflexivity].
        * injection E as <- <-. destruct HK as (K1 & K2 & K3 & K4). rewrite K1.
          apply lin1_eff with (s := s) (own := own) (sg' := set_place sg r (Assigned (mkJob x (p_prio s r) (option_map (pair t) g)))); auto; [now rewrite ET| | |].
          -- intros u. cbn. rewrite fupd_eq. destruct (Nat.eqb_spec u r) as [->|Nu]; [right; rewrite K1; split; exact I|left; auto].
          -- left. cbn. right. left. split; [exact HX|]. split; [reflexivity|]. exists r, (p_prio s r). split; [exact Hr|]. split; [now rewrite (TB r Hr), HO|]. split.
             ++ rewrite K4. unfold wanted_prio, ThreadPoolModel.resolve. destruct p as [v|]; [reflexivity|]. destruct (t <? N) eqn:ELT; [|reflexivity].
                apply Nat.ltb_lt in ELT. assert (RT : p_run s t = WIn) by (apply (call_in s own t H); auto).
                pose proof (iv_run _ _ H t ELT) as RO. destruct (run_owner s own t H ELT) as [(j & Q)|(v & g' & j & Q)];
                  [rewrite RT; unfold quiet; intros [?|?]; discriminate| |]; rewrite Q in RO; cbn in RO; rewrite RT in RO; exists j; rewrite (TB t ELT), Q, RT; cbn; (split; [reflexivity|tauto]).
             ++ split; [|reflexivity]. intros i Ei. rewrite VI, (HG i Ei). intros X. now elim X.
          -- intros u Hu. cbn. unfold set_place. rewrite !fupd_eq. destruct (Nat.eqb_spec u r) as [->|]; [destruct g; reflexivity|now apply TB].
      + pose proof (iv_thr _ _ H t) as CO. unfold client_ok in CO. rewrite ET in CO. destruct CO as (G1 & G2 & G3). destruct (GP _ _ _ G1) as (Hr & GE & _).
        destruct (iv_guard _ _ H _ _ _ G1) as (_ & j & HO).
        destruct b.
        * destruct (length (p_q s) <? N); [|discriminate]. injection E as <- <-.
          apply lin1_eff with (s := s) (own := own) (sg' := set_place sg r Free); auto; [now rewrite ET| |].
          -- left. cbn. split; [reflexivity|]. right. exists r. auto.
          -- intros u Hu. cbn. unfold set_place. rewrite !fupd_eq. destruct (Nat.eqb_spec u r) as [->|]; [reflexivity|now apply TB].
        * injection E as <- <-. eapply lin1_none; [exact H|exact T|exact NI|reflexivity|now rewrite ET|auto|reflexivity].
      + injection E as <- <-. destruct (client_fstat s (p_go s t PIdle) own t PIdle H (or_introl NI) eq_refl) as (F1 & F2 & F3); [auto|].
        exists (set_st f t Out), sg. split; [constructor; [rewrite TA, F1, ET; reflexivity|constructor]|].
        split; [|exact TB]. intros u. unfold set_st. destruct (Nat.eqb_spec u t) as [->|Nu]; [now rewrite F2|]. rewrite (F3 u Nu). apply TA.
    - assert (NI : p_thr s t <> PIdle) by (intros X; rewrite X in E; discriminate).
      destruct (p_thr s t) as [|c|k r x ms g p|b r g|rr] eqn:ET; try discriminate; rewrite <- ET in NI.
      + destruct c as [x ms g p|g ms|g|g|x q|x th]; try discriminate.
        * destruct (ms =? -1)%Z eqn:EM; [discriminate|]. destruct (x =? 0) eqn:EX; [discriminate|]. cbn [orb] in E.
          match type of E with (if ?b then _ else _) = _ => destruct b; [|discriminate] end. injection E as <- <-. apply Z.eqb_neq in EM. apply Nat.eqb_neq in EX.
          apply lin1_eff with (s := s) (own := own) (sg' := sg); auto; [now rewrite ET|]. left. cbn. auto 6.
        * destruct (p_guard s t g) as [r|] eqn:EG; [|discriminate]. destruct (ms =? -1)%Z eqn:EM; [discriminate|]. destruct (p_ev s r) eqn:EV; [discriminate|]. cbn [orb] in E.
          injection E as <- <-. apply Z.eqb_neq in EM. apply lin1_eff with (s := s) (own := own) (sg' := sg); auto; [now rewrite ET|].
          destruct (GP _ _ _ EG) as (Hr & _ & G2). destruct (G2 EV) as (j & G3 & G4); [intros b; rewrite ET; discriminate|].
          left. cbn. right. split; [reflexivity|]. split; [exact EM|]. split; [reflexivity|]. exists r, j. auto.
      + destruct (held_by s own t k r x ms g p H ET) as (Hr & HO & HG & HV & HX & HK).
        destruct k; try discriminate. destruct (ms =? -1)%Z eqn:EM; [discriminate|]. apply Z.eqb_neq in EM.
        assert (E' : Some (p_go s t (PRet (PErr TimedOut)), [Eff t (PStart x ms g p) (PErr TimedOut)]) = Some (s', es)).
        { destruct (p_run s r); try discriminate; exact E. } clear E. injection E' as <- <-.
        apply lin1_eff with (s := s) (own := own) (sg' := set_place sg r Lost); auto; [now rewrite ET| |].
        -- right. exists x, ms, g, p, r. rewrite (TB r Hr), HO. cbn. auto 8.
        -- intros u Hu. cbn. unfold set_place. rewrite !fupd_eq. destruct (Nat.eqb_spec u r) as [->|]; [reflexivity|now apply TB].
    - assert (Hr : r < N). { destruct (Nat.lt_ge_cases r N) as [X|X]; [exact X|]. rewrite (iv_off _ _ H r X) in E. discriminate. }
      assert (NI : p_run s r <> WIn -> p_thr s r = PIdle).
      { intros X. destruct (p_thr s r) eqn:Y; [reflexivity|exfalso; apply X; apply (call_in s own r H); auto; rewrite Y; discriminate..]. }
      pose proof (iv_run _ _ H r Hr) as RO. pose proof (TB r Hr) as TR. pose proof (TA r) as TAR. unfold fstat in TAR.
      assert (OW : ~ quiet (p_run s r) -> (exists j, own r = OTask j) \/ (exists t g j, own r = OGuard t g j)) by (apply run_owner; assumption).
      unfold quiet in OW.
      destruct (p_run s r) as [| | | |[] th|] eqn:ER; try discriminate; try rewrite (NI ltac:(discriminate)) in TAR.
      + injection E as <- <-. eapply lin1_run with (r := r); [exact T|unfold fstat; cbn; rewrite fupd_same, ER; reflexivity|reflexivity|reflexivity|cbn; intros; now rewrite fupd_other|].
        intros k Hk. cbn. rewrite fupd_eq. destruct (Nat.eqb_spec k r) as [->|]; [rewrite ER; destruct (own r); reflexivity|reflexivity].
      + destruct (p_task s r =? 0) eqn:EX; injection E as <- <-.
        * exfalso. apply Nat.eqb_eq in EX. destruct OW as [(j & Q)|(t & g & j & Q)]; [intros [?|?]; discriminate| |]; rewrite Q in RO; cbn in RO; rewrite ER in RO; destruct RO as (_ & _ & X & Y & _); congruence.
        * assert (HJ : exists j, sg r = Assigned j /\ p_task s r = j_task j /\ p_prio s r = j_prio j /\ place_of (own r) WIn = Busy j).
          { destruct OW as [(j & Q)|(t & g & j & Q)]; [intros [?|?]; discriminate| |]; rewrite Q in RO, TR; cbn in RO, TR; rewrite ER in RO; exists j; rewrite TR, Q; cbn; tauto. }
          destruct HJ as (j & J1 & J2 & J3 & J4).
          eapply lin1_act with (r := r) (x := Out) (sg' := set_place sg r (Busy j)); [exact T|unfold fstat; cbn; rewrite fupd_same, (NI ltac:(discriminate)); reflexivity|reflexivity|reflexivity|cbn; intros; now rewrite fupd_other| |].
          -- intros k Hk. cbn. unfold set_place. rewrite fupd_eq. destruct (Nat.eqb_spec k r) as [->|]; [now rewrite J4|now apply TB].
          -- exists (set_st (set_st (set_st f r (Pending (PBegin (p_task s r) (p_prio s r)))) r (Done PVoid)) r Out). split; [|split; [unfold set_st; now rewrite Nat.eqb_refl|intros u Nu; unfold set_st; destruct (Nat.eqb_spec u r); [contradiction|reflexivity]]].
             constructor; [exact TAR|]. econstructor; [unfold set_st; now rewrite Nat.eqb_refl| |constructor; [unfold set_st; now rewrite Nat.eqb_refl|constructor]].
             left. cbn. split; [reflexivity|]. split; [exact Hr|]. exists j. auto 6.
      + injection E as <- <-. eapply lin1_run with (r := r); [exact T|unfold fstat; cbn; rewrite fupd_same, ER; reflexivity|reflexivity|reflexivity|cbn; intros; now rewrite fupd_other|].
        intros k Hk. cbn. rewrite fupd_eq. destruct (Nat.eqb_spec k r) as [->|]; [rewrite ER; destruct (own r); reflexivity|reflexivity].
      + injection E as <- <-. eapply lin1_run with (r := r); [exact T|unfold fstat; cbn; rewrite fupd_same, ER; reflexivity|reflexivity|reflexivity|cbn; intros; now rewrite fupd_other|].
        intros k Hk. cbn. rewrite fupd_eq. destruct (Nat.eqb_spec k r) as [->|]; [rewrite ER; destruct (own r); reflexivity|reflexivity].
      + injection E as <- <-. destruct OW as [(j & Q)|(t & g & j & Q)]; [intros [?|?]; discriminate| |]; rewrite Q in RO, TR; cbn in RO, TR; rewrite ER in RO; [tauto|].
        eapply lin1_act with (r := r) (x := Out) (sg' := set_place sg r (Ended t g)); [exact T|unfold fstat; cbn; rewrite fupd_same, (NI ltac:(discriminate)); reflexivity|reflexivity|reflexivity|cbn; intros; now rewrite fupd_other| |].
        * intros k Hk. cbn. unfold set_place. rewrite fupd_eq. destruct (Nat.eqb_spec k r) as [->|]; [now rewrite Q|now apply TB].
        * exists (set_st (set_st f r (Done PVoid)) r Out). split; [|split; [unfold set_st; now rewrite Nat.eqb_refl|intros u Nu; unfold set_st; destruct (Nat.eqb_spec u r); [contradiction|reflexivity]]].
          econstructor; [exact TAR| |constructor; [unfold set_st; now rewrite Nat.eqb_refl|constructor]].
          left. cbn. split; [reflexivity|]. split; [exact Hr|]. exists j. rewrite (proj1 RO). split; [exact TR|]. split; [tauto|reflexivity].
      + injection E as <- <-. eapply lin1_run with (r := r); [exact T|unfold fstat; cbn; rewrite fupd_same, ER; reflexivity|reflexivity|reflexivity|cbn; intros; now rewrite fupd_other|].
        intros k Hk. cbn. rewrite fupd_eq. destruct (Nat.eqb_spec k r) as [->|]; [rewrite ER; destruct (own r); reflexivity|reflexivity].
      + destruct (length (p_q s) <? N); [|discriminate].
        injection E as <- <-. destruct OW as [(j & Q)|(t & g & j & Q)]; [intros [?|?]; discriminate| |]; rewrite Q in RO, TR; cbn in RO, TR; rewrite ER in RO; [|tauto].
        eapply lin1_act with (r := r) (x := Out) (sg' := set_place sg r Free); [exact T|unfold fstat; cbn; rewrite fupd_same, (NI ltac:(discriminate)); reflexivity|reflexivity|reflexivity|cbn; intros; now rewrite fupd_other| |].
        * intros k Hk. cbn. unfold set_place. rewrite !fupd_eq. destruct (Nat.eqb_spec k r) as [->|]; [reflexivity|now apply TB].
        * exists (set_st (set_st f r (Done PVoid)) r Out). split; [|split; [unfold set_st; now rewrite Nat.eqb_refl|intros u Nu; unfold set_st; destruct (Nat.eqb_spec u r); [contradiction|reflexivity]]].
          econstructor; [exact TAR| |constructor; [unfold set_st; now rewrite Nat.eqb_refl|constructor]].
          left. cbn. split; [reflexivity|]. split; [exact Hr|]. exists j. rewrite (proj1 RO). split; [exact TR|]. split; [tauto|reflexivity].
      + injection E as <- <-. eapply lin1_run with (r := r); [exact T|unfold fstat; cbn; rewrite fupd_same, ER; reflexivity|reflexivity|reflexivity|cbn; intros; now rewrite fupd_other|].
        intros k Hk. cbn. rewrite fupd_eq. destruct (Nat.eqb_spec k r) as [->|]; [|reflexivity]. rewrite ER. destruct (own r); try reflexivity; cbn in RO; rewrite ER in RO; tauto.
    - assert (Hr : r < N). { destruct (Nat.lt_ge_cases r N) as [X|X]; [exact X|]. rewrite (iv_off _ _ H r X) in E. discriminate. }
      destruct (p_run s r) eqn:ER; try discriminate. destruct (p_thr s r) eqn:EI; try discriminate. injection E as <- <-.
      eapply lin1_act with (r := r) (x := Pending (PEnd (p_task s r) threw)) (sg' := sg); [exact T|unfold fstat; cbn; now rewrite fupd_same|reflexivity|reflexivity|cbn; intros; now rewrite fupd_other| |].
      + intros k Hk. cbn. rewrite fupd_eq. destruct (Nat.eqb_spec k r) as [->|]; [|now apply TB]. rewrite (TB r Hr), ER.
        pose proof (run_owner s own r H Hr) as OW. rewrite ER in OW. destruct OW as [(j & Q)|(t & g & j & Q)]; [unfold quiet; intros [?|?]; discriminate| |]; rewrite Q; reflexivity.
      + exists (set_st f r (Pending (PEnd (p_task s r) threw))). split; [|split; [unfold set_st; now rewrite Nat.eqb_refl|intros u Nu; unfold set_st; destruct (Nat.eqb_spec u r); [contradiction|reflexivity]]].
        constructor; [|constructor]. rewrite TA. unfold fstat. now rewrite ER, EI.
  Qed.

  Lemma reach ls s es : exec step (p_init N dflt) ls = Some (s, es) ->
    exists own f sg, Inv s own /\ lrun (fun _ => Out) all_free es f sg /\ tracks s own f sg.
  Proof.
    intros E.
    apply (exec_inv pst plab (event pcall pres) step (fun s es => exists own f sg, Inv s own /\ lrun (fun _ => Out) all_free es f sg /\ tracks s own f sg))
      with (ls := ls) (s := p_init N dflt) (es := []); [| |exact E].
    - intros s0 es0 l s1 es1 (own & f & sg & I & L & T) S. destruct (lin_step s0 own l s1 es1 f sg I S T) as (f' & sg' & L' & T').
      exists (own_step s0 own l), f', sg'. split; [eapply inv_step; eassumption|]. split; [|exact T']. eapply lin_run_app; eassumption.
    - exists (fun _ => OQueue), (fun _ => Out), all_free. split; [apply inv_init|]. split; [constructor|]. split; reflexivity.
  Qed.

  (** * Consequences of the specification alone *)
  Notation srun := (sp_run (pspec_lossy N ext_prio)).
  Lemma count_places_sumn p f n : count_places p f n = sumn (fun r => if p (f r) then 1 else 0) n.
  Proof.
    unfold count_places. induction n as [|n IH]; [reflexivity|]. rewrite seq_S, filter_app, app_length, IH. cbn. destruct (p (f n)); reflexivity.
  Qed.
  Lemma count_set p f k x n : k < n -> count_places p (set_place f k x) n + (if p (f k) then 1 else 0) = count_places p f n + (if p x then 1 else 0).
  Proof.
    intros Hk. rewrite !count_places_sumn. pose proof (sumn_change n (fun r => if p (f r) then 1 else 0) (fun r => if p (set_place f k x r) then 1 else 0) k Hk) as S.
    cbn beta in S. assert (E : set_place f k x k = x) by (unfold set_place; now rewrite Nat.eqb_refl). rewrite E in S. apply S.
    intros u Nu. unfold set_place. destruct (Nat.eqb_spec u k); [contradiction|reflexivity].
  Qed.
  Lemma count_all_free p n : p Free = false -> count_places p all_free n = 0.
  Proof. intros E. rewrite count_places_sumn. induction n as [|n IH]; [reflexivity|]. cbn. unfold all_free at 2. rewrite E, IH. reflexivity. Qed.
  Lemma count_eff_cons p e l : count_eff p (e :: l) = (if p e then 1 else 0) + count_eff p l.
  Proof. unfold count_eff. cbn. destruct (p e); reflexivity. Qed.

  Ltac spcases S :=
    cbn [pspec] in S;
    repeat match type of S with _ \/ _ => destruct S as [S|S] end;
    repeat match goal with
           | h : _ /\ _ |- _ => destruct h as (? & h)
           | h : exists _, _ |- _ => destruct h as (? & h)
           end; subst.
  Lemma tasks_balance : forall l f f' x, srun f l f' ->
    count_eff (accepted x) l + count_places (has_task x) f N = count_eff (begun x) l + count_places (has_task x) f' N /\
    count_eff (begun x) l + count_places (runs_task x) f N = count_eff (ended x) l + count_places (runs_task x) f' N /\
    count_places is_lost f' N <= count_places is_lost f N + count_eff timed_out l.
  Proof.
    intros l f f' x R. induction R as [f|f t c r f1 l f' S R IH]; [cbn; lia|].
    rewrite !count_eff_cons. destruct IH as (I1 & I2 & I3).
    destruct S as [S|S].
    - destruct c as [y ms g p|g ms|g|g|y q|y th]; cbn [pspec] in S.
      + destruct S as [(-> & -> & ->)|[(NX & -> & k & q & Hk & FK & _ & _ & ->)|(NX & -> & NM & ->)]]; cbn [accepted begun ended timed_out]; try lia.
        pose proof (count_set (has_task x) f k (Assigned (mkJob y q (option_map (pair t) g))) N Hk) as C1.
        pose proof (count_set (runs_task x) f k (Assigned (mkJob y q (option_map (pair t) g))) N Hk) as C2.
        pose proof (count_set is_lost f k (Assigned (mkJob y q (option_map (pair t) g))) N Hk) as C3.
        rewrite FK in C1, C2, C3. cbn in C1, C2, C3. destruct (x =? y); lia.
      + destruct S as [(-> & -> & _)|(-> & _ & -> & _)]; cbn; lia.
      + destruct S as (-> & [(_ & ->)|(k & Hk & FK & ->)]); cbn [accepted begun ended timed_out]; [lia|].
        pose proof (count_set (has_task x) f k Free N Hk) as C1. pose proof (count_set (runs_task x) f k Free N Hk) as C2. pose proof (count_set is_lost f k Free N Hk) as C3.
        rewrite FK in C1, C2, C3. cbn in C1, C2, C3. lia.
      + destruct S as (-> & [(-> & _)|(-> & _)]); cbn; lia.
      + destruct S as (-> & Ht & j & FJ & -> & -> & ->). cbn [accepted begun ended timed_out].
        pose proof (count_set (has_task x) f t (Busy j) N Ht) as C1. pose proof (count_set (runs_task x) f t (Busy j) N Ht) as C2. pose proof (count_set is_lost f t (Busy j) N Ht) as C3.
        rewrite FJ in C1, C2, C3. cbn in C1, C2, C3. destruct (x =? j_task j); lia.
      + destruct S as (-> & Ht & j & FJ & -> & ->). cbn [accepted begun ended timed_out].
        set (pl := match j_guard j with None => Free | Some (u, g) => Ended u g end) in *.
        pose proof (count_set (has_task x) f t pl N Ht) as C1. pose proof (count_set (runs_task x) f t pl N Ht) as C2. pose proof (count_set is_lost f t pl N Ht) as C3.
        assert (P : has_task x pl = false /\ runs_task x pl = false /\ is_lost pl = false) by (unfold pl; destruct (j_guard j) as [[? ?]|]; auto).
        destruct P as (P1 & P2 & P3). rewrite P1 in C1. rewrite P2 in C2. rewrite P3 in C3.
        rewrite FJ in C1, C2, C3. cbn in C1, C2, C3. destruct (x =? j_task j); lia.
    - destruct S as (y & ms & g & p & k & -> & NX & NM & -> & Hk & FK & ->). cbn [accepted begun ended timed_out].
      pose proof (count_set (has_task x) f k Lost N Hk) as C1. pose proof (count_set (runs_task x) f k Lost N Hk) as C2. pose proof (count_set is_lost f k Lost N Hk) as C3.
      rewrite FK in C1, C2, C3. cbn in C1, C2, C3. lia.
  Qed.

  (** the state of one thread changes only by the acts that concern it *)
  Lemma set_place_eq f k x u : set_place f k x u = if Nat.eqb u k then x else f u.
  Proof. reflexivity. Qed.
  Inductive one_change (f : nat -> place) (r : nat) : nat * pcall * pres -> place -> Prop :=
  | oc_same e : one_change f r e (f r)
  | oc_start t x ms g p q : x <> 0 -> f r = Free -> wanted_prio N ext_prio f t p q -> (forall i, g = Some i -> ~ valid N f t i) ->
      one_change f r (t, PStart x ms g p, PErr OK) (Assigned (mkJob x q (option_map (pair t) g)))
  | oc_lose t x ms g p : f r = Free -> ms <> (-1)%Z -> one_change f r (t, PStart x ms g p, PErr TimedOut) Lost
  | oc_begin j : f r = Assigned j -> one_change f r (r, PBegin (j_task j) (j_prio j), PVoid) (Busy j)
  | oc_end j th : f r = Busy j -> one_change f r (r, PEnd (j_task j) th, PVoid) (match j_guard j with None => Free | Some (u, g) => Ended u g end)
  | oc_release t g : f r = Ended t g -> one_change f r (t, PRelease g, PVoid) Free.
  Lemma step_change f t c r f' k : pspec_lossy N ext_prio f t c r f' -> one_change f k (t, c, r) (f' k).
  Proof.
    intros [S|S].
    - destruct c as [y ms g p|g ms|g|g|y q|y th]; cbn [pspec] in S.
      + destruct S as [(-> & -> & ->)|[(NX & -> & i & q & Hi & FK & W & V & ->)|(NX & -> & NM & ->)]]; try apply oc_same.
        rewrite set_place_eq. destruct (Nat.eqb_spec k i) as [->|]; [|apply oc_same]. now apply oc_start.
      + destruct S as [(-> & -> & _)|(-> & _ & -> & _)]; apply oc_same.
      + destruct S as (-> & [(_ & ->)|(i & Hi & FK & ->)]); [apply oc_same|]. rewrite set_place_eq. destruct (Nat.eqb_spec k i) as [->|]; [|apply oc_same]. now apply oc_release.
      + destruct S as (-> & _); apply oc_same.
      + destruct S as (-> & Ht & j & FJ & -> & -> & ->). rewrite set_place_eq. destruct (Nat.eqb_spec k t) as [->|]; [|apply oc_same]. now apply oc_begin.
      + destruct S as (-> & Ht & j & FJ & -> & ->). rewrite set_place_eq. destruct (Nat.eqb_spec k t) as [->|]; [|apply oc_same]. now apply oc_end.
    - destruct S as (y & ms & g & p & i & -> & NX & NM & -> & Hi & FK & ->). rewrite set_place_eq. destruct (Nat.eqb_spec k i) as [->|]; [|apply oc_same]. now apply oc_lose.
  Qed.
  Lemma lost_stays f l f' k : srun f l f' -> f k = Lost -> f' k = Lost.
  Proof.
    intros R. induction R as [f|f t c r f1 l f' S R IH]; intros E; [exact E|]. apply IH. pose proof (step_change _ _ _ _ _ k S) as C. inversion C; congruence.
  Qed.
  (** if no thread is lost in the end, none ever was *)
  Lemma no_loss_strict f es f1 s s' : lrun f s es f1 s' -> (forall r, r < N -> s' r <> Lost) -> lin_run (pspec N ext_prio) f s es f1 s'.
  Proof.
    intros R. induction R as [f s|f s t c es f' s' E R IH|f s t c r s1 es f' s' E S R IH|f s t r es f' s' E R IH]; intros H; try (econstructor; eauto; fail).
    destruct S as [S|S]; [econstructor; eauto|]. exfalso. destruct S as (y & ms & g & p & i & -> & NX & NM & -> & Hi & FK & ->).
    apply (H i Hi). apply lin_run_effects in R. eapply lost_stays; [exact R|]. rewrite set_place_eq. now rewrite Nat.eqb_refl.
  Qed.
  Lemma eff_called f es f1 s s' t c r : lrun f s es f1 s' -> In (Eff t c r) es -> In (Call t c) es \/ f t = Pending c.
  Proof.
    intros R. induction R as [f s|f s u d es f' s' E R IH|f s u d q s1 es f' s' E S R IH|f s u q es f' s' E R IH]; cbn; [tauto| | |].
    - intros [X|X]; [discriminate|]. destruct (IH X) as [Y|Y]; [auto|]. unfold set_st in Y. destruct (Nat.eqb_spec t u) as [->|]; [|auto]. injection Y as ->. auto.
    - intros [X|X]; [injection X as -> -> ->; auto|]. destruct (IH X) as [Y|Y]; [auto|]. unfold set_st in Y. destruct (Nat.eqb_spec t u) as [->|]; [discriminate|auto].
    - intros [X|X]; [discriminate|]. destruct (IH X) as [Y|Y]; [auto|]. unfold set_st in Y. destruct (Nat.eqb_spec t u) as [->|]; [discriminate|auto].
  Qed.
  Lemma patient_strict f es f1 s s' : lrun f s es f1 s' -> (forall t x ms g p r, In (Eff t (PStart x ms g p) r) es -> ms = (-1)%Z) ->
    (forall r, s r <> Lost) -> lin_run (pspec N ext_prio) f s es f1 s' /\ forall r, s' r <> Lost.
  Proof.
    intros R. induction R as [f s|f s t c es f' s' E R IH|f s t c r s1 es f' s' E S R IH|f s t r es f' s' E R IH]; intros H NL.
    - split; [constructor|exact NL].
    - destruct IH as (A & B); [intros; eapply H; right; eassumption|exact NL|]. split; [econstructor; eauto|exact B].
    - assert (NL1 : forall k, s1 k <> Lost).
      { intros k X. pose proof (step_change _ _ _ _ _ k S) as C. rewrite X in C. inversion C; subst; try (now elim (NL k)).
        - match goal with h : ?ms <> _ |- _ => apply h; eapply H; left; reflexivity end.
        - destruct (j_guard j) as [[? ?]|]; discriminate. }
      destruct IH as (A & B); [intros; eapply H; right; eassumption|exact NL1|]. split; [|exact B].
      destruct S as [S|S]; [econstructor; eauto|]. exfalso. destruct S as (y & ms & g & p & i & -> & NX & NM & _). apply NM. eapply H. left. reflexivity.
    - destruct IH as (A & B); [intros; eapply H; right; eassumption|exact NL|]. split; [econstructor; eauto|exact B].
  Qed.

  (** a guard holds at most one thread *)
  Definition uniq (f : nat -> place) : Prop :=
    forall r r' t g, r < N -> r' < N -> guarded_by t g (f r) -> guarded_by t g (f r') -> r = r'.
  Lemma guarded_change f r e x t g : one_change f r e x -> guarded_by t g x ->
    guarded_by t g (f r) \/ (f r = Free /\ ~ valid N f t g /\ exists y ms p, e = (t, PStart y ms (Some g) p, PErr OK) /\ y <> 0).
  Proof.
    intros C G. inversion C; subst; cbn in G; auto; try contradiction.
    - destruct g0 as [i|]; cbn in G; [|discriminate]. injection G as -> ->. right. eauto 8.
    - left. match goal with h : f r = Assigned j |- _ => rewrite h end. exact G.
    - left. match goal with h : f r = Busy j |- _ => rewrite h end. destruct (j_guard j) as [[u g']|] eqn:EJ; cbn in G |- *; [destruct G as (-> & ->); exact EJ|contradiction].
  Qed.
  Lemma uniq_step f t c r f' : uniq f -> pspec_lossy N ext_prio f t c r f' -> uniq f'.
  Proof.
    intros U S k k' u g Hk Hk' G G'. pose proof (step_change _ _ _ _ _ k S) as C. pose proof (step_change _ _ _ _ _ k' S) as C'.
    destruct (guarded_change _ _ _ _ _ _ C G) as [A|(A & A1 & A2)]; destruct (guarded_change _ _ _ _ _ _ C' G') as [B|(B & B1 & B2)].
    - eapply U; eassumption.
    - exfalso. apply B1. exists k. auto.
    - exfalso. apply A1. exists k'. auto.
    - destruct (Nat.eq_dec k k') as [X|X]; [exact X|]. exfalso.
      destruct A2 as (y & ms & p & E & NY). injection E as -> -> ->.
      destruct S as [S|S]; cbn [pspec] in S.
      + destruct S as [(-> & _)|[(NX & _ & i & q & Hi & FK & W & V & ->)|(NX & EE & _)]]; [now elim NY| |discriminate].
        rewrite !set_place_eq in *. destruct (Nat.eqb_spec k i) as [->|]; destruct (Nat.eqb_spec k' i) as [->|]; try congruence; rewrite ?A, ?B in *; try (now elim G); now elim G'.
      + destruct S as (y' & ms' & g' & p' & i & E & _ & _ & EE & _). discriminate.
  Qed.
  Lemma uniq_run f l f' : srun f l f' -> uniq f -> uniq f'.
  Proof. intros R. induction R as [f|f t c r f1 l f' S R IH]; intros U; [exact U|]. apply IH. eapply uniq_step; eassumption. Qed.
  Lemma uniq_all_free : uniq all_free.
  Proof. intros r r' t g _ _ []. Qed.

  Definition ran_in (r : nat) (x : task) (q : Z) (l : list (nat * pcall * pres)) : Prop :=
    exists th l1 l2 l3, l = l1 ++ (r, PBegin x q, PVoid) :: l2 ++ (r, PEnd x th, PVoid) :: l3.
  Lemma ended_stays f l f' r t g : srun f l f' -> f r = Ended t g -> ~ In (t, PRelease g, PVoid) l -> f' r = Ended t g.
  Proof.
    intros R. induction R as [f|f u c q f1 l f' S R IH]; intros E NI; [exact E|]. apply IH; [|intros X; apply NI; now right].
    pose proof (step_change _ _ _ _ _ r S) as C. remember (u, c, q) as e eqn:EE. remember (f1 r) as pl eqn:EP. destruct C as [e|t0 x0 ms0 g0 p0 q0 NX FF|t0 x0 ms0 g0 p0 FF|j0 FF|j0 th FF|t0 g0 FF]; try congruence.
    exfalso. apply NI. left. rewrite E in FF. injection FF as -> ->. reflexivity.
  Qed.
  Lemma busy_goes f l f' r j t g : srun f l f' -> f r = Busy j -> j_guard j = Some (t, g) -> ~ In (t, PRelease g, PVoid) l ->
    f' r = Busy j \/ (f' r = Ended t g /\ exists th l1 l2, l = l1 ++ (r, PEnd (j_task j) th, PVoid) :: l2).
  Proof.
    intros R. induction R as [f|f u c q f1 l f' S R IH]; intros E G NI; [now left|].
    assert (NI' : ~ In (t, PRelease g, PVoid) l) by (intros X; apply NI; now right).
    pose proof (step_change _ _ _ _ _ r S) as C. remember (u, c, q) as e eqn:EE. remember (f1 r) as pl eqn:EP. destruct C as [e|t0 x0 ms0 g0 p0 q0 NX FF|t0 x0 ms0 g0 p0 FF|j0 FF|j0 th FF|t0 g0 FF]; try congruence.
    - destruct (IH ltac:(congruence) G NI') as [A|(A & th & l1 & l2 & ->)]; [now left|]. right. split; [exact A|]. exists th, (e :: l1), l2. reflexivity.
    - rewrite E in FF. injection FF as <-. right. split.
      + eapply ended_stays; [exact R| |exact NI']. rewrite <- EP. now rewrite G.
      + exists th, [], l. reflexivity.
  Qed.
  Lemma assigned_goes f l f' r j t g : srun f l f' -> f r = Assigned j -> j_guard j = Some (t, g) -> ~ In (t, PRelease g, PVoid) l ->
    f' r = Assigned j \/ f' r = Busy j \/ (f' r = Ended t g /\ ran_in r (j_task j) (j_prio j) l).
  Proof.
    intros R. induction R as [f|f u c q f1 l f' S R IH]; intros E G NI; [now left|].
    assert (NI' : ~ In (t, PRelease g, PVoid) l) by (intros X; apply NI; now right).
    pose proof (step_change _ _ _ _ _ r S) as C. remember (u, c, q) as e eqn:EE. remember (f1 r) as pl eqn:EP. destruct C as [e|t0 x0 ms0 g0 p0 q0 NX FF|t0 x0 ms0 g0 p0 FF|j0 FF|j0 th FF|t0 g0 FF]; try congruence.
    - destruct (IH ltac:(congruence) G NI') as [A|[A|(A & th & l1 & l2 & l3 & ->)]]; [now left|now right; left|]. right. right. split; [exact A|].
      exists th, (e :: l1), l2, l3. reflexivity.
    - rewrite E in FF. injection FF as <-. right.
      destruct (busy_goes f1 l f' r j t g R ltac:(congruence) G NI') as [A|(A & th & l1 & l2 & ->)]; [now left|]. right. split; [exact A|].
      exists th, [], l1, l2. reflexivity.
  Qed.
  Lemma run_snoc l : forall f e f', srun f (l ++ [e]) f' -> exists f1, srun f l f1 /\ pspec_lossy N ext_prio f1 (fst (fst e)) (snd (fst e)) (snd e) f'.
  Proof.
    intros f e f' R. destruct (sp_run_app_inv _ _ _ _ _ _ _ _ R) as (f1 & A & B). exists f1. split; [exact A|].
    inversion B; subst. match goal with h : sp_run _ _ [] _ |- _ => inversion h; subst end. cbn. assumption.
  Qed.
  (** what a successful wait or a release on a guard means *)
  Lemma waited_task : forall l1 l2 t x ms g p c r f', c = PWait g r \/ c = PRelease g ->
    forall res, srun all_free (l1 ++ (t, PStart x ms (Some g) p, PErr OK) :: l2 ++ [(t, c, res)]) f' -> res <> PErr TimedOut ->
    ~ In (t, PRelease g, PVoid) l2 ->
    exists k q, k < N /\ ran_in k x q l2 /\ forall v, p = Some v -> q = v.
  Proof.
    intros l1 l2 t x ms g p c r f' HC res R NT NR.
    destruct (sp_run_app_inv _ _ _ _ _ _ _ _ R) as (f1 & R1 & R2). inversion R2 as [|a b d e f2 h i S R3]; subst.
    apply run_snoc in R3. destruct R3 as (f3 & R3 & S3). cbn in S3.
    assert (U1 : uniq f1) by (eapply uniq_run; [exact R1|apply uniq_all_free]).
    assert (U2 : uniq f2) by (eapply uniq_step; eassumption). assert (U3 : uniq f3) by (eapply uniq_run; eassumption).
    assert (HS : exists k q, k < N /\ f2 k = Assigned (mkJob x q (Some (t, g))) /\ forall v, p = Some v -> q = v).
    { destruct S as [S|S]; cbn [pspec] in S.
      - destruct S as [(_ & E & _)|[(NX & _ & i & q & Hi & FK & W & V & ->)|(NX & EE & _)]]; try discriminate.
        exists i, q. split; [exact Hi|]. rewrite set_place_eq, Nat.eqb_refl. split; [reflexivity|]. intros v ->. exact W.
      - destruct S as (y' & ms' & g' & p' & i & E & _ & _ & EE & _). discriminate. }
    destruct HS as (k & q & Hk & FK & HQ). exists k, q. split; [exact Hk|]. split; [|exact HQ].
    pose proof (assigned_goes f2 l2 f3 k _ t g R3 FK eq_refl NR) as D. cbn in D.
    assert (GK : guarded_by t g (f3 k)) by (destruct D as [D|[D|(D & _)]]; rewrite D; cbn; auto).
    assert (EN : f3 k = Ended t g).
    { destruct S3 as [S3|S3].
      - destruct HC as [->| ->]; cbn [pspec] in S3.
        + destruct S3 as [(_ & _ & [V|(i & Hi & E)])|(E & _)]; [exfalso; apply V; exists k; auto| |contradiction].
          assert (i = k) as -> by (eapply (U3 i k t g); auto; rewrite E; cbn; auto). exact E.
        + destruct S3 as (_ & [(V & _)|(i & Hi & E & _)]); [exfalso; apply V; exists k; auto|].
          assert (i = k) as -> by (eapply (U3 i k t g); auto; rewrite E; cbn; auto). exact E.
      - destruct S3 as (y' & ms' & g' & p' & i & E & _). destruct HC as [->| ->]; discriminate. }
    destruct D as [D|[D|(_ & D)]]; [congruence|congruence|exact D].
  Qed.
  (** between two tasks of the same thread the first one ends *)
  Lemma busy_until : forall l f f' r j, srun f l f' -> f r = Busy j ->
    (f' r = Busy j /\ forall e, In e l -> match e with (u, PBegin _ _, _) => u <> r | _ => True end) \/ exists th, In (r, PEnd (j_task j) th, PVoid) l.
  Proof.
    intros l f f' r j R. induction R as [f|f u c q f1 l f' S R IH]; intros E; [left; split; [exact E|intros ? []]|].
    pose proof (step_change _ _ _ _ _ r S) as C. remember (u, c, q) as e eqn:EE. remember (f1 r) as pl eqn:EP. destruct C as [e|t0 x0 ms0 g0 p0 q0 NX FF|t0 x0 ms0 g0 p0 FF|j0 FF|j0 th FF|t0 g0 FF]; try congruence.
    - destruct (IH ltac:(congruence)) as [(A & B)|(th & B)]; [|right; exists th; now right]. left. split; [exact A|]. intros e1 [<-|X]; [|now apply B].
      rewrite EE. destruct c; auto. destruct S as [S|S]; [|destruct S as (? & ? & ? & ? & ? & Y & _); discriminate]. cbn in S. destruct S as (_ & _ & j' & FJ & _). congruence.
    - rewrite E in FF. injection FF as <-. right. exists th. left. reflexivity.
  Qed.
  Lemma one_at_a_time : forall l1 l2 l3 r x q y q' a b f', srun all_free (l1 ++ (r, PBegin x q, a) :: l2 ++ (r, PBegin y q', b) :: l3) f' ->
    r < N /\ exists th, In (r, PEnd x th, PVoid) l2.
  Proof.
    intros l1 l2 l3 r x q y q' a b f' R. destruct (sp_run_app_inv _ _ _ _ _ _ _ _ R) as (f1 & R1 & R2). inversion R2 as [|a0 b0 d e f2 h i S R3]; subst.
    destruct (sp_run_app_inv _ _ _ _ _ _ _ _ R3) as (f3 & R3' & R4). inversion R4 as [|a1 b1 d1 e1 f4 h1 i1 S4 R5]; subst.
    destruct S as [S|S]; [|destruct S as (? & ? & ? & ? & ? & Y & _); discriminate]. destruct S4 as [S4|S4]; [|destruct S4 as (? & ? & ? & ? & ? & Y & _); discriminate].
    cbn in S, S4. destruct S as (_ & Hr & j & FJ & -> & -> & ->). split; [exact Hr|]. destruct S4 as (_ & _ & j4 & FJ4 & _).
    destruct (busy_until l2 _ f3 r j R3') as [(A & _)|X]; [rewrite set_place_eq, Nat.eqb_refl; reflexivity|congruence|exact X].
  Qed.
  (** priorities *)
  Lemma prio_run : forall l f f' x v, srun f l f' ->
    (forall t ms g p, In (t, PStart x ms g p, PErr OK) l -> p = Some v \/ (p = None /\ N <= t /\ ext_prio t = v)) ->
    (forall r j, f r = Assigned j -> j_task j = x -> j_prio j = v) ->
    forall r q a, In (r, PBegin x q, a) l -> q = v.
  Proof.
    intros l f f' x v R. induction R as [f|f u c q f1 l f' S R IH]; intros H1 H2 r q0 a; [intros []|]. intros [X|X].
    - injection X as -> -> ->. destruct S as [S|S]; [|destruct S as (? & ? & ? & ? & ? & Y & _); discriminate]. cbn in S. destruct S as (_ & _ & j & FJ & -> & -> & _). now apply (H2 r j).
    - eapply (IH (fun t ms g p hx => H1 t ms g p (or_intror hx))); [|exact X].
      intros k j FJ EJ. pose proof (step_change _ _ _ _ _ k S) as C. remember (u, c, q) as e eqn:EE. remember (f1 k) as pl eqn:EP.
      destruct C as [e|t0 x0 ms0 g0 p0 q1 NX FF W V|t0 x0 ms0 g0 p0 FF|j0 FF|j0 th FF|t0 g0 FF]; try congruence.
      + exact (H2 k j FJ EJ).
      + injection FJ as <-. cbn in EJ |- *. subst x0. destruct (H1 _ _ _ _ (or_introl eq_refl)) as [Y|(Y & Z & <-)]; rewrite Y in W; [exact W|].
        cbn [wanted_prio] in W. destruct (Nat.ltb_spec t0 N); [lia|exact W].
      + destruct (j_guard j0) as [[? ?]|]; discriminate FJ.
  Qed.
End P.
