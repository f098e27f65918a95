(** Proofs about OS/ThreadAttrModel.v *)
From Coq Require Import List ZArith Bool Arith Lia.
Import ListNotations.
From Verif Require Import Spec.Linear Spec.ThreadAttrSpec OS.Sched OS.PriorityModel OS.ThreadAttrModel.

Section Proofs.
  Variable pf : platform.
  Variable ext : nat -> bool.
  Notation step := (a_step pf ext).

  (** * Locks and lifetimes *)
  Definition holds (t : nat) (q : apc) : option nat :=
    match q with
    | PNameW x _ _ | PNameU x _ | PWrite x _ _ | PNative x _ _ | PWriteU x _ _ | PGet x _ | PGetU x _ => Some x
    | PRead _ _ | PReadU _ _ _ => Some t
    | _ => None
    end.
  Definition knew (k : kont) : bool := match k with KNew _ _ => true | KSet _ => false end.
  Definition isSome {A} (o : option A) : bool := match o with Some _ => true | None => false end.
  Definition hfac (q : apc) : bool :=
    match q with
    | PNew _ _ | PBegin _ _ _ | PInit _ _ _ | PNewU _ _ _ | PIns _ _ _ | PFailU _ | PFail _ | PNewUR _ => true
    | PNameL _ _ k | PNameW _ _ k | PNameU _ k => isSome k
    | PSet _ k | PCur _ k | PReadL _ k | PRead _ k | PReadU _ _ k | PWriteL _ _ k | PWrite _ _ k | PNative _ _ k | PWriteU _ _ k => knew k
    | _ => false
    end.
  Definition creating (q : apc) : option nat :=
    match q with
    | PBegin x _ _ | PInit x _ _ | PNewU x _ _ | PInsF x _ _ | PIns x _ _ => Some x
    | PFailU ox | PFailF ox | PFail ox => ox
    | PNameL x _ (Some _) | PNameW x _ (Some _) | PNameU x (Some _) => Some x
    | PSet x (KNew _ _) | PCur x (KNew _ _) | PReadL x (KNew _ _) | PRead x (KNew _ _) | PReadU x _ (KNew _ _)
    | PWriteL x _ (KNew _ _) | PWrite x _ (KNew _ _) | PNative x _ (KNew _ _) | PWriteU x _ (KNew _ _) => Some x
    | _ => None
    end.
  Definition uses (t : nat) (q : apc) (y : nat) : Prop :=
    match q with
    | PNameL x _ None | PNameW x _ None | PNameU x None | PGetL x _ | PGet x _ | PGetU x _
    | PSet x (KSet _) | PCur x (KSet _) | PWriteL x _ (KSet _) | PWrite x _ (KSet _) | PNative x _ (KSet _) | PWriteU x _ (KSet _) => y = x
    | PReadL x k | PRead x k | PReadU x _ k => y = t \/ (knew k = false /\ y = x)
    | _ => False
    end.
  Record ainv (s : ast) : Prop := mkI {
    i_lock : forall x u, a_lock s x = Some u <-> holds u (a_pc s u) = Some x;
    i_fac : forall u, a_fac s = Some u <-> hfac (a_pc s u) = true;
    i_new : forall t x, creating (a_pc s t) = Some x -> a_obj s x <> None /\ a_pub s x = false /\ ext x = false;
    i_uniq : forall t u x, creating (a_pc s t) = Some x -> creating (a_pc s u) = Some x -> t = u;
    i_pub : forall x, a_pub s x = true -> a_obj s x <> None;
    i_uses : forall t x, uses t (a_pc s t) x -> a_pub s x = true;
    i_idle : forall t, ext t = false -> a_pub s t = false -> a_pc s t = POut }.

  Lemma ainv_init : ainv a_init.
  Proof. constructor; cbn; intros; try discriminate; try tauto; try (split; discriminate). Qed.

  Ltac inv_step E :=
    repeat match type of E with
    | context [match ?c with _ => _ end] => is_var c; destruct c; try discriminate E
    | context [if ?c then _ else _] => let Q := fresh "Q" in destruct c eqn:Q; try discriminate E
    | context [match ?c with _ => _ end] => let Q := fresh "Q" in destruct c eqn:Q; try discriminate E
    end;
    injection E as <- <-.

  Ltac cases E :=
    match type of E with step ?s ?l = _ => destruct l as [t c|t fail|t x]; cbn beta iota delta [a_step] in E; destruct (a_pc s t) eqn:ET; try discriminate end;
    inv_step E; try (match goal with c : acall |- _ => destruct c end); try (match goal with k : kont |- _ => destruct k end);
    try (match goal with k : option (Z * nat) |- _ => destruct k as [[? ?]|] end).

  Lemma lock_gen s s' t q : ainv s -> a_pc s' = fupd (a_pc s) t q ->
    (a_lock s' = a_lock s /\ holds t q = holds t (a_pc s t)) \/
    (exists x, a_lock s' = fupd (a_lock s) x (Some t) /\ a_lock s x = None /\ holds t (a_pc s t) = None /\ holds t q = Some x) \/
    (exists x, a_lock s' = fupd (a_lock s) x None /\ holds t (a_pc s t) = Some x /\ holds t q = None) ->
    forall x u, a_lock s' x = Some u <-> holds u (a_pc s' u) = Some x.
  Proof.
    intros I EP H y u. pose proof (i_lock s I) as LK. rewrite EP, fupd_eq.
    destruct H as [(-> & H)|[(x & -> & F & H & H')|(x & -> & H & H')]]; rewrite ?fupd_eq; destruct (Nat.eqb_spec u t) as [->|N].
    - rewrite H. apply LK.
    - apply LK.
    - rewrite H'. destruct (Nat.eqb_spec y x) as [->|M]; [split; reflexivity|]. rewrite LK, H. split; congruence.
    - destruct (Nat.eqb_spec y x) as [->|M]; [|apply LK]. rewrite <- (LK x u), F. split; congruence.
    - rewrite H'. destruct (Nat.eqb_spec y x) as [->|M]; [split; congruence|]. rewrite LK, H. split; congruence.
    - destruct (Nat.eqb_spec y x) as [->|M]; [|apply LK]. apply LK in H. rewrite <- (LK x u), H. split; congruence.
  Qed.
  Lemma fac_gen s s' t q : ainv s -> a_pc s' = fupd (a_pc s) t q ->
    (a_fac s' = a_fac s /\ hfac q = hfac (a_pc s t)) \/
    (a_fac s' = Some t /\ a_fac s = None /\ hfac q = true) \/
    (a_fac s' = None /\ hfac (a_pc s t) = true /\ hfac q = false) ->
    forall u, a_fac s' = Some u <-> hfac (a_pc s' u) = true.
  Proof.
    intros I EP H u. pose proof (i_fac s I) as LK. rewrite EP, fupd_eq.
    destruct H as [(-> & H)|[(-> & H & H')|(-> & H & H')]]; destruct (Nat.eqb_spec u t) as [->|N].
    - rewrite H. apply LK.
    - apply LK.
    - rewrite H'. split; reflexivity.
    - rewrite <- (LK u), H. split; congruence.
    - rewrite H'. split; congruence.
    - apply LK in H. rewrite <- (LK u), H. split; congruence.
  Qed.
  Lemma new_gen s s' t q : ainv s -> a_pc s' = fupd (a_pc s) t q ->
    (forall y, a_pub s' y = true -> a_pub s y = true \/ creating (a_pc s t) = Some y) ->
    (forall y, a_obj s y <> None -> a_obj s' y <> None \/ creating (a_pc s t) = Some y) ->
    (forall x, creating q = Some x -> a_obj s' x <> None /\ a_pub s' x = false /\ ext x = false /\ (creating (a_pc s t) = Some x \/ a_obj s x = None)) ->
    (forall u x, creating (a_pc s' u) = Some x -> a_obj s' x <> None /\ a_pub s' x = false /\ ext x = false) /\
    (forall u v x, creating (a_pc s' u) = Some x -> creating (a_pc s' v) = Some x -> u = v).
  Proof.
    intros I EP HP HO HQ. pose proof (i_new s I) as NW. pose proof (i_uniq s I) as UQ. rewrite EP. split.
    - intros u x. rewrite fupd_eq. destruct (Nat.eqb_spec u t) as [->|N]; intros C; [destruct (HQ x C) as (A1 & A2 & A3 & _); auto|].
      destruct (NW u x C) as (A1 & A2 & A3). assert (D : creating (a_pc s t) <> Some x) by (intros D; apply N; exact (UQ u t x C D)).
      split; [destruct (HO x A1); tauto|]. split; [|exact A3]. destruct (a_pub s' x) eqn:P; [|reflexivity].
      destruct (HP x P) as [Z|Z]; [congruence|tauto].
    - intros u v x. rewrite !fupd_eq. destruct (Nat.eqb_spec u t) as [->|N], (Nat.eqb_spec v t) as [->|M]; intros C D; auto.
      + destruct (HQ x C) as (_ & _ & _ & [Z|Z]); [exact (UQ t v x Z D)|]. destruct (NW v x D) as (B & _). contradiction.
      + destruct (HQ x D) as (_ & _ & _ & [Z|Z]); [exact (UQ u t x C Z)|]. destruct (NW u x C) as (B & _). contradiction.
      + exact (UQ u v x C D).
  Qed.
  Lemma pub_gen s s' t q : ainv s -> a_pc s' = fupd (a_pc s) t q ->
    (forall y, a_pub s' y = true -> a_pub s y = true \/ (creating (a_pc s t) = Some y /\ a_obj s' = a_obj s)) ->
    (forall y, a_pub s y = true -> a_obj s y <> None -> a_obj s' y <> None) ->
    forall y, a_pub s' y = true -> a_obj s' y <> None.
  Proof.
    intros I EP HP HO y P. destruct (HP y P) as [Q|(Q & ->)]; [apply HO; [exact Q|exact (i_pub s I y Q)]|]. apply (i_new s I t y Q).
  Qed.
  Lemma uses_gen s s' t q : ainv s -> a_pc s' = fupd (a_pc s) t q -> (forall y, a_pub s y = true -> a_pub s' y = true) ->
    (forall x, uses t q x -> uses t (a_pc s t) x \/ a_pub s x = true) -> forall u x, uses u (a_pc s' u) x -> a_pub s' x = true.
  Proof.
    intros I EP HP HQ u x. rewrite EP, fupd_eq. destruct (Nat.eqb_spec u t) as [->|N]; intros U; apply HP; [destruct (HQ x U) as [Z|Z]; [exact (i_uses s I t x Z)|exact Z]|exact (i_uses s I u x U)].
  Qed.
  Lemma idle_gen s s' t q : ainv s -> a_pc s' = fupd (a_pc s) t q -> (forall y, a_pub s y = true -> a_pub s' y = true) ->
    (a_pc s t <> POut \/ (ext t || a_pub s t) = true) -> forall u, ext u = false -> a_pub s' u = false -> a_pc s' u = POut.
  Proof.
    intros I EP HP HT u X P. assert (P0 : a_pub s u = false) by (destruct (a_pub s u) eqn:Z; [rewrite (HP u Z) in P; discriminate|reflexivity]).
    pose proof (i_idle s I u X P0) as Z. rewrite EP, fupd_eq. destruct (Nat.eqb_spec u t) as [->|N]; [|exact Z].
    destruct HT as [A|A]; [contradiction|]. rewrite X, P0 in A. discriminate.
  Qed.
  Ltac eqb_at y := match goal with |- context [Nat.eqb y ?z] => let K := fresh "K" in destruct (Nat.eqb_spec y z) as [K|K]; [try rewrite K in *|] | H : context [Nat.eqb y ?z] |- _ => let K := fresh "K" in destruct (Nat.eqb_spec y z) as [K|K]; [try rewrite K in *|] end.
  Lemma ainv_step s l s' e : ainv s -> step s l = Some (s', e) -> ainv s'.
  Proof.
    intros I E. pose proof I as [LK FA NW UQ PB US ID].
    assert (G : exists t q, a_pc s' = fupd (a_pc s) t q /\
      ((a_lock s' = a_lock s /\ holds t q = holds t (a_pc s t)) \/
       (exists x, a_lock s' = fupd (a_lock s) x (Some t) /\ a_lock s x = None /\ holds t (a_pc s t) = None /\ holds t q = Some x) \/
       (exists x, a_lock s' = fupd (a_lock s) x None /\ holds t (a_pc s t) = Some x /\ holds t q = None)) /\
      ((a_fac s' = a_fac s /\ hfac q = hfac (a_pc s t)) \/
       (a_fac s' = Some t /\ a_fac s = None /\ hfac q = true) \/
       (a_fac s' = None /\ hfac (a_pc s t) = true /\ hfac q = false)) /\
      (forall y, a_pub s' y = true -> a_pub s y = true \/ (creating (a_pc s t) = Some y /\ a_obj s' = a_obj s)) /\
      (forall y, a_obj s y <> None -> a_obj s' y <> None \/ creating (a_pc s t) = Some y) /\
      (forall x, creating q = Some x -> a_obj s' x <> None /\ a_pub s' x = false /\ ext x = false /\ (creating (a_pc s t) = Some x \/ a_obj s x = None)) /\
      (forall y, a_pub s y = true -> a_obj s y <> None -> a_obj s' y <> None) /\
      (forall y, a_pub s y = true -> a_pub s' y = true) /\
      (forall x, uses t q x -> uses t (a_pc s t) x \/ a_pub s x = true) /\
      (a_pc s t <> POut \/ (ext t || a_pub s t) = true)).
    { cases E.
      all: pose proof (NW t) as NT; rewrite ET in NT; cbn [creating] in NT.
      all: match goal with |- context [fupd _ _ ?q] => idtac | |- _ => idtac end.
      all: exists t; eexists; split; [reflexivity|]; rewrite ET.
      all: cbn [go lock_go fac_go obj_go pub_go os_go a_obj a_pub a_os a_lock a_fac a_pc].
      all: repeat match goal with |- context [if pf_direct ?a ?b then _ else _] => destruct (pf_direct a b) end.
      all: repeat match goal with |- context [if a_pub ?a ?b then _ else _] => let P := fresh "P" in destruct (a_pub a b) eqn:P end.
      all: split; [first [left; split; reflexivity | right; left; eexists; repeat split; eassumption || reflexivity | right; right; eexists; repeat split; reflexivity] | ].
      all: split; [first [left; split; reflexivity | right; left; repeat split; eassumption || reflexivity | right; right; repeat split; reflexivity] | ].
      all: split; [intros y P1; first [left; exact P1 | rewrite fupd_eq in P1; eqb_at y; [right; split; reflexivity|left; exact P1]]|].
      all: split; [intros y H; first [left; exact H | rewrite fupd_eq; eqb_at y; [first [right; reflexivity | left; discriminate]|left; exact H]]|].
      all: split; [intros y C; cbn in C; try discriminate C; try (injection C as <-); subst;
                   first [destruct (NT _ eq_refl) as (A1 & A2 & A3); split; [rewrite ?fupd_same; first [exact A1 | discriminate]|]; split; [exact A2|]; split; [exact A3|left; reflexivity]
                         | match goal with |- context [creating (PNew _ _) = Some ?z \/ _] =>
                             apply andb_true_iff in Q; destruct Q as (Q1 & Q2); apply negb_true_iff in Q1; rewrite fupd_same; split; [discriminate|];
                             destruct (a_obj s z) eqn:OZ; [discriminate|]; split; [|split; [exact Q1|right; reflexivity]];
                             destruct (a_pub s z) eqn:P1; [exfalso; exact (PB z P1 OZ)|reflexivity] end]|].
      all: split; [intros y P1 H; first [exact H | rewrite fupd_eq; eqb_at y; [first [discriminate | exfalso; destruct (NT _ eq_refl) as (A1 & A2 & A3); congruence]|exact H]]|].
      all: split; [intros y P1; rewrite ?fupd_eq; first [exact P1|eqb_at y; auto]|].
      all: split; [intros y U; cbn in U |- *; try tauto; try (right; subst; assumption);
        try (apply andb_true_iff in Q; destruct Q as (_ & Q); subst; right; exact Q)|].
      all: try (left; discriminate).
      all: try (apply andb_true_iff in Q; right; tauto).
      - destruct U as [->|(_ & ->)]; auto.
      - destruct U as [->|(U & _)]; [auto|discriminate]. }
    destruct G as (t & q & EP & G1 & G2 & G3 & G4 & G5 & G6 & G7 & G8 & G9).
    assert (G3' : forall y, a_pub s' y = true -> a_pub s y = true \/ creating (a_pc s t) = Some y) by (intros y P; destruct (G3 y P); tauto).
    destruct (new_gen s s' t q I EP G3' G4 G5) as (N1 & N2).
    exact (mkI s' (lock_gen s s' t q I EP G1) (fac_gen s s' t q I EP G2) N1 N2 (pub_gen s s' t q I EP G3 G6) (uses_gen s s' t q I EP G7 G8) (idle_gen s s' t q I EP G7 G9)).
  Qed.

  (** * Linearization *)
  Definition call_k (x : nat) (k : kont) : acall := match k with KSet p => ASet x p | KNew p n => ACreate p n end.
  Definition call_nm (x n : nat) (k : option (Z * nat)) : acall := match k with None => AName x n | Some (p, m) => ACreate p m end.
  Definition st_of (q : apc) : status acall ares :=
    match q with
    | POut => Out
    | PNameL x n k | PNameW x n k => Pending (call_nm x n k)
    | PNameU x k => match k with None => Done RVoid | Some (p, m) => Pending (ACreate p m) end
    | PSet x k | PCur x k | PReadL x k | PRead x k | PReadU x _ k | PWriteL x _ k | PWrite x _ k => Pending (call_k x k)
    | PNative x _ k | PWriteU x _ k => match k with KSet _ => Done RVoid | KNew p n => Pending (ACreate p n) end
    | PThrown _ => Done RVoid
    | PGetL x w | PGet x w => Pending (get_call x w)
    | PGetU _ r => Done r
    | PNewF p n | PNew p n | PBegin _ p n | PInit _ p n | PNewU _ p n | PInsF _ p n | PIns _ p n => Pending (ACreate p n)
    | PFailU _ | PFailF _ | PFail _ => Done RNull
    | PNewUR r | PRet r => Done r
    end.
  Notation abs := given_out.
  Notation spec := (attr_spec (pf_direct pf) (pf_normal pf)).
  Notation own := (own_priority (pf_normal pf)).

  (** [v] is the priority that the argument [p] stands for; [b]: the caller's own priority is its present one *)
  Definition resb (b : bool) (s : ast) (t : nat) (p v : Z) : Prop :=
    if pf_direct pf p then v = p else b = true -> v = own (abs s) t.
  Definition dat (b : bool) (s : ast) (t : nat) (q : apc) : Prop :=
    (match q with PNameL x n (Some (p, m)) | PNameW x n (Some (p, m)) => n = m | _ => True end) /\
    (match q with
     | PCur _ k | PReadL _ k | PRead _ k => pf_direct pf (arg k) = false
     | PReadU _ v k | PWriteL _ v k | PWrite _ v k => resb b s t (arg k) v
     | _ => True
     end) /\
    (match q with
     | PBegin x _ n | PNameL x _ (Some (_, n)) | PNameW x _ (Some (_, n)) | PNameU x (Some (_, n))
     | PSet x (KNew _ n) | PCur x (KNew _ n) | PReadL x (KNew _ n) | PRead x (KNew _ n) | PReadU x _ (KNew _ n)
     | PWriteL x _ (KNew _ n) | PWrite x _ (KNew _ n) => exists o, a_obj s x = Some o /\ at_name o = n
     | PNative x v (KNew p n) | PWriteU x v (KNew p n) => exists o, a_obj s x = Some o /\ at_name o = n /\ at_prio o = v /\ resb b s t p v
     | PInit x p n => exists o, a_obj s x = Some o /\ at_name o = n /\ resb b s t p (at_prio o)
     | PNewU x p n | PInsF x p n | PIns x p n => exists o, a_obj s x = Some o /\ at_name o = n /\ resb b s t p (at_prio o) /\ at_init o = at_prio o
     | _ => True
     end).
  (** a state in which it says something about [t] *)
  Lemma dat_frame b s s' u : (forall x, creating (a_pc s u) = Some x -> a_obj s' x = a_obj s x) ->
    (forall c, b = true -> st_of (a_pc s u) = Pending c -> inherits (pf_direct pf) c -> own (abs s') u = own (abs s) u) ->
    dat b s u (a_pc s u) -> dat b s' u (a_pc s u).
  Proof.
    intros HO HR (D1 & D2 & D3).
    assert (R : forall c p v, st_of (a_pc s u) = Pending c -> (pf_direct pf p = false -> inherits (pf_direct pf) c) -> resb b s u p v -> resb b s' u p v).
    { intros c p v SC IC. unfold resb. destruct (pf_direct pf p); [auto|]. intros H B. rewrite (HR c B SC (IC eq_refl)). auto. }
    split; [exact D1|]. split.
    - destruct (a_pc s u); auto; (destruct k; cbn in *; (eapply R; [reflexivity|cbn; auto|exact D2])).
    - destruct (a_pc s u); auto; cbn in HO; try (destruct k as [[? ?]|]); auto; try (destruct k); auto; rewrite (HO _ eq_refl); auto;
        destruct D3 as (o & O1 & O2); exists o; (split; [exact O1|]).
      all: try (destruct O2 as (O2 & O3 & O4); split; [exact O2|]; split; [exact O3|]; (eapply R; [reflexivity|cbn; auto|exact O4])).
      all: try (destruct O2 as (O2 & O3 & O4); split; [exact O2|]; split; [|exact O4]; (eapply R; [reflexivity|cbn; auto|exact O3])).
      all: destruct O2 as (O2 & O3); split; [exact O2|]; (eapply R; [reflexivity|cbn; auto|exact O3]).
  Qed.

  (** the specification with an inherited priority that need not be the present one ([b = false]) *)
  Definition bspec (b : bool) (s : astate) (t : nat) (c : acall) (r : ares) (s' : astate) : Prop :=
    match c with
    | ACreate p n =>
        match r with
        | RThread x => s x = None /\ exists v, (if pf_direct pf p then v = p else b = true -> v = own s t) /\ aeq s' (aset s x (mkAttr v v n))
        | RNull => aeq s' s
        | _ => False
        end
    | ASet x p => exists o v, s x = Some o /\ r = RVoid /\ (if pf_direct pf p then v = p else b = true -> v = own s t) /\
                              aeq s' (aset s x (mkAttr v (at_init o) (at_name o)))
    | _ => spec s t c r s'
    end.
  Lemma bspec_true s t c r s' : bspec true s t c r s' -> spec s t c r s'.
  Proof.
    destruct c; cbn; auto.
    - destruct r; auto. intros (A & v & B & C). split; [exact A|]. unfold resolved. destruct (pf_direct pf p); [subst v; exact C|]. rewrite <- (B eq_refl). exact C.
    - intros (o & v & A & B & C & D). exists o. split; [exact A|]. split; [exact B|]. unfold resolved. destruct (pf_direct pf p); [subst v; exact D|]. rewrite <- (C eq_refl). exact D.
  Qed.
  Lemma own_ext s s' t : aeq s s' -> own s t = own s' t.
  Proof. intros H. unfold own_priority. now rewrite H. Qed.
  Lemma bspec_pre b s0 s t c r s' : aeq s0 s -> bspec b s t c r s' -> bspec b s0 t c r s'.
  Proof.
    intros Q. assert (T : forall z, aeq z s -> aeq z s0) by (intros z H x; rewrite H; symmetry; apply Q).
    assert (T2 : forall z x o, aeq z (aset s x o) -> aeq z (aset s0 x o)) by (intros z x o H y; rewrite H; unfold aset; destruct (Nat.eqb y x); [reflexivity|]; symmetry; apply Q).
    destruct c; cbn; rewrite ?Q.
    - destruct r; auto. rewrite Q, (own_ext _ _ t Q). intros (A & v & B & C). split; [exact A|]. exists v. auto.
    - rewrite (own_ext _ _ t Q). intros (o & v & A & B & C & D). exists o, v. auto.
    - intros (o & A & B & C). exists o. auto.
    - intros (o & A & B & C). exists o. auto.
    - intros (o & A & B & C). exists o. auto.
    - intros (o & A & B & C). exists o. auto.
  Qed.
  Definition alin (b : bool) (s : ast) (es : list (event acall ares)) : Prop :=
    exists f a, lin_run (bspec b) (fun _ => Out) a_none es f a /\ (forall u, f u = st_of (a_pc s u)) /\ aeq a (abs s).
  Lemma alin_gen b s es s' t q e : alin b s es -> a_pc s' = fupd (a_pc s) t q ->
    match e with
    | [] => st_of q = st_of (a_pc s t) /\ aeq (abs s') (abs s)
    | [Call u c] => u = t /\ st_of (a_pc s t) = Out /\ st_of q = Pending c /\ aeq (abs s') (abs s)
    | [Eff u c r] => u = t /\ st_of (a_pc s t) = Pending c /\ st_of q = Done r /\ bspec b (abs s) t c r (abs s')
    | [Ret u r] => u = t /\ st_of (a_pc s t) = Done r /\ st_of q = Out /\ aeq (abs s') (abs s)
    | _ => False
    end -> alin b s' (es ++ e).
  Proof.
    intros (f & a & L & F & A) ET H.
    assert (G : forall x u, st_of q = x -> set_st f t x u = st_of (a_pc s' u)).
    { intros x u <-. unfold set_st. rewrite ET, fupd_eq. destruct (Nat.eqb u t); auto. }
    assert (T : aeq (abs s') (abs s) -> aeq a (abs s')) by (intros H' x; now rewrite A, H').
    destruct e as [|[u c|u c r|u r] [|]]; try tauto.
    - destruct H as (H1 & H2). rewrite app_nil_r. exists f, a. split; [exact L|]. split; [|auto].
      intros u. rewrite F, ET, fupd_eq. destruct (Nat.eqb_spec u t) as [->|]; auto.
    - destruct H as (-> & H1 & H2 & H3). exists (set_st f t (Pending c)), a. split; [|split; [auto|auto]].
      apply (lin_run_app _ _ _ _ _ _ _ _ _ _ _ _ L). constructor; [now rewrite F|constructor].
    - destruct H as (-> & H1 & H2 & H3). exists (set_st f t (Done r)), (abs s'). split; [|split; [auto|intros x; reflexivity]].
      apply (lin_run_app _ _ _ _ _ _ _ _ _ _ _ _ L). econstructor; [now rewrite F|exact (bspec_pre _ _ _ _ _ _ _ A H3)|constructor].
    - destruct H as (-> & H1 & H2 & H3). exists (set_st f t Out), a. split; [|split; [auto|auto]].
      apply (lin_run_app _ _ _ _ _ _ _ _ _ _ _ _ L). constructor; [now rewrite F|constructor].
  Qed.

  Definition mover (l : alab) : nat := match l with ALCall t _ | AStep t _ | AAlloc t _ => t end.
  Lemma pc_step s l s' e : step s l = Some (s', e) -> forall u, u <> mover l -> a_pc s' u = a_pc s u.
  Proof. intros E. cases E; intros u N; cbn in N |- *; now rewrite fupd_other by exact N. Qed.
  Lemma obj_same s l s' e : ainv s -> step s l = Some (s', e) -> forall u x, u <> mover l -> creating (a_pc s u) = Some x -> a_obj s' x = a_obj s x.
  Proof.
    intros I E u y N C.
    assert (D : forall x, (creating (a_pc s (mover l)) = Some x \/ a_pub s x = true \/ a_obj s x = None) -> y <> x).
    { intros x H ->. destruct H as [H|[H|H]]; [exact (N (i_uniq s I _ _ _ C H))|destruct (i_new s I u x C); intuition congruence|destruct (i_new s I u x C); intuition congruence]. }
    pose proof (i_uses s I (mover l)) as US.
    cases E; cbn [mover] in *; rewrite ET in *; cbn; try reflexivity; rewrite fupd_other; try reflexivity; apply D; cbn; auto.
    all: try (right; left; apply US; reflexivity).
    all: try (right; right; apply andb_true_iff in Q; destruct (a_obj s x); [destruct Q; discriminate|reflexivity]).
  Qed.
  Lemma own_same s l s' e : ainv s -> step s l = Some (s', e) -> forall u,
    own (abs s') u = own (abs s) u \/ (exists p v, a_pc s (mover l) = PWrite u v (KSet p)) \/ a_pc s u = POut.
  Proof.
    intros I E u. pose proof (i_new s I (mover l)) as NW.
    assert (UN : forall x, a_obj s x = None -> a_pub s x = false) by (intros x H; destruct (a_pub s x) eqn:P; [destruct (i_pub s I x P H)|reflexivity]).
    cases E; cbn [mover] in *; rewrite ET in *; cbn [creating] in NW; try (left; reflexivity).
    all: unfold own_priority, given_out; cbn [go lock_go fac_go obj_go pub_go os_go a_obj a_pub].
    all: rewrite fupd_eq; lazymatch goal with |- context [Nat.eqb ?u ?z] => destruct (Nat.eqb_spec u z) as [K|K]; [rewrite ?K in *|left; reflexivity] end.
    all: try (destruct (NW _ eq_refl) as (A1 & A2 & A3); left; rewrite A2; reflexivity).
    all: try (left; match goal with H : a_obj ?s ?z = Some _ |- context [if a_pub ?s ?z then _ else _] => rewrite H; destruct (a_pub s z); reflexivity end).
    - right; left. eauto.
    - right; right. destruct (NW _ eq_refl) as (A1 & A2 & A3). apply (i_idle s I); assumption.
    - left. apply andb_true_iff in Q. rewrite UN; [reflexivity|]. destruct (a_obj s x); [destruct Q; discriminate|reflexivity].
  Qed.
  Lemma pending_called b : forall es f a, lin_run (bspec b) (fun _ => Out) a_none es f a -> forall t c, f t = Pending c -> In (Call t c) es.
  Proof.
    intros es f a L.
    assert (G : forall es f a f' a', lin_run (bspec b) f a es f' a' -> forall t c, f' t = Pending c -> f t = Pending c \/ In (Call t c) es).
    { clear. intros es f a f' a' L. induction L; intros u d H'; auto.
      - destruct (IHL u d H') as [A|A]; [|right; now right]. unfold set_st in A. destruct (Nat.eqb_spec u t) as [->|N]; [|now left]. injection A as ->. right. now left.
      - destruct (IHL u d H') as [A|A]; [|right; now right]. unfold set_st in A. destruct (Nat.eqb_spec u t) as [->|N]; [discriminate|now left].
      - destruct (IHL u d H') as [A|A]; [|right; now right]. unfold set_st in A. destruct (Nat.eqb_spec u t) as [->|N]; [discriminate|now left]. }
    intros t c H. destruct (G _ _ _ _ _ L t c H) as [X|X]; [discriminate|exact X].
  Qed.
  Lemma resb_direct b s t p : pf_direct pf p = true -> resb b s t p p.
  Proof. intros H. unfold resb. now rewrite H. Qed.
  Lemma resb_normal b s t p : pf_direct pf p = false -> a_pub s t = false -> resb b s t p (pf_normal pf).
  Proof. intros H P. unfold resb. rewrite H. intros _. unfold own_priority, given_out. now rewrite P. Qed.
  Lemma resb_read b s t p o : pf_direct pf p = false -> a_pub s t = true -> a_obj s t = Some o -> resb b s t p (at_prio o).
  Proof. intros H P O. unfold resb. rewrite H. intros _. unfold own_priority, given_out. now rewrite P, O. Qed.
  Lemma dat_step b s es l s' e : ainv s -> (forall u, dat b s u (a_pc s u)) -> alin b s es -> (b = true -> own_master (pf_direct pf) (es ++ e)) ->
    step s l = Some (s', e) -> forall u, dat b s' u (a_pc s' u).
  Proof.
    intros I D L OM E u. destruct (Nat.eq_dec u (mover l)) as [->|N].
    2:{ rewrite (pc_step _ _ _ _ E u N). apply dat_frame; [intros x; exact (obj_same _ _ _ _ I E u x N)| |exact (D u)].
        intros c B SC IH. destruct (own_same _ _ _ _ I E u) as [H|[(p & v & H)|H]]; [exact H| |rewrite H in SC; discriminate].
        exfalso. destruct L as (f & a & L & F & _). refine (OM B (mover l) u p c _ (not_eq_sym N) _ IH); apply in_or_app; left; apply (pending_called b _ _ _ L).
        - now rewrite F, H.
        - now rewrite F. }
    specialize (D (mover l)). pose proof (i_uses s I (mover l)) as US.
    assert (OW : (forall p v, a_pc s (mover l) <> PWrite (mover l) v (KSet p)) -> a_pc s (mover l) <> POut -> own (abs s') (mover l) = own (abs s) (mover l)).
    { intros X H. destruct (own_same _ _ _ _ I E (mover l)) as [A|[(p' & v' & A)|A]]; [exact A|destruct (X p' v' A)|contradiction]. }
    assert (RB : (forall p v, a_pc s (mover l) <> PWrite (mover l) v (KSet p)) -> a_pc s (mover l) <> POut -> forall p v, resb b s (mover l) p v -> resb b s' (mover l) p v).
    { intros X H p v. unfold resb. rewrite (OW X H). auto. }
    cases E; cbn [mover] in *; rewrite ET in *; cbn [a_pc go lock_go fac_go obj_go pub_go os_go]; rewrite fupd_same.
    all: unfold dat in D |- *; cbn [start_of a_obj] in D |- *; destruct D as (D1 & D2 & D3).
    all: try (split; [exact Logic.I|]; split; [exact Logic.I|]; exact Logic.I).
    all: try specialize (RB ltac:(discriminate) ltac:(discriminate)).
    all: repeat match goal with k : (Z * nat)%type |- _ => destruct k as [? ?] end.
    all: cbn [go lock_go fac_go obj_go pub_go os_go a_obj arg] in *; rewrite ?fupd_same.
    all: split; [first [exact Logic.I | exact D1 | reflexivity]|].
    all: split; [first [exact Logic.I | exact D2 | assumption | apply RB; assumption | apply resb_direct; assumption | apply resb_normal; assumption | eapply resb_read; [assumption|apply US; left; reflexivity|assumption] | idtac]|].
    all: try exact Logic.I; try exact D3.
    all: try (destruct D3 as (o & O1 & O2); exists o; split; [exact O1|]; intuition (first [assumption | apply RB; assumption]); fail).
    - eexists. split; [reflexivity|exact D1].
    - destruct D3 as (o & O1 & O2). eexists. split; [reflexivity|]. split; [cbn; congruence|]. split; [reflexivity|]. apply RB. exact D2.
    - destruct D3 as (o & O1 & O2 & O3 & O4). exists o. split; [exact O1|]. split; [exact O2|]. rewrite O3. apply RB. exact O4.
    - destruct D3 as (o & O1 & O2 & O3). eexists. split; [reflexivity|]. split; [cbn; congruence|]. split; [|reflexivity]. apply RB. cbn. congruence.
    - eexists. split; reflexivity.
  Qed.
  Lemma abs_unpub s x o t q : a_pub s x = false -> aeq (abs (obj_go s x o t q)) (abs s).
  Proof. intros P y. unfold given_out. cbn. rewrite fupd_eq. destruct (Nat.eqb_spec y x) as [K|K]; [now rewrite K, P|reflexivity]. Qed.
  Lemma abs_pub s x o t q : a_pub s x = true -> aeq (abs (obj_go s x (Some o) t q)) (aset (abs s) x o).
  Proof. intros P y. unfold given_out, aset. cbn. rewrite fupd_eq. destruct (Nat.eqb_spec y x) as [K|K]; [now rewrite K, P|reflexivity]. Qed.
  Lemma alin_step b s es l s' e : ainv s -> (forall u, dat b s u (a_pc s u)) -> alin b s es -> step s l = Some (s', e) -> alin b s' (es ++ e).
  Proof.
    intros I D L E. specialize (D (mover l)). pose proof (i_uses s I (mover l)) as US. pose proof (i_new s I (mover l)) as NW.
    assert (UN : forall x, a_obj s x = None -> a_pub s x = false) by (intros x H; destruct (a_pub s x) eqn:P; [destruct (i_pub s I x P H)|reflexivity]).
    cases E; cbn [mover] in *; rewrite ET in *; (eapply (alin_gen b s es); [exact L|reflexivity|]); rewrite ET; cbn [creating] in NW.
    all: try (split; [reflexivity|intros y; reflexivity]).
    all: try (split; [reflexivity|]; split; [reflexivity|]; split; [reflexivity|intros y; reflexivity]).
    - split; [destruct p; reflexivity|]. apply abs_unpub, (NW x eq_refl).
    - split; [reflexivity|]. split; [reflexivity|]. split; [reflexivity|]. pose proof (US x eq_refl) as P. exists a. split; [unfold given_out; now rewrite P|]. split; [reflexivity|]. now apply abs_pub.
    - split; [reflexivity|]. split; [reflexivity|]. split; [reflexivity|]. pose proof (US x eq_refl) as P. destruct D as (_ & D & _). exists a, v. split; [unfold given_out; now rewrite P|]. split; [reflexivity|]. split; [exact D|]. now apply abs_pub.
    - split; [reflexivity|]. apply abs_unpub, (NW x eq_refl).
    - split; [reflexivity|]. split; [reflexivity|]. split; [reflexivity|]. pose proof (US x eq_refl) as P. destruct w; exists a; (split; [unfold given_out; now rewrite P|]); (split; [reflexivity|]); intros y; reflexivity.
    - split; [reflexivity|]. apply abs_unpub, (NW x eq_refl).
    - split; [reflexivity|]. split; [reflexivity|]. split; [reflexivity|]. destruct (NW x eq_refl) as (_ & P & _). destruct D as (_ & _ & o & O1 & O2 & O3 & O4).
      split; [unfold given_out; now rewrite P|]. exists (at_prio o). split; [exact O3|]. intros y. unfold given_out, aset. cbn. rewrite fupd_eq. destruct (Nat.eqb_spec y x) as [K|K]; [|reflexivity].
      rewrite K, O1, <- O2. rewrite <- O4 at 2. now destruct o.
    - split; [reflexivity|]. apply abs_unpub, (NW n eq_refl).
    - split; [reflexivity|]. apply abs_unpub. apply UN. apply andb_true_iff in Q. destruct (a_obj s x); [destruct Q; discriminate|reflexivity].
  Qed.
  Theorem a_reach b ls s es : exec step a_init ls = Some (s, es) ->
    ainv s /\ ((b = true -> own_master (pf_direct pf) es) -> (forall u, dat b s u (a_pc s u)) /\ alin b s es).
  Proof.
    intros E. refine (exec_inv _ _ _ step (fun s es => ainv s /\ ((b = true -> own_master (pf_direct pf) es) -> (forall u, dat b s u (a_pc s u)) /\ alin b s es)) _ ls a_init [] s es (conj ainv_init _) E).
    - intros s0 es0 l s1 e1 (A & B) E1. split; [exact (ainv_step _ _ _ _ A E1)|]. intros OM.
      destruct B as (B1 & B2). { intros B t x p c H1 H2 H3. apply (OM B t x p c); auto; apply in_or_app; auto. }
      split; [exact (dat_step b _ _ _ _ _ A B1 B2 OM E1)|exact (alin_step b _ _ _ _ _ A B1 B2 E1)].
    - intros _. split; [intros u; repeat split|]. exists (fun _ => Out), a_none. split; [constructor|]. split; [reflexivity|intros x; reflexivity].
  Qed.
End Proofs.
