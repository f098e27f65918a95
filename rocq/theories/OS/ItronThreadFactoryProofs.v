(** Proofs about the Itron thread factory. *)
From Coq Require Import List Bool Lia Arith.
Import ListNotations.
From Verif Require Import Spec.Linear Spec.CurrentThreadSpec OS.Sched OS.ItronThreadFactoryModel.

Lemma kupd_same {A} (f : kind -> nat -> A) k i x : kupd f k i x k i = x.
Proof. destruct k; cbn; apply fupd_same. Qed.
Lemma kupd_other {A} (f : kind -> nat -> A) k i x k' j : (k' <> k \/ j <> i) -> kupd f k i x k' j = f k' j.
Proof. intros [H|H]; destruct k, k'; cbn; try congruence; now apply fupd_other. Qed.
Lemma kupd_cases {A} (f : kind -> nat -> A) k i x k' j : (k' = k /\ j = i /\ kupd f k i x k' j = x) \/ ((k' <> k \/ j <> i) /\ kupd f k i x k' j = f k' j).
Proof.
  assert (D : k' = k \/ k' <> k) by (destruct k, k'; auto; right; discriminate). destruct D as [-> |D]; [|right; split; [now left|apply kupd_other; now left]].
  destruct (Nat.eq_dec j i) as [->|N]; [left|right].
  - repeat split. apply kupd_same.
  - split; [now right|apply kupd_other; now right].
Qed.

(** * the table *)
Lemma erase_in i l x : NoDup (map fst l) -> (In x (f_erase i l) <-> In x l /\ fst x <> i).
Proof.
  induction l as [|y l IH]; cbn; intros N; [tauto|]. inversion N; subst. destruct (Nat.eqb_spec (fst y) i) as [E|E].
  - split.
    + intros H. split; [now right|]. intros F. apply H1. rewrite E, <- F. now apply in_map.
    + intros [[<- |H] F]; [contradiction|exact H].
  - cbn. rewrite IH by assumption. split.
    + intros [<- |H]; [now split; [left|]|]. tauto.
    + intros [[<- |H] F]; [now left|right; tauto].
Qed.
Lemma erase_incl {B} (g : nat * nat -> B) i l y : In y (map g (f_erase i l)) -> In y (map g l).
Proof.
  induction l as [|x l IH]; cbn; [tauto|]. destruct (fst x =? i); [now right|]. cbn. intros [H|H]; [now left|right; auto].
Qed.
Lemma erase_nodup {B} (g : nat * nat -> B) i l : NoDup (map g l) -> NoDup (map g (f_erase i l)).
Proof.
  induction l as [|x l IH]; cbn; intros N; [constructor|]. inversion N; subst. destruct (fst x =? i); [assumption|]. cbn. constructor; [|now apply IH].
  intros H. apply H1. now apply erase_incl in H.
Qed.
Lemma erase_len i l p : In (i, p) l -> S (length (f_erase i l)) = length l.
Proof.
  induction l as [|x l IH]; cbn; [tauto|]. intros [->|H]; cbn.
  - now rewrite Nat.eqb_refl.
  - destruct (fst x =? i); [reflexivity|]. cbn. f_equal. now apply IH.
Qed.

Section M.
  Variable max : nat.
  Definition stored (M : list (nat * nat)) (p : nat) : Prop := In p (map snd M).
  Notation fl := (option (nat * (kind -> option nat))).
  Record core (M : list (nat * nat)) (O : nat -> obj) (R : kind -> nat -> option owner) (B : nat -> bool) (c : fl) : Prop := {
    co_nd : NoDup (map snd M);
    co_ndf : NoDup (map fst M);
    co_map : forall i p, In (i, p) M -> i = o_tsk (O p) /\ p < max;
    co_res : forall k i p, R k i = Some (Own p) <-> (stored M p /\ o_get (O p) k = i) \/ (exists g, c = Some (p, g) /\ g k = Some i);
    co_blk : forall p, B p = true <-> stored M p \/ (exists g, c = Some (p, g));
    co_sep : forall p g, c = Some (p, g) -> ~ stored M p /\ p < max
  }.
  Lemma stored_in M O R B c p : core M O R B c -> stored M p -> In (o_tsk (O p), p) M.
  Proof. intros C H. apply in_map_iff in H. destruct H as ((i & q) & E & H). cbn in E. subst q. destruct (co_map _ _ _ _ _ C _ _ H) as (-> & _). exact H. Qed.

  Lemma core_ext M O R B p g g' : (forall k, g' k = g k) -> core M O R B (Some (p, g)) -> core M O R B (Some (p, g')).
  Proof.
    intros E [A1 A2 A3 A4 A5 A6]. constructor; auto.
    - intros k i q. rewrite A4. split; (intros [H|(h & H & G)]; [now left|right; injection H as -> <-]); eexists; (split; [reflexivity|]); [now rewrite E|now rewrite <- E].
    - intros q. rewrite A5. split; (intros [H|(h & H)]; [now left|right; injection H as -> <-; eauto]).
    - intros q h H. injection H as -> <-. now apply (A6 q g).
  Qed.
  Lemma core_get M O R B p : core M O R B None -> p < max -> B p = false -> core M O R (fupd B p true) (Some (p, fun _ => None)).
  Proof.
    intros [A1 A2 A3 A4 A5 A6] L F. constructor; auto.
    - intros k i q. rewrite A4. split; (intros [H|(h & H & G)]; [now left|]); [discriminate|]. injection H as -> <-. discriminate.
    - intros q. rewrite fupd_eq. destruct (Nat.eqb_spec q p) as [->|N].
      + split; [intros _; right; eauto|reflexivity].
      + rewrite A5. split; (intros [H|(h & H)]; [now left|]); [discriminate|]. congruence.
    - intros q g H. injection H as <- <-. split; [|exact L]. intros X. assert (B p = true) by (apply A5; now left). congruence.
  Qed.
  Definition gset (g : kind -> option nat) (k : kind) (x : option nat) : kind -> option nat :=
    fun k' => match k, k' with KTsk, KTsk | KFlg, KFlg | KMtx, KMtx => x | _, _ => g k' end.
  Lemma gset_same g k x : gset g k x k = x. Proof. now destruct k. Qed.
  Lemma gset_other g k x k' : k' <> k -> gset g k x k' = g k'. Proof. destruct k, k'; cbn; congruence. Qed.
  Lemma kind_dec (k k' : kind) : {k = k'} + {k <> k'}. Proof. decide equality. Qed.
  Lemma core_new M O R B p g k i : core M O R B (Some (p, g)) -> R k i = None -> g k = None -> core M O (kupd R k i (Some (Own p))) B (Some (p, gset g k (Some i))).
  Proof.
    intros [A1 A2 A3 A4 A5 A6] F G. constructor; auto.
    - intros k' i' q. destruct (kupd_cases R k i (Some (Own p)) k' i') as [(-> & -> & ->)|(N & ->)].
      + split.
        * intros [= <-]. right. eexists. split; [reflexivity|apply gset_same].
        * intros [(S & X)|(h & H & X)]; [|now injection H as <- _]. assert (R k i = Some (Own q)) by (apply A4; left; auto). congruence.
      + rewrite A4. split; (intros [H|(h & H & X)]; [now left|right; injection H as -> <-]); (eexists; split; [reflexivity|]).
        * destruct (kind_dec k' k) as [->|K]; [congruence|now rewrite gset_other].
        * destruct (kind_dec k' k) as [->|K]; [|now rewrite gset_other in X]. rewrite gset_same in X. injection X as <-. destruct N; congruence.
    - intros q. rewrite A5. split; (intros [H|(h & H)]; [now left|right; injection H as -> _; eauto]).
    - intros q h H. injection H as -> _. now apply (A6 q g).
  Qed.
  Lemma core_del M O R B p g k i : core M O R B (Some (p, g)) -> g k = Some i -> core M O (kupd R k i None) B (Some (p, gset g k None)).
  Proof.
    intros [A1 A2 A3 A4 A5 A6] G. assert (RI : R k i = Some (Own p)) by (apply A4; right; eauto). constructor; auto.
    - intros k' i' q. destruct (kupd_cases R k i None k' i') as [(-> & -> & ->)|(N & ->)].
      + split; [discriminate|]. intros [(S & X)|(h & H & X)].
        * assert (R k i = Some (Own q)) by (apply A4; left; auto). rewrite RI in H. injection H as ->. destruct (A6 q g eq_refl). contradiction.
        * injection H as <- <-. rewrite gset_same in X. discriminate.
      + rewrite A4. split; (intros [H|(h & H & X)]; [now left|right; injection H as -> <-]); (eexists; split; [reflexivity|]).
        * destruct (kind_dec k' k) as [->|K]; [|now rewrite gset_other]. rewrite G in X. injection X as <-. destruct N; congruence.
        * destruct (kind_dec k' k) as [->|K]; [|now rewrite gset_other in X]. rewrite gset_same in X. discriminate.
    - intros q. rewrite A5. split; (intros [H|(h & H)]; [now left|right; injection H as -> _; eauto]).
    - intros q h H. injection H as -> _. now apply (A6 q g).
  Qed.
  Lemma core_rel M O R B p g : core M O R B (Some (p, g)) -> (forall k, g k = None) -> core M O R (fupd B p false) None.
  Proof.
    intros [A1 A2 A3 A4 A5 A6] G. constructor; auto.
    - intros k i q. rewrite A4. split; (intros [H|(h & H & X)]; [now left|]); [|discriminate]. injection H as -> <-. now rewrite G in X.
    - intros q. rewrite fupd_eq. destruct (Nat.eqb_spec q p) as [->|N].
      + split; [discriminate|]. intros [S|(h & H)]; [|discriminate]. destruct (A6 p g eq_refl). contradiction.
      + rewrite A5. split; (intros [H|(h & H)]; [now left|]); [|discriminate]. congruence.
    - discriminate.
  Qed.
  Lemma core_ob M O R B p g o : core M O R B (Some (p, g)) -> core M (fupd O p o) R B (Some (p, g)).
  Proof.
    intros [A1 A2 A3 A4 A5 A6]. destruct (A6 p g eq_refl) as (NS & _).
    assert (E : forall q, stored M q -> fupd O p o q = O q) by (intros q S; apply fupd_other; intros ->; contradiction). constructor; auto.
    - intros i q H. rewrite E; [now apply A3|]. apply (in_map snd) in H. exact H.
    - intros k i q. rewrite A4. split; (intros [(S & X)|H]; [left; split; [exact S|]|now right]); [now rewrite E|now rewrite E in X].
  Qed.
  Lemma core_push M O R B p g : core M O R B (Some (p, g)) -> (forall k, g k = Some (o_get (O p) k)) -> core (M ++ [(o_tsk (O p), p)]) O R B None.
  Proof.
    intros C G. pose proof C as [A1 A2 A3 A4 A5 A6]. destruct (A6 p g eq_refl) as (NS & L).
    assert (ST : forall q, stored (M ++ [(o_tsk (O p), p)]) q <-> stored M q \/ q = p).
    { intros q. unfold stored. rewrite map_app, in_app_iff. cbn. split; (intros [X|X]; [now left|]); [destruct X as [X|[]]; auto|subst; auto]. }
    constructor; auto.
    - rewrite map_app. cbn. apply NoDup_Add with (a := p) (l := map snd M); [|split; [exact A1|exact NS]].
      rewrite <- (app_nil_r (map snd M)) at 1. apply Add_app.
    - rewrite map_app. cbn. apply NoDup_Add with (a := o_tsk (O p)) (l := map fst M).
      + rewrite <- (app_nil_r (map fst M)) at 1. apply Add_app.
      + split; [exact A2|]. intros X. apply in_map_iff in X. destruct X as ((i & q) & E & H). cbn in E. subst i. destruct (A3 _ _ H) as (E & _).
        assert (R KTsk (o_tsk (O p)) = Some (Own q)). { apply A4. left. split; [apply (in_map snd) in H; exact H|exact (eq_sym E)]. }
        assert (R KTsk (o_tsk (O p)) = Some (Own p)). { apply A4. right. exists g. split; [reflexivity|apply (G KTsk)]. }
        apply NS. replace p with q by congruence. apply (in_map snd) in H. exact H.
    - intros i q H. apply in_app_iff in H. destruct H as [H|[H|[]]]; [now apply A3|]. injection H as <- <-. split; [reflexivity|exact L].
    - intros k i q. rewrite A4, ST. split.
      + intros [(S & X)|(h & H & X)]; left; [auto|]. injection H as -> <-. rewrite G in X. injection X as <-. auto.
      + intros [([S| ->] & X)|(h & H & X)]; [left; auto| |discriminate]. right. exists g. split; [reflexivity|]. now rewrite G, X.
    - intros q. rewrite A5, ST. split.
      + intros [S|(h & H)]; left; [auto|]. injection H as -> _. auto.
      + intros [[S| ->]|(h & H)]; [auto| |discriminate]. right. eauto.
    - discriminate.
  Qed.
  Lemma core_erase M O R B p : core M O R B None -> stored M p -> core (f_erase (o_tsk (O p)) M) O R B (Some (p, fun k => Some (o_get (O p) k))).
  Proof.
    intros C S0. pose proof C as [A1 A2 A3 A4 A5 A6]. pose proof (stored_in _ _ _ _ _ _ C S0) as I0.
    assert (RP : R KTsk (o_tsk (O p)) = Some (Own p)) by (apply A4; left; auto).
    assert (ST : forall q, stored (f_erase (o_tsk (O p)) M) q <-> stored M q /\ q <> p).
    { intros q. unfold stored. split.
      - intros H. apply in_map_iff in H. destruct H as ((i & q') & E & H). cbn in E. subst q'. apply erase_in in H; [|exact A2]. destruct H as (H & N). cbn in N.
        split; [apply (in_map snd) in H; exact H|]. intros ->. destruct (A3 _ _ H) as (E & _). congruence.
      - intros (H & N). pose proof (stored_in _ _ _ _ _ _ C H) as IQ. apply (in_map snd (f_erase (o_tsk (O p)) M) (o_tsk (O q), q)).
        apply erase_in; [exact A2|]. split; [exact IQ|]. cbn. intros X.
        assert (R KTsk (o_tsk (O q)) = Some (Own q)) by (apply A4; left; auto). rewrite X in H0. congruence. }
    constructor.
    - now apply erase_nodup.
    - now apply erase_nodup.
    - intros i q H. apply erase_in in H; [|exact A2]. now apply A3.
    - intros k i q. rewrite A4, ST. split.
      + intros [(S & X)|(h & H & _)]; [|discriminate]. destruct (Nat.eq_dec q p) as [->|N]; [right|left; auto]. eexists. split; [reflexivity|]. cbn. now rewrite X.
      + intros [((S & N) & X)|(h & H & X)]; [left; auto|]. injection H as -> <-. injection X as <-. left. auto.
    - intros q. rewrite A5, ST. split.
      + intros [S|(h & H)]; [|discriminate]. destruct (Nat.eq_dec q p) as [->|N]; [right; eauto|left; auto].
      + intros [(S & N)|(h & H)]; [left; auto|]. injection H as -> _. left. auto.
    - intros q g H. injection H as -> _. rewrite ST. split; [tauto|]. now apply (A3 _ _ I0).
  Qed.
  Lemma core_foreign M O R B c k i x : core M O R B c -> (forall p, R k i <> Some (Own p)) -> (forall p, x <> Some (Own p)) -> core M O (kupd R k i x) B c.
  Proof.
    intros [A1 A2 A3 A4 A5 A6] F X. constructor; auto. intros k' i' q. destruct (kupd_cases R k i x k' i') as [(-> & -> & ->)|(N & ->)]; [|apply A4].
    rewrite <- A4. split; intros H; [now elim (X q)|now elim (F q)].
  Qed.

  (** * state invariant *)
  Definition cs (q : fpc) : bool := match q with PIdle | PLock _ | DWait _ | PRet _ => false | _ => true end.
  Definition infl (O : nat -> obj) (q : fpc) : fl :=
    match q with
    | CTsk p => Some (p, fun _ => None)
    | CFlg p i | CDelT p i => Some (p, fun k => match k with KTsk => Some i | _ => None end)
    | CMtx p i j | CDelF p i j => Some (p, fun k => match k with KTsk => Some i | KFlg => Some j | KMtx => None end)
    | CRel p | DRel p => Some (p, fun _ => None)
    | CPush p | DTsk p => Some (p, fun k => Some (o_get (O p) k))
    | DFlg p => Some (p, fun k => match k with KTsk => None | _ => Some (o_get (O p) k) end)
    | DMtx p => Some (p, fun k => match k with KMtx => Some (o_get (O p) k) | _ => None end)
    | _ => None
    end.
  Definition cur (s : fst_) : fl := match f_mtx s with Some t => infl (f_ob s) (f_pc s t) | None => None end.
  Definition refs (q : fpc) (p : nat) : Prop :=
    match q with DWait p' | PLock (TDestroy p') | DErase p' | PUnl (TThread p') | PRet (TThread p') => p' = p | _ => False end.
  Definition okpc (q : fpc) : Prop := match q with PLock _ | _ => True end.
  Record finv (s : fst_) : Prop := {
    fi_lock : forall t, cs (f_pc s t) = true <-> f_mtx s = Some t;
    fi_core : core (f_map s) (f_ob s) (f_res s) (f_blk s) (cur s);
    fi_ref : forall t p, refs (f_pc s t) p -> stored (f_map s) p /\ f_live s p = false;
    fi_one : forall t u p, refs (f_pc s t) p -> refs (f_pc s u) p -> t = u;
    fi_st : forall p, stored (f_map s) p -> f_live s p = true \/ exists t, refs (f_pc s t) p;
    fi_live : forall p, f_live s p = true -> stored (f_map s) p;
    fi_run : forall p, f_run s p = true -> f_live s p = true \/ exists t, f_pc s t = DWait p;
    fi_act : forall t, f_pc s t <> PIdle -> f_acts s t = true;
    fi_cur : forall t r, f_pc s t = PUnl (TCur r) \/ f_pc s t = PRet (TCur r) -> r = thread_of (f_res s KTsk t)
  }.
  Lemma finv_init app : finv (f_init app).
  Proof.
    constructor; cbn; try congruence; try tauto; try (intros; split; congruence).
    - constructor; cbn; try (constructor; fail); try tauto; try discriminate.
      + intros k i p. split; [|intros [(H & _)|(g & H & _)]; [destruct H|discriminate]]. destruct k; try discriminate. destruct (app i); discriminate.
      + intros p. split; [discriminate|]. intros [H|(g & H)]; [destruct H|discriminate].
    - intros t r [H|H]; discriminate.
  Qed.

  Lemma cs_one s t u : finv s -> cs (f_pc s t) = true -> cs (f_pc s u) = true -> u = t.
  Proof. intros I A B. apply (fi_lock s I) in A. apply (fi_lock s I) in B. congruence. Qed.
  Lemma cur_cs s t : finv s -> cs (f_pc s t) = true -> cur s = infl (f_ob s) (f_pc s t).
  Proof. intros I A. apply (fi_lock s I) in A. unfold cur. now rewrite A. Qed.
  Lemma run_stored s p : finv s -> f_run s p = true -> stored (f_map s) p.
  Proof. intros I H. destruct (fi_run s I p H) as [L|(t & T)]; [now apply (fi_live s I)|]. apply (fi_ref s I t p). now rewrite T. Qed.
  (** a task that acts and is a thread's: the thread is in the table under its id *)
  Lemma act_stored s t p : finv s -> f_acts s t = true -> f_res s KTsk t = Some (Own p) -> f_run s p = true /\ stored (f_map s) p /\ o_tsk (f_ob s p) = t.
  Proof.
    intros I A R. unfold f_acts in A. rewrite R in A. split; [exact A|]. pose proof (run_stored s p I A) as S. split; [exact S|].
    pose proof (fi_core s I) as C. apply (co_res _ _ _ _ _ C) in R. destruct R as [(_ & X)|(g & X & _)]; [exact X|].
    destruct (co_sep _ _ _ _ _ C _ _ X). contradiction.
  Qed.
  Lemma find_right s t : finv s -> f_acts s t = true -> f_find t (f_map s) = thread_of (f_res s KTsk t).
  Proof.
    intros I A. pose proof (fi_core s I) as C. unfold f_find. destruct (find (fun x => fst x =? t) (f_map s)) as [[i p]|] eqn:F.
    - apply find_some in F. destruct F as (F & E). apply Nat.eqb_eq in E. cbn in E. subst i. cbn.
      destruct (co_map _ _ _ _ _ C _ _ F) as (X & _). assert (R : f_res s KTsk t = Some (Own p)).
      { apply (co_res _ _ _ _ _ C). left. split; [apply (in_map snd) in F; exact F|exact (eq_sym X)]. } now rewrite R.
    - cbn. destruct (f_res s KTsk t) as [[|p]|] eqn:R; try reflexivity. destruct (act_stored s t p I A R) as (_ & S & X).
      pose proof (stored_in _ _ _ _ _ _ C S) as J. rewrite X in J. apply (find_none _ _ F) in J. cbn in J. rewrite Nat.eqb_refl in J. discriminate.
  Qed.

  (** steps that change only the caller's program counter, outside of the critical section *)
  Lemma finv_cs s s' t q :
    finv s -> cs (f_pc s t) = true -> f_pc s' = fupd (f_pc s) t q -> f_mtx s' = (if cs q then f_mtx s else None) -> f_run s' = f_run s -> f_live s' = f_live s -> q <> PIdle ->
    core (f_map s') (f_ob s') (f_res s') (f_blk s') (if cs q then infl (f_ob s') q else None) ->
    (forall p, refs q p -> (stored (f_map s') p /\ f_live s p = false /\ forall u, u <> t -> ~ refs (f_pc s u) p)) ->
    (forall u p, u <> t -> refs (f_pc s u) p -> stored (f_map s') p) ->
    (forall p, stored (f_map s') p -> f_live s p = true \/ (exists u, u <> t /\ refs (f_pc s u) p) \/ refs q p) ->
    (forall p, f_live s p = true -> stored (f_map s') p) ->
    (forall u, f_acts s u = true -> f_res s' KTsk u = f_res s KTsk u) ->
    (forall r, q = PUnl (TCur r) \/ q = PRet (TCur r) -> r = thread_of (f_res s' KTsk t)) ->
    finv s'.
  Proof.
    intros I O EP EM ER EL NI C R1 R2 R3 R4 AC CU.
    assert (OT : forall u, u <> t -> cs (f_pc s u) = false). { intros u N. destruct (cs (f_pc s u)) eqn:X; [|reflexivity]. elim N. now apply (cs_one s t u). }
    assert (MT : f_mtx s = Some t) by now apply (fi_lock s I).
    constructor.
    - intros u. rewrite EP, EM, fupd_eq. destruct (Nat.eqb_spec u t) as [->|N].
      + destruct (cs q); rewrite ?MT; split; congruence.
      + rewrite OT by exact N. destruct (cs q); rewrite ?MT; split; congruence.
    - unfold cur. rewrite EM. destruct (cs q); [|exact C]. rewrite MT, EP, fupd_same. exact C.
    - intros u p. rewrite EP, EL, fupd_eq. destruct (Nat.eqb_spec u t) as [->|N].
      + intros H. destruct (R1 p H) as (A & B & _). auto.
      + intros H. split; [now apply (R2 u)|]. now apply (fi_ref s I u).
    - intros u v p. rewrite EP, !fupd_eq. destruct (Nat.eqb_spec u t) as [->|N]; destruct (Nat.eqb_spec v t) as [->|N']; auto.
      + intros A B. destruct (R1 p A) as (_ & _ & X). now elim (X v N').
      + intros A B. destruct (R1 p B) as (_ & _ & X). now elim (X u N).
      + apply (fi_one s I).
    - intros p H. rewrite EL. destruct (R3 p H) as [A|[(u & N & A)|A]]; [now left|right|right].
      + exists u. now rewrite EP, fupd_other.
      + exists t. now rewrite EP, fupd_same.
    - intros p. rewrite EL. apply R4.
    - intros p. rewrite ER, EL. intros H. destruct (fi_run s I p H) as [A|(u & A)]; [now left|right]. exists u. rewrite EP, fupd_other; [exact A|].
      intros ->. rewrite A in O. discriminate.
    - intros u H. assert (A : f_acts s u = true). { apply (fi_act s I). rewrite EP in H. destruct (Nat.eq_dec u t) as [UT|N]; [|now rewrite fupd_other in H by exact N]. intros X. rewrite UT in X. rewrite X in O. discriminate. }
      pose proof (AC u A) as X. unfold f_acts in *. rewrite X, ER. exact A.
    - intros u r. rewrite EP, fupd_eq. destruct (Nat.eqb_spec u t) as [->|N]; [apply CU|]. intros H. rewrite (AC u); [now apply (fi_cur s I)|].
      apply (fi_act s I). destruct H as [H|H]; rewrite H; discriminate.
  Qed.
  (** the table stays: what a step inside the critical section has to show *)
  Lemma finv_cs_same s s' t q :
    finv s -> cs (f_pc s t) = true -> f_pc s' = fupd (f_pc s) t q -> f_mtx s' = (if cs q then f_mtx s else None) -> f_run s' = f_run s -> f_live s' = f_live s -> q <> PIdle ->
    f_map s' = f_map s ->
    core (f_map s) (f_ob s') (f_res s') (f_blk s') (if cs q then infl (f_ob s') q else None) ->
    (forall p, refs q p <-> refs (f_pc s t) p) ->
    (forall u, f_acts s u = true -> f_res s' KTsk u = f_res s KTsk u) ->
    (forall r, q = PUnl (TCur r) \/ q = PRet (TCur r) -> r = thread_of (f_res s' KTsk t)) ->
    finv s'.
  Proof.
    intros I O EP EM ER EL NI EMAP C RF AC CU. apply (finv_cs s s' t q); rewrite ?EMAP; auto.
    - intros p H. apply RF in H. destruct (fi_ref s I t p H) as (A & B). split; [exact A|split; [exact B|]]. intros u N X. apply N. now apply (fi_one s I u t p).
    - intros u p _ H. now apply (fi_ref s I u).
    - intros p H. destruct (fi_st s I p H) as [A|(u & A)]; [now left|right]. destruct (Nat.eq_dec u t) as [->|N]; [right; now apply RF|left; eauto].
    - apply (fi_live s I).
  Qed.
  (** a caller outside of the critical section moves to a point outside of it *)
  Lemma finv_out s t q live' :
    finv s -> cs (f_pc s t) = false -> cs q = false -> (q <> PIdle -> f_acts s t = true) ->
    (forall p, refs q p -> stored (f_map s) p /\ live' p = false /\ forall u, u <> t -> ~ refs (f_pc s u) p) ->
    (forall p, refs (f_pc s t) p -> refs q p \/ live' p = true) ->
    (forall p, f_live s p = true -> live' p = true \/ q = DWait p) ->
    (forall p, live' p = true -> f_live s p = true \/ refs (f_pc s t) p) ->
    (forall p, f_pc s t = DWait p -> f_run s p = false) ->
    (forall r, q <> PRet (TCur r)) ->
    finv (mkF (f_map s) (f_ob s) (f_mtx s) (f_res s) (f_blk s) (f_run s) live' (fupd (f_pc s) t q)).
  Proof.
    intros I O O' AC R1 R2 L1 L2 W CU. constructor; cbn.
    - intros u. rewrite fupd_eq. destruct (Nat.eqb_spec u t) as [->|N]; [|apply (fi_lock s I)]. rewrite <- (fi_lock s I), O, O'. tauto.
    - assert (E : cur (mkF (f_map s) (f_ob s) (f_mtx s) (f_res s) (f_blk s) (f_run s) live' (fupd (f_pc s) t q)) = cur s).
      { unfold cur. cbn. destruct (f_mtx s) as [u|] eqn:M; [|reflexivity]. rewrite fupd_other; [reflexivity|]. intros ->. apply (fi_lock s I) in M. congruence. }
      rewrite E. apply (fi_core s I).
    - intros u p. rewrite fupd_eq. destruct (Nat.eqb_spec u t) as [->|N].
      + intros H. destruct (R1 p H) as (A & B & _). auto.
      + intros H. destruct (fi_ref s I u p H) as (A & B). split; [exact A|]. destruct (live' p) eqn:X; [|reflexivity].
        destruct (L2 p X) as [Y|Y]; [congruence|]. elim N. now apply (fi_one s I u t p).
    - intros u v p. rewrite !fupd_eq. destruct (Nat.eqb_spec u t) as [->|N]; destruct (Nat.eqb_spec v t) as [->|N']; auto.
      + intros A B. destruct (R1 p A) as (_ & _ & X). now elim (X v N').
      + intros A B. destruct (R1 p B) as (_ & _ & X). now elim (X u N).
      + apply (fi_one s I).
    - intros p H. destruct (fi_st s I p H) as [A|(u & A)].
      + destruct (L1 p A) as [B|B]; [now left|right; exists t; rewrite fupd_same, B; reflexivity].
      + destruct (Nat.eq_dec u t) as [->|N].
        * destruct (R2 p A) as [B|B]; [right; exists t; now rewrite fupd_same|now left].
        * right. exists u. now rewrite fupd_other.
    - intros p H. destruct (L2 p H) as [A|A]; [now apply (fi_live s I)|now apply (fi_ref s I t)].
    - intros p H. destruct (fi_run s I p H) as [A|(u & A)].
      + destruct (L1 p A) as [B|B]; [now left|right; exists t; now rewrite fupd_same].
      + destruct (Nat.eq_dec u t) as [->|N]; [rewrite (W p A) in H; discriminate|]. right. exists u. now rewrite fupd_other.
    - intros u H. destruct (Nat.eq_dec u t) as [UT|N]; [subst u; rewrite fupd_same in H; exact (AC H)|rewrite fupd_other in H by exact N; exact (fi_act s I u H)].
    - intros u r. rewrite fupd_eq. destruct (Nat.eqb_spec u t) as [->|N]; [|apply (fi_cur s I)]. intros [H|H]; [rewrite H in O'; discriminate|now elim (CU r)].
  Qed.
  Lemma acts_not_cur s t p g : finv s -> cur s = Some (p, g) -> f_acts s t = true -> f_res s KTsk t <> Some (Own p).
  Proof.
    intros I C A R. destruct (act_stored s t p I A R) as (_ & S & _). destruct (co_sep _ _ _ _ _ (fi_core s I) _ _ C). contradiction.
  Qed.
  Lemma acts_exists s t : f_acts s t = true -> f_res s KTsk t <> None.
  Proof. unfold f_acts. destruct (f_res s KTsk t); congruence. Qed.
  Lemma del_tsk_acts s p g i : finv s -> cur s = Some (p, g) -> g KTsk = Some i ->
    forall u, f_acts s u = true -> kupd (f_res s) KTsk i None KTsk u = f_res s KTsk u.
  Proof.
    intros I C G u A. apply kupd_other. right. intros ->. apply (acts_not_cur s i p g I C A). apply (co_res _ _ _ _ _ (fi_core s I)). right. eauto.
  Qed.
  Lemma new_tsk_acts s i x : f_res s KTsk i = None -> forall u, f_acts s u = true -> kupd (f_res s) KTsk i x KTsk u = f_res s KTsk u.
  Proof. intros R u A. apply kupd_other. right. intros ->. now apply (acts_exists s i A). Qed.

  Lemma finv_step s l s' e : finv s -> f_step max s l = Some (s', e) -> finv s'.
  Proof.
    intros I E. pose proof (fi_core s I) as C. destruct l as [t c|t|t p|t i|i|i|p|p]; cbn beta iota delta [f_step] in E.
    - destruct (f_pc s t) eqn:ET; try discriminate. destruct (f_acts s t) eqn:AC; [|discriminate].
      assert (O : cs (f_pc s t) = false) by now rewrite ET.
      destruct c as [|p|].
      + injection E as <- <-. apply finv_out; auto; try tauto; rewrite ?ET; cbn; try tauto; try congruence.
      + destruct (f_live s p) eqn:L; [|discriminate]. destruct (o_tsk (f_ob s p) =? t); [discriminate|]. cbn in E. injection E as <- <-.
        apply finv_out; auto; rewrite ?ET; cbn; try tauto; try congruence.
        * intros q <-. split; [now apply (fi_live s I)|]. split; [apply fupd_same|]. intros u _ H. apply (fi_ref s I) in H. destruct H. congruence.
        * intros q H. rewrite fupd_eq. destruct (Nat.eqb_spec q p) as [->|]; auto.
        * intros q. rewrite fupd_eq. destruct (Nat.eqb_spec q p) as [->|]; [discriminate|auto].
      + injection E as <- <-. apply finv_out; auto; try tauto; rewrite ?ET; cbn; try tauto; try congruence.
    - destruct (f_pc s t) as [|c| | |p|p i|p i j|p i j|p i|p|p|p|p|p|p|p|p| |r|r] eqn:ET; try discriminate.
      + (* lock *)
        destruct (f_mtx s) eqn:M; [discriminate|]. injection E as <- <-.
        assert (N0 : forall u, cs (f_pc s u) = false). { intros u. destruct (cs (f_pc s u)) eqn:X; [|reflexivity]. apply (fi_lock s I) in X. congruence. }
        set (q := match c with TCreate => CCheck | TDestroy p => DErase p | TCurrent => GScan end).
        assert (Q : cs q = true /\ infl (f_ob s) q = None /\ (forall p, refs q p <-> refs (f_pc s t) p) /\ q <> PIdle /\ forall r, q <> PUnl (TCur r) /\ q <> PRet (TCur r)).
        { subst q. rewrite ET. destruct c; cbn; repeat split; auto; try congruence; try tauto. }
        destruct Q as (Q1 & Q2 & Q3 & Q4 & Q5). clearbody q. constructor; cbn.
        * intros u. rewrite fupd_eq. destruct (Nat.eqb_spec u t) as [->|N]; [rewrite Q1; tauto|]. rewrite N0. split; congruence.
        * unfold cur in *. rewrite M in C. cbn. rewrite fupd_same, Q2. exact C.
        * intros u p. rewrite fupd_eq. destruct (Nat.eqb_spec u t) as [->|N]; [rewrite Q3|]; apply (fi_ref s I).
        * intros u v p. rewrite !fupd_eq. destruct (Nat.eqb_spec u t) as [->|N]; destruct (Nat.eqb_spec v t) as [->|N']; rewrite ?Q3; apply (fi_one s I).
        * intros p H. destruct (fi_st s I p H) as [A|(u & A)]; [now left|right]. exists u. rewrite fupd_eq. destruct (Nat.eqb_spec u t) as [->|N]; [now apply Q3|exact A].
        * apply (fi_live s I).
        * intros p H. destruct (fi_run s I p H) as [A|(u & A)]; [now left|right]. exists u. rewrite fupd_other; [exact A|]. intros ->. congruence.
        * intros u H. unfold f_acts. cbn. apply (fi_act s I). destruct (Nat.eq_dec u t) as [UT|N]; [rewrite UT, ET; discriminate|now rewrite fupd_other in H by exact N].
        * intros u r. rewrite fupd_eq. destruct (Nat.eqb_spec u t) as [->|N]; [|apply (fi_cur s I)]. intros [H|H]; now destruct (Q5 r).
      + (* check *)
        assert (O : cs (f_pc s t) = true) by now rewrite ET. rewrite (cur_cs s t I O), ET in C. cbn in C.
        destruct (max <=? length (f_map s)); injection E as <- <-; (eapply (finv_cs_same s _ t _ I O); [reflexivity|reflexivity|reflexivity|reflexivity|discriminate|reflexivity|exact C| |reflexivity|]);
          rewrite ?ET; cbn; try tauto; intros r [H|H]; discriminate.
      + (* no block *)
        assert (O : cs (f_pc s t) = true) by now rewrite ET. rewrite (cur_cs s t I O), ET in C. cbn in C.
        destruct (free_block max s); [discriminate|]. injection E as <- <-.
        (eapply (finv_cs_same s _ t _ I O); [reflexivity|reflexivity|reflexivity|reflexivity|discriminate|reflexivity|exact C| |reflexivity|]);
          rewrite ?ET; cbn; try tauto; intros r [H|H]; discriminate.
      + (* CDelF *)
        assert (O : cs (f_pc s t) = true) by now rewrite ET. pose proof (cur_cs s t I O) as CC. rewrite CC, ET in C. rewrite ET in CC. cbn in C, CC. injection E as <- <-.
        (eapply (finv_cs_same s _ t _ I O); [reflexivity|reflexivity|reflexivity|reflexivity|discriminate|reflexivity| | | |]); rewrite ?ET; cbn; try tauto.
        * refine (core_ext _ _ _ _ _ _ _ _ (core_del _ _ _ _ _ _ KFlg j C eq_refl)). intros k; destruct k; reflexivity.
        * intros r [H|H]; discriminate.
      + (* CDelT *)
        assert (O : cs (f_pc s t) = true) by now rewrite ET. pose proof (cur_cs s t I O) as CC. rewrite CC, ET in C. rewrite ET in CC. cbn in C, CC. injection E as <- <-.
        (eapply (finv_cs_same s _ t _ I O); [reflexivity|reflexivity|reflexivity|reflexivity|discriminate|reflexivity| | | |]); rewrite ?ET; cbn [cs refs infl f_res f_ob f_blk f_res_go]; try tauto.
        * refine (core_ext _ _ _ _ _ _ _ _ (core_del _ _ _ _ _ _ KTsk i C eq_refl)). intros k; destruct k; reflexivity.
        * exact (del_tsk_acts s _ _ _ I CC eq_refl).
        * intros r [H|H]; discriminate.
      + (* CRel *)
        assert (O : cs (f_pc s t) = true) by now rewrite ET. rewrite (cur_cs s t I O), ET in C. cbn in C. injection E as <- <-.
        (eapply (finv_cs_same s _ t _ I O); [reflexivity|reflexivity|reflexivity|reflexivity|discriminate|reflexivity| | |reflexivity|]); rewrite ?ET; cbn; try tauto.
        * exact (core_rel _ _ _ _ _ _ C (fun _ => eq_refl)).
        * intros r [H|H]; discriminate.
      + (* CPush *)
        assert (O : cs (f_pc s t) = true) by now rewrite ET. pose proof (cur_cs s t I O) as CC. rewrite CC, ET in C. rewrite ET in CC. cbn in C, CC. injection E as <- <-.
        destruct (co_sep _ _ _ _ _ C _ _ eq_refl) as (NS & _).
        assert (ST : forall q, stored (f_map s ++ [(o_tsk (f_ob s p), p)]) q <-> stored (f_map s) q \/ q = p).
        { intros q. unfold stored. rewrite map_app, in_app_iff. cbn. split; (intros [X|X]; [now left|]); [destruct X as [X|[]]; auto|subst; auto]. }
        (eapply (finv_cs s _ t _ I O); [reflexivity|reflexivity|reflexivity|reflexivity|discriminate| | | | | |reflexivity|]); rewrite ?ET; cbn [cs refs infl f_map f_res f_ob f_blk].
        * exact (core_push _ _ _ _ _ _ C (fun _ => eq_refl)).
        * intros q <-. rewrite ST. split; [now right|]. split; [|intros u _ H; apply NS; now apply (fi_ref s I u)].
          destruct (f_live s p) eqn:L; [|reflexivity]. elim NS. now apply (fi_live s I).
        * intros u q _ H. apply ST. left. now apply (fi_ref s I u).
        * intros q H. apply ST in H. destruct H as [H| ->]; [|auto]. destruct (fi_st s I q H) as [A|(u & A)]; [now left|]. right. left. exists u. split; [|exact A].
          intros ->. rewrite ET in A. destruct A.
        * intros q H. apply ST. left. now apply (fi_live s I).
        * intros r [H|H]; discriminate.
      + (* DWait *)
        destruct (f_run s p) eqn:RU; [discriminate|]. injection E as <- <-. assert (O : cs (f_pc s t) = false) by now rewrite ET.
        assert (RF : refs (f_pc s t) p) by (rewrite ET; reflexivity). destruct (fi_ref s I t p RF) as (S & L).
        apply finv_out; auto; rewrite ?ET; cbn; auto; try congruence.
        * intros _. apply (fi_act s I). rewrite ET. discriminate.
        * intros q <-. split; [exact S|]. split; [exact L|]. intros u N H. apply N. now apply (fi_one s I u t p).
      + (* DErase *)
        assert (O : cs (f_pc s t) = true) by now rewrite ET. pose proof (cur_cs s t I O) as CC. rewrite CC, ET in C. rewrite ET in CC. cbn in C, CC. injection E as <- <-.
        assert (RF : refs (f_pc s t) p) by (rewrite ET; reflexivity). destruct (fi_ref s I t p RF) as (S & L).
        pose proof (core_erase _ _ _ _ _ C S) as C'.
        assert (ST : forall q, stored (f_erase (o_tsk (f_ob s p)) (f_map s)) q <-> stored (f_map s) q /\ q <> p).
        { intros q. split.
          - intros H. split; [exact (erase_incl snd _ _ _ H)|]. intros ->. now destruct (co_sep _ _ _ _ _ C' _ _ eq_refl).
          - intros (H & N). assert (X : f_blk s q = true) by (apply (co_blk _ _ _ _ _ C); now left). apply (co_blk _ _ _ _ _ C') in X. destruct X as [X|(g & X)]; [exact X|congruence]. }
        (eapply (finv_cs s _ t _ I O); [reflexivity|reflexivity|reflexivity|reflexivity|discriminate| | | | | |reflexivity|]); rewrite ?ET; cbn [cs refs infl f_map f_res f_ob f_blk].
        * exact C'.
        * tauto.
        * intros u q N H. apply ST. split; [now apply (fi_ref s I u)|]. intros ->. apply N. now apply (fi_one s I u t p).
        * intros q H. apply ST in H. destruct H as (H & N). destruct (fi_st s I q H) as [A|(u & A)]; [now left|]. right. left. exists u. split; [|exact A].
          intros ->. rewrite ET in A. cbn in A. congruence.
        * intros q H. apply ST. split; [now apply (fi_live s I)|congruence].
        * intros r [H|H]; discriminate.
      + (* DTsk *)
        assert (O : cs (f_pc s t) = true) by now rewrite ET. pose proof (cur_cs s t I O) as CC. rewrite CC, ET in C. rewrite ET in CC. cbn in C, CC. injection E as <- <-.
        (eapply (finv_cs_same s _ t _ I O); [reflexivity|reflexivity|reflexivity|reflexivity|discriminate|reflexivity| | | |]); rewrite ?ET; cbn [cs refs infl f_res f_ob f_blk f_res_go]; try tauto.
        * refine (core_ext _ _ _ _ _ _ _ _ (core_del _ _ _ _ _ _ KTsk _ C eq_refl)). intros k; destruct k; reflexivity.
        * exact (del_tsk_acts s _ _ _ I CC eq_refl).
        * intros r [H|H]; discriminate.
      + (* DFlg *)
        assert (O : cs (f_pc s t) = true) by now rewrite ET. pose proof (cur_cs s t I O) as CC. rewrite CC, ET in C. rewrite ET in CC. cbn in C, CC. injection E as <- <-.
        (eapply (finv_cs_same s _ t _ I O); [reflexivity|reflexivity|reflexivity|reflexivity|discriminate|reflexivity| | |reflexivity|]); rewrite ?ET; cbn [cs refs infl f_res f_ob f_blk f_res_go]; try tauto.
        * refine (core_ext _ _ _ _ _ _ _ _ (core_del _ _ _ _ _ _ KFlg _ C eq_refl)). intros k; destruct k; reflexivity.
        * intros r [H|H]; discriminate.
      + (* DMtx *)
        assert (O : cs (f_pc s t) = true) by now rewrite ET. pose proof (cur_cs s t I O) as CC. rewrite CC, ET in C. rewrite ET in CC. cbn in C, CC. injection E as <- <-.
        (eapply (finv_cs_same s _ t _ I O); [reflexivity|reflexivity|reflexivity|reflexivity|discriminate|reflexivity| | |reflexivity|]); rewrite ?ET; cbn [cs refs infl f_res f_ob f_blk f_res_go]; try tauto.
        * refine (core_ext _ _ _ _ _ _ _ _ (core_del _ _ _ _ _ _ KMtx _ C eq_refl)). intros k; destruct k; reflexivity.
        * intros r [H|H]; discriminate.
      + (* DRel *)
        assert (O : cs (f_pc s t) = true) by now rewrite ET. rewrite (cur_cs s t I O), ET in C. cbn in C. injection E as <- <-.
        (eapply (finv_cs_same s _ t _ I O); [reflexivity|reflexivity|reflexivity|reflexivity|discriminate|reflexivity| | |reflexivity|]); rewrite ?ET; cbn; try tauto.
        * exact (core_rel _ _ _ _ _ _ C (fun _ => eq_refl)).
        * intros r [H|H]; discriminate.
      + (* GScan *)
        assert (O : cs (f_pc s t) = true) by now rewrite ET. rewrite (cur_cs s t I O), ET in C. cbn in C. injection E as <- <-.
        (eapply (finv_cs_same s _ t _ I O); [reflexivity|reflexivity|reflexivity|reflexivity|discriminate|reflexivity|exact C| |reflexivity|]); rewrite ?ET; cbn; try tauto.
        intros r [H|H]; [|discriminate]. injection H as <-. apply find_right; [exact I|]. apply (fi_act s I). rewrite ET. discriminate.
      + (* unlock *)
        assert (O : cs (f_pc s t) = true) by now rewrite ET. rewrite (cur_cs s t I O), ET in C. cbn in C. injection E as <- <-.
        (eapply (finv_cs_same s _ t _ I O); [reflexivity|reflexivity|reflexivity|reflexivity|discriminate|reflexivity|exact C| |reflexivity|]); rewrite ?ET; cbn; try tauto.
        intros r' [H|H]; [discriminate|]. injection H as ->. apply (fi_cur s I). rewrite ET. now left.
      + (* return *)
        injection E as <- <-. assert (O : cs (f_pc s t) = false) by now rewrite ET.
        destruct r as [p|w| |r]; apply finv_out; auto; rewrite ?ET; cbn; try tauto; try congruence.
        * intros q <-. right. apply fupd_same.
        * intros q H. left. rewrite fupd_eq. destruct (Nat.eqb q p); auto.
        * intros q. rewrite fupd_eq. destruct (Nat.eqb_spec q p) as [->|]; auto.
    - destruct (f_pc s t) as [|c| | |p'|p' i|p' i j|p' i j|p' i|p'|p'|p'|p'|p'|p'|p'|p'| |r|r] eqn:ET; try discriminate.
      destruct (Nat.ltb_spec p max) as [L|L]; [|discriminate]. destruct (f_blk s p) eqn:B; [discriminate|]. cbn in E. injection E as <- <-.
      assert (O : cs (f_pc s t) = true) by now rewrite ET. rewrite (cur_cs s t I O), ET in C. cbn in C.
      (eapply (finv_cs_same s _ t _ I O); [reflexivity|reflexivity|reflexivity|reflexivity|discriminate|reflexivity| | |reflexivity|]); rewrite ?ET; cbn; try tauto.
      + now apply core_get.
      + intros r [H|H]; discriminate.
    - destruct (f_pc s t) as [|c| | |p|p j|p j j'|p j j'|p j|p|p|p|p|p|p|p|p| |r|r] eqn:ET; try discriminate;
        (assert (O : cs (f_pc s t) = true) by now rewrite ET); pose proof (cur_cs s t I O) as CC; rewrite CC, ET in C; rewrite ET in CC; cbn in C, CC;
        (destruct (Nat.eqb_spec i 0) as [Z|NZ];
          [injection E as <- <-; (eapply (finv_cs_same s _ t _ I O); [reflexivity|reflexivity|reflexivity|reflexivity|discriminate|reflexivity|exact C| |reflexivity|]); rewrite ?ET; cbn; try tauto; intros r [H|H]; discriminate|]).
      + destruct (f_res s KTsk i) eqn:F; [discriminate|]. injection E as <- <-.
        (eapply (finv_cs_same s _ t _ I O); [reflexivity|reflexivity|reflexivity|reflexivity|discriminate|reflexivity| | | |]); rewrite ?ET; cbn [cs refs infl f_res f_ob f_blk f_res_go]; try tauto.
        * refine (core_ext _ _ _ _ _ _ _ _ (core_new _ _ _ _ _ _ KTsk i C F eq_refl)). intros k; destruct k; reflexivity.
        * now apply new_tsk_acts.
        * intros r [H|H]; discriminate.
      + destruct (f_res s KFlg i) eqn:F; [discriminate|]. injection E as <- <-.
        (eapply (finv_cs_same s _ t _ I O); [reflexivity|reflexivity|reflexivity|reflexivity|discriminate|reflexivity| | |reflexivity|]); rewrite ?ET; cbn [cs refs infl f_res f_ob f_blk f_res_go]; try tauto.
        * refine (core_ext _ _ _ _ _ _ _ _ (core_new _ _ _ _ _ _ KFlg i C F eq_refl)). intros k; destruct k; reflexivity.
        * intros r [H|H]; discriminate.
      + destruct (f_res s KMtx i) eqn:F; [discriminate|]. injection E as <- <-.
        (eapply (finv_cs_same s _ t _ I O); [reflexivity|reflexivity|reflexivity|reflexivity|discriminate|reflexivity| | |reflexivity|]); rewrite ?ET; cbn [cs refs infl f_res f_ob f_blk f_res_go]; try tauto.
        * refine (core_ext _ _ _ _ _ _ _ _ (core_ob _ _ _ _ _ _ _ (core_new _ _ _ _ _ _ KMtx i C F eq_refl))). intros k; rewrite fupd_same; destruct k; reflexivity.
        * intros r [H|H]; discriminate.
    - destruct (f_res s KTsk i) eqn:F; [discriminate|]. injection E as <- <-. pose proof I as [A1 A2 A3 A4 A5 A6 A7 A8 A9]. constructor; cbn [f_map f_ob f_res f_blk f_mtx f_run f_live f_pc]; auto.
      + apply core_foreign; [exact C|congruence|discriminate].
      + intros t H. specialize (A8 t H). pose proof (new_tsk_acts s i (Some Foreign) F t A8) as X. unfold f_acts in *. cbn [f_res]. rewrite X. exact A8.
      + intros t r H. rewrite (new_tsk_acts s i (Some Foreign) F); [now apply A9|]. apply A8. destruct H as [H|H]; rewrite H; discriminate.
    - destruct (f_res s KTsk i) as [[|p]|] eqn:F; try discriminate. destruct (f_pc s i) eqn:EI; try discriminate. injection E as <- <-.
      pose proof I as [A1 A2 A3 A4 A5 A6 A7 A8 A9]. constructor; cbn [f_map f_ob f_res f_blk f_mtx f_run f_live f_pc]; auto.
      + apply core_foreign; [exact C|congruence|discriminate].
      + intros t H. assert (t <> i) by congruence. specialize (A8 t H). unfold f_acts in *. cbn [f_res]. rewrite kupd_other by now right. exact A8.
      + intros t r H. assert (t <> i) by (intros ->; destruct H; congruence). rewrite kupd_other by now right. now apply A9.
    - destruct (f_live s p) eqn:L; [|discriminate]. injection E as <- <-. pose proof I as [A1 A2 A3 A4 A5 A6 A7 A8 A9]. constructor; cbn; auto.
      + intros q. rewrite fupd_eq. destruct (Nat.eqb_spec q p) as [->|]; auto.
      + intros t H. specialize (A8 t H). unfold f_acts in *. cbn. destruct (f_res s KTsk t) as [[|q]|]; auto. rewrite fupd_eq. now destruct (Nat.eqb q p).
    - destruct (f_pc s (o_tsk (f_ob s p))) eqn:EP; try discriminate. destruct (f_run s p) eqn:RU; [|discriminate]. injection E as <- <-.
      pose proof I as [A1 A2 A3 A4 A5 A6 A7 A8 A9]. constructor; cbn; auto.
      + intros q. rewrite fupd_eq. destruct (Nat.eqb_spec q p) as [->|]; [discriminate|auto].
      + intros t H. specialize (A8 t H). pose proof A8 as X. unfold f_acts. cbn. unfold f_acts in X. destruct (f_res s KTsk t) as [[|q]|] eqn:RT; auto. rewrite fupd_eq.
        destruct (Nat.eqb_spec q p) as [->|]; [|exact X]. destruct (act_stored s t p I A8 RT) as (_ & _ & Y). congruence.
  Qed.

  (** * the history *)
  Definition live_ok (s : fst_) (es : fout) : Prop := forall p, f_live s p = true <-> in_use p es.
  Lemma in_use_snoc p es e : in_use p (es ++ [e]) <-> (exists t, e = Ret t (TThread p)) \/ (in_use p es /\ forall u, e <> Call u (TDestroy p)).
  Proof.
    split.
    - intros (e1 & e2 & t & E & H). destruct (exists_last (l := Ret t (TThread p) :: e2)) as (a & b & A); [discriminate|].
      rewrite A, app_assoc in E. apply app_inj_tail in E. destruct E as (E & <-). destruct a as [|x a].
      + injection A as <- ->. left. eauto.
      + injection A as <- ->. right. split.
        * exists e1, a, t. split; [exact E|]. intros u X. apply (H u). apply in_app_iff. now left.
        * intros u ->. apply (H u). apply in_app_iff. right. now left.
    - intros [(t & ->)|((e1 & e2 & t & -> & H) & N)].
      + exists es, [], t. split; [reflexivity|tauto].
      + exists e1, (e2 ++ [e]), t. split; [now rewrite <- app_assoc|]. intros u X. apply in_app_iff in X. destruct X as [X|[X|[]]]; [now apply (H u)|now apply (N u)].
  Qed.
  Lemma live_nil s s' es : live_ok s es -> f_live s' = f_live s -> live_ok s' (es ++ []).
  Proof. intros H E p. now rewrite E, app_nil_r. Qed.
  Lemma live_step s l s' e es : live_ok s es -> f_step max s l = Some (s', e) -> live_ok s' (es ++ e).
  Proof.
    intros L E.
    assert (CL : forall t c s1, f_live s1 = f_live s -> (forall p, c <> TDestroy p) -> live_ok s1 (es ++ [Call t c])).
    { intros t c s1 E1 N p. rewrite E1, in_use_snoc, (L p). split; [intros H; right; split; [exact H|]; intros u [= -> ->]; now elim (N p)|]. intros [(u & X)|(X & _)]; [discriminate|exact X]. }
    assert (RT : forall t r s1, f_live s1 = f_live s -> (forall p, r <> TThread p) -> live_ok s1 (es ++ [Ret t r])).
    { intros t r s1 E1 N p. rewrite E1, in_use_snoc, (L p). split; [intros H; right; split; [exact H|discriminate]|]. intros [(u & X)|(X & _)]; [injection X as -> ->; now elim (N p)|exact X]. }
    destruct l as [t c|t|t p|t i|i|i|p|p]; cbn beta iota delta [f_step] in E.
    - destruct (f_pc s t); try discriminate. destruct (f_acts s t); [|discriminate]. destruct c as [|p|].
      + injection E as <- <-. now apply CL.
      + destruct (f_live s p) eqn:LP; [|discriminate]. destruct (o_tsk (f_ob s p) =? t); [discriminate|]. cbn in E. injection E as <- <-.
        intros q. cbn. rewrite fupd_eq, in_use_snoc. destruct (Nat.eqb_spec q p) as [->|N].
        * split; [discriminate|]. intros [(u & X)|(_ & X)]; [discriminate|now elim (X t)].
        * rewrite (L q). split; [intros H; right; split; [exact H|congruence]|]. intros [(u & X)|(X & _)]; [discriminate|exact X].
      + injection E as <- <-. now apply CL.
    - destruct (f_pc s t) as [|c| | |p|p i|p i j|p i j|p i|p|p|p|p|p|p|p|p| |r|r]; try discriminate;
        try (injection E as <- <-; apply (live_nil s); [exact L|reflexivity]; fail).
      + destruct (f_mtx s); [discriminate|]. injection E as <- <-. apply (live_nil s); [exact L|reflexivity].
      + destruct (max <=? length (f_map s)); injection E as <- <-; (apply (live_nil s); [exact L|reflexivity]).
      + destruct (free_block max s); [discriminate|]; injection E as <- <-; (apply (live_nil s); [exact L|reflexivity]).
      + destruct (f_run s p); [discriminate|]; injection E as <- <-; (apply (live_nil s); [exact L|reflexivity]).
      + injection E as <- <-. destruct r as [p|w| |r]; try (apply RT; [reflexivity|discriminate]).
        intros q. cbn. rewrite fupd_eq, in_use_snoc. destruct (Nat.eqb_spec q p) as [->|N].
        * split; [intros _; left; eauto|reflexivity].
        * rewrite (L q). split; [intros H; right; split; [exact H|discriminate]|]. intros [(u & X)|(X & _)]; [congruence|exact X].
    - destruct (f_pc s t); try discriminate. destruct (_ && _); [|discriminate]. injection E as <- <-. apply (live_nil s); [exact L|reflexivity].
    - destruct (f_pc s t) as [|c| | |p|p j|p j j'|p j j'|p j|p|p|p|p|p|p|p|p| |r|r]; try discriminate;
        (destruct (i =? 0); [injection E as <- <-; apply (live_nil s); [exact L|reflexivity]|]);
        match type of E with match ?x with _ => _ end = _ => destruct x; [discriminate|] end; injection E as <- <-; (apply (live_nil s); [exact L|reflexivity]).
    - destruct (f_res s KTsk i); [discriminate|]. injection E as <- <-. apply (live_nil s); [exact L|reflexivity].
    - destruct (f_res s KTsk i) as [[|?]|]; try discriminate. destruct (f_pc s i); try discriminate. injection E as <- <-. apply (live_nil s); [exact L|reflexivity].
    - destruct (f_live s p); [|discriminate]. injection E as <- <-. apply (live_nil s); [exact L|reflexivity].
    - destruct (f_pc s _); try discriminate. destruct (f_run s p); [|discriminate]. injection E as <- <-. apply (live_nil s); [exact L|reflexivity].
  Qed.
  Lemma f_reach app ls s es : exec (f_step max) (f_init app) ls = Some (s, es) -> finv s /\ live_ok s es.
  Proof.
    intros E. refine (exec_inv _ _ _ (f_step max) (fun s es => finv s /\ live_ok s es) _ ls (f_init app) [] s es (conj (finv_init app) _) E).
    - intros s0 es0 l s1 es1 (A & B) E1. split; [exact (finv_step _ _ _ _ A E1)|exact (live_step _ _ _ _ _ B E1)].
    - intros p. split; [discriminate|]. intros (e1 & e2 & t & X & _). destruct e1; discriminate.
  Qed.
  (** the only step that returns *)
  Lemma ret_step s l s' e t r : f_step max s l = Some (s', e) -> In (Ret t r) e -> l = XStep t /\ f_pc s t = PRet r.
  Proof.
    intros E H. destruct l as [u c|u|u p|u i|i|i|p|p]; cbn beta iota delta [f_step] in E.
    - destruct (f_pc s u); try discriminate. destruct (f_acts s u); [|discriminate]. destruct c as [|p|]; [| destruct (_ && _); [|discriminate]|]; injection E as <- <-; destruct H as [H|[]]; discriminate.
    - destruct (f_pc s u) as [|c| | |p|p i|p i j|p i j|p i|p|p|p|p|p|p|p|p| |r'|r'] eqn:EP; try discriminate;
        try (injection E as <- <-; destruct H; fail).
      + destruct (f_mtx s); [discriminate|]. injection E as <- <-; destruct H.
      + destruct (max <=? length (f_map s)); injection E as <- <-; destruct H.
      + destruct (free_block max s); [discriminate|]; injection E as <- <-; destruct H.
      + destruct (f_run s p); [discriminate|]; injection E as <- <-; destruct H.
      + injection E as <- <-. destruct H as [H|[]]. injection H as <- <-. auto.
    - destruct (f_pc s u); try discriminate. destruct (_ && _); [|discriminate]. injection E as <- <-; destruct H.
    - destruct (f_pc s u) as [|c| | |p|p j|p j j'|p j j'|p j|p|p|p|p|p|p|p|p| |r'|r']; try discriminate;
        (destruct (i =? 0); [injection E as <- <-; destruct H|]);
        match type of E with match ?x with _ => _ end = _ => destruct x; [discriminate|] end; injection E as <- <-; destruct H.
    - destruct (f_res s KTsk i); [discriminate|]. injection E as <- <-; destruct H.
    - destruct (f_res s KTsk i) as [[|?]|]; try discriminate. destruct (f_pc s i); try discriminate. injection E as <- <-; destruct H.
    - destruct (f_live s p); [|discriminate]. injection E as <- <-; destruct H.
    - destruct (f_pc s _); try discriminate. destruct (f_run s p); [|discriminate]. injection E as <- <-; destruct H.
  Qed.

  (** * theorems *)
  Theorem f_current app ls s es l s' e t r : exec (f_step max) (f_init app) ls = Some (s, es) -> f_step max s l = Some (s', e) -> In (Ret t (TCur r)) e ->
    r = thread_of (f_res s KTsk t) /\ forall p, r = Some p -> f_run s p = true /\ f_blk s p = true.
  Proof.
    intros E E1 H. destruct (f_reach _ _ _ _ E) as (I & _). destruct (ret_step _ _ _ _ _ _ E1 H) as (_ & P).
    assert (R : r = thread_of (f_res s KTsk t)) by (apply (fi_cur s I); now right). split; [exact R|].
    intros p X. rewrite X in R. destruct (f_res s KTsk t) as [[|q]|] eqn:F; cbn in R; try discriminate. injection R as <-.
    assert (A : f_acts s t = true) by (apply (fi_act s I); rewrite P; discriminate). destruct (act_stored s t p I A F) as (B & S & _). split; [exact B|].
    apply (co_blk _ _ _ _ _ (fi_core s I)). now left.
  Qed.
  Lemma in_use_stored app ls s es p : exec (f_step max) (f_init app) ls = Some (s, es) -> in_use p es -> finv s /\ stored (f_map s) p.
  Proof. intros E U. destruct (f_reach _ _ _ _ E) as (I & L). split; [exact I|]. apply (fi_live s I). now apply L. Qed.
  Theorem f_in_use_owns app ls s es p k : exec (f_step max) (f_init app) ls = Some (s, es) -> in_use p es ->
    p < max /\ f_blk s p = true /\ exists i, f_res s k i = Some (Own p) /\ forall j, f_res s k j = Some (Own p) -> j = i.
  Proof.
    intros E U. destruct (in_use_stored _ _ _ _ _ E U) as (I & S). pose proof (fi_core s I) as C. split; [|split].
    - apply (stored_in _ _ _ _ _ _ C) in S. now apply (co_map _ _ _ _ _ C) in S.
    - apply (co_blk _ _ _ _ _ C). now left.
    - exists (o_get (f_ob s p) k). split; [apply (co_res _ _ _ _ _ C); now left|]. intros j H. apply (co_res _ _ _ _ _ C) in H.
      destruct H as [(_ & H)|(g & H & _)]; [now rewrite H|]. destruct (co_sep _ _ _ _ _ C _ _ H). contradiction.
  Qed.
  Lemma idle_no_cur s : finv s -> (forall t, f_idle s t) -> cur s = None.
  Proof. intros I D. unfold cur. destruct (f_mtx s) as [t|]; [|reflexivity]. now rewrite (D t). Qed.
  Lemma idle_in_use s es p : finv s -> live_ok s es -> (forall t, f_idle s t) -> stored (f_map s) p -> in_use p es.
  Proof. intros I L D S. apply L. destruct (fi_st s I p S) as [A|(t & A)]; [exact A|]. rewrite (D t) in A. destruct A. Qed.
  Theorem f_no_leak app ls s es : exec (f_step max) (f_init app) ls = Some (s, es) -> (forall t, f_idle s t) ->
    (forall k i p, f_res s k i = Some (Own p) -> in_use p es) /\ (forall p, f_blk s p = true -> in_use p es).
  Proof.
    intros E D. destruct (f_reach _ _ _ _ E) as (I & L). pose proof (fi_core s I) as C. rewrite (idle_no_cur s I D) in C. split.
    - intros k i p H. apply (co_res _ _ _ _ _ C) in H. destruct H as [(S & _)|(g & H & _)]; [|discriminate]. exact (idle_in_use s es p I L D S).
    - intros p H. apply (co_blk _ _ _ _ _ C) in H. destruct H as [S|(g & H)]; [|discriminate]. exact (idle_in_use s es p I L D S).
  Qed.
  Theorem f_distinct app ls s es l s' e t p : exec (f_step max) (f_init app) ls = Some (s, es) -> f_step max s l = Some (s', e) -> In (Ret t (TThread p)) e -> ~ in_use p es.
  Proof.
    intros E E1 H U. destruct (f_reach _ _ _ _ E) as (I & L). destruct (ret_step _ _ _ _ _ _ E1 H) as (_ & P).
    apply L in U. assert (R : refs (f_pc s t) p) by (rewrite P; reflexivity). destruct (fi_ref s I t p R). congruence.
  Qed.
  Lemma nodup_seq_len (l : list nat) : NoDup l -> (forall p, p < max -> In p l) -> max <= length l.
  Proof. intros N H. pose proof (NoDup_incl_length (l := seq 0 max) (l' := l) (seq_NoDup max 0)) as X. rewrite seq_length in X. apply X. intros p P. apply in_seq in P. apply H. lia. Qed.
  (** when the table is not full, the pool has a block *)
  Definition room_ok (s : fst_) : Prop := forall t, (f_pc s t = CGet -> length (f_map s) < max) /\ f_pc s t <> PUnl (TNull NoBlock) /\ f_pc s t <> PRet (TNull NoBlock).
  Lemma room_step s l s' e : finv s -> room_ok s -> f_step max s l = Some (s', e) -> room_ok s'.
  Proof.
    intros I R E u.
    assert (KEEP : forall s1, f_map s1 = f_map s -> f_pc s1 u = f_pc s u ->
              (f_pc s1 u = CGet -> length (f_map s1) < max) /\ f_pc s1 u <> PUnl (TNull NoBlock) /\ f_pc s1 u <> PRet (TNull NoBlock)).
    { intros s1 A B. rewrite A, B. apply R. }
    assert (MOVE : forall s1 t q, f_map s1 = f_map s -> f_pc s1 = fupd (f_pc s) t q -> q <> CGet -> q <> PUnl (TNull NoBlock) -> q <> PRet (TNull NoBlock) ->
              (f_pc s1 u = CGet -> length (f_map s1) < max) /\ f_pc s1 u <> PUnl (TNull NoBlock) /\ f_pc s1 u <> PRet (TNull NoBlock)).
    { intros s1 t q A B N1 N2 N3. destruct (Nat.eq_dec u t) as [->|N]; [rewrite B, fupd_same; repeat split; congruence|]. apply KEEP; [exact A|]. now rewrite B, fupd_other. }
    assert (CSU : forall t q s1, cs (f_pc s t) = true -> f_pc s t <> CGet -> f_pc s1 = fupd (f_pc s) t q -> q <> CGet -> q <> PUnl (TNull NoBlock) -> q <> PRet (TNull NoBlock) ->
              (f_pc s1 u = CGet -> length (f_map s1) < max) /\ f_pc s1 u <> PUnl (TNull NoBlock) /\ f_pc s1 u <> PRet (TNull NoBlock)).
    { intros t q s1 O NG B N1 N2 N3. destruct (Nat.eq_dec u t) as [->|N]; [rewrite B, fupd_same; repeat split; congruence|]. rewrite B, fupd_other by exact N.
      split; [|apply R]. intros X. elim N. apply (cs_one s t u I O). now rewrite X. }
    destruct l as [t c|t|t p|t i|i|i|p|p]; cbn beta iota delta [f_step] in E.
    - destruct (f_pc s t); try discriminate. destruct (f_acts s t); [|discriminate]. destruct c as [|p|]; [| destruct (_ && _); [|discriminate]|]; injection E as <- <-;
        (eapply MOVE; [reflexivity|reflexivity|discriminate|discriminate|discriminate]).
    - destruct (f_pc s t) as [|c| | |p|p i|p i j|p i j|p i|p|p|p|p|p|p|p|p| |r|r] eqn:EP; try discriminate;
        try (injection E as <- <-; eapply MOVE; [reflexivity|reflexivity|discriminate|discriminate|discriminate]; fail);
        try (injection E as <- <-; eapply (CSU t); [now rewrite EP|rewrite EP; discriminate|reflexivity|discriminate|discriminate|discriminate]; fail).
      + destruct (f_mtx s); [discriminate|]. injection E as <- <-. eapply MOVE; [reflexivity|reflexivity|destruct c; discriminate..].
      + destruct (Nat.leb_spec max (length (f_map s))); injection E as <- <-; [eapply MOVE; [reflexivity|reflexivity|discriminate|discriminate|discriminate]|].
        cbn. rewrite fupd_eq. destruct (Nat.eqb_spec u t) as [->|N]; [repeat split; congruence|]. apply R.
      + destruct (free_block max s) eqn:FB; [discriminate|]. exfalso. destruct (R t) as (LT & _). specialize (LT EP).
        assert (O : cs (f_pc s t) = true) by now rewrite EP. pose proof (fi_core s I) as C. rewrite (cur_cs s t I O), EP in C. cbn in C.
        assert (X : max <= length (map snd (f_map s))); [|rewrite map_length in X; lia].
        apply nodup_seq_len; [apply (co_nd _ _ _ _ _ C)|]. intros p P. assert (B : f_blk s p = true).
        { destruct (f_blk s p) eqn:B; [reflexivity|]. unfold free_block in FB. assert (existsb (fun p => negb (f_blk s p)) (seq 0 max) = true); [|congruence].
          apply existsb_exists. exists p. split; [apply in_seq; lia|now rewrite B]. }
        apply (co_blk _ _ _ _ _ C) in B. destruct B as [B|(g & B)]; [exact B|discriminate].
      + destruct (f_run s p); [discriminate|]; injection E as <- <-; eapply MOVE; [reflexivity|reflexivity|discriminate|discriminate|discriminate].
      + injection E as <- <-. eapply MOVE; [reflexivity|reflexivity|discriminate|discriminate|]. destruct (R t) as (_ & X & _). congruence.
    - destruct (f_pc s t); try discriminate. destruct (_ && _); [|discriminate]. injection E as <- <-. eapply MOVE; [reflexivity|reflexivity|discriminate|discriminate|discriminate].
    - destruct (f_pc s t) as [|c| | |p|p j|p j j'|p j j'|p j|p|p|p|p|p|p|p|p| |r|r]; try discriminate;
        (destruct (i =? 0); [injection E as <- <-; eapply MOVE; [reflexivity|reflexivity|discriminate|discriminate|discriminate]|]);
        match type of E with match ?x with _ => _ end = _ => destruct x; [discriminate|] end; injection E as <- <-; (eapply MOVE; [reflexivity|reflexivity|discriminate|discriminate|discriminate]).
    - destruct (f_res s KTsk i); [discriminate|]. injection E as <- <-; now apply KEEP.
    - destruct (f_res s KTsk i) as [[|?]|]; try discriminate. destruct (f_pc s i); try discriminate. injection E as <- <-; now apply KEEP.
    - destruct (f_live s p); [|discriminate]. injection E as <- <-; now apply KEEP.
    - destruct (f_pc s _); try discriminate. destruct (f_run s p); [|discriminate]. injection E as <- <-; now apply KEEP.
  Qed.
  Lemma room_reach app ls s es : exec (f_step max) (f_init app) ls = Some (s, es) -> finv s /\ room_ok s.
  Proof.
    intros E. refine (exec_inv_st _ _ _ (f_step max) (fun s => finv s /\ room_ok s) _ ls (f_init app) s es (conj (finv_init app) _) E).
    - intros s0 l s1 es1 (A & B) E1. split; [exact (finv_step _ _ _ _ A E1)|exact (room_step _ _ _ _ A B E1)].
    - intros t. cbn. repeat split; discriminate.
  Qed.
  Theorem f_block_free app ls s es l s' e t : exec (f_step max) (f_init app) ls = Some (s, es) -> f_step max s l = Some (s', e) -> ~ In (Ret t (TNull NoBlock)) e.
  Proof. intros E E1 H. destruct (room_reach _ _ _ _ E) as (_ & R). destruct (ret_step _ _ _ _ _ _ E1 H) as (_ & P). now apply (R t). Qed.
  (** create answers null for lack of room only at a moment when all objects are taken *)
  Theorem f_full app ls s es t s' e : exec (f_step max) (f_init app) ls = Some (s, es) -> f_step max s (XStep t) = Some (s', e) ->
    f_pc s t <> PUnl (TNull Full) -> f_pc s' t = PUnl (TNull Full) -> exists ps, NoDup ps /\ length ps = max /\ forall p, In p ps -> p < max /\ f_blk s p = true.
  Proof.
    intros E E1 N P. destruct (f_reach _ _ _ _ E) as (I & _). cbn beta iota delta [f_step] in E1.
    assert (F : max <= length (f_map s)).
    { destruct (f_pc s t) as [|c| | |p|p i|p i j|p i j|p i|p|p|p|p|p|p|p|p| |r|r] eqn:EP; try discriminate;
        try (injection E1 as <- <-; cbn in P; rewrite fupd_same in P; discriminate).
      - destruct (f_mtx s); [discriminate|]. injection E1 as <- <-. cbn in P. rewrite fupd_same in P. destruct c; discriminate.
      - destruct (Nat.leb_spec max (length (f_map s))) as [L|L]; [exact L|]. injection E1 as <- <-. cbn in P. rewrite fupd_same in P. discriminate.
      - destruct (free_block max s); [discriminate|]. injection E1 as <- <-. cbn in P. rewrite fupd_same in P. discriminate.
      - destruct (f_run s p); [discriminate|]. injection E1 as <- <-. cbn in P. rewrite fupd_same in P. discriminate. }
    pose proof (fi_core s I) as C. exists (map snd (f_map s)). split; [apply (co_nd _ _ _ _ _ C)|]. split.
    - rewrite map_length. apply Nat.le_antisymm; [|exact F]. rewrite <- (map_length snd), <- (seq_length max 0). apply NoDup_incl_length; [apply (co_nd _ _ _ _ _ C)|].
      intros p H. apply in_seq. apply (stored_in _ _ _ _ _ _ C) in H. apply (co_map _ _ _ _ _ C) in H. lia.
    - intros p H. split; [|apply (co_blk _ _ _ _ _ C); now left]. apply (stored_in _ _ _ _ _ _ C) in H. now apply (co_map _ _ _ _ _ C) in H.
  Qed.
  (** ** progress *)
  Theorem f_progress app ls s es : exec (f_step max) (f_init app) ls = Some (s, es) -> f_stuck max s -> forall t, f_idle s t \/ exists p, f_pc s t = DWait p /\ f_run s p = true.
  Proof.
    intros E ST. destruct (f_reach _ _ _ _ E) as (I & _).
    assert (CS : forall t, cs (f_pc s t) = false).
    { intros t. destruct (cs (f_pc s t)) eqn:X; [|reflexivity]. pose proof (ST (XStep t) Logic.I) as A. pose proof (ST (XNew t 0) Logic.I) as B.
      pose proof (fun p => ST (XGet t p) Logic.I) as D.
      cbn beta iota delta [f_step] in A, B, D. destruct (f_pc s t) as [|c| | |p|p i|p i j|p i j|p i|p|p|p|p|p|p|p|p| |r|r] eqn:EP; cbn in X; try discriminate.
      - destruct (max <=? length (f_map s)); discriminate.
      - destruct (free_block max s) eqn:F; [|discriminate]. unfold free_block in F. apply existsb_exists in F. destruct F as (p & P & F). apply in_seq in P.
        specialize (D p). rewrite F in D. destruct (Nat.ltb_spec p max); [|lia]. discriminate. }
    intros t. pose proof (ST (XStep t) Logic.I) as A. specialize (CS t) as CT. cbn beta iota delta [f_step] in A. unfold f_idle.
    destruct (f_pc s t) as [|c| | |p|p i|p i j|p i j|p i|p|p|p|p|p|p|p|p| |r|r] eqn:EP; cbn in CT; try discriminate; auto.
    - destruct (f_mtx s) as [u|] eqn:M; [|discriminate]. apply (fi_lock s I) in M. rewrite CS in M. discriminate.
    - right. exists p. split; [reflexivity|]. destruct (f_run s p); [reflexivity|discriminate].
  Qed.
  Definition fm (q : fpc) : nat :=
    match q with
    | PIdle => 0 | PRet _ => 1 | PUnl _ => 2 | CRel _ | DRel _ | GScan => 3 | CDelT _ _ | DMtx _ => 4 | CDelF _ _ _ | DFlg _ => 5 | CPush _ => 3 | CMtx _ _ _ => 6 | CFlg _ _ => 7 | CTsk _ => 8
    | CGet => 9 | CCheck => 10 | DTsk _ => 6 | DErase _ => 7 | PLock _ => 11 | DWait _ => 12
    end.
  Lemma f_step_decr s l s' e : f_own_step l -> f_step max s l = Some (s', e) -> exists t q, f_pc s' = fupd (f_pc s) t q /\ fm q < fm (f_pc s t).
  Proof.
    intros P E. destruct l as [t c|t|t p|t i|i|i|p|p]; cbn in P; try tauto; cbn beta iota delta [f_step] in E; exists t.
    - destruct (f_pc s t) as [|c| | |p|p i|p i j|p i j|p i|p|p|p|p|p|p|p|p| |r|r] eqn:EP; try discriminate;
        try (injection E as <- <-; eexists; split; [reflexivity|cbn; lia]; fail).
      + destruct (f_mtx s); [discriminate|]. injection E as <- <-. eexists; split; [reflexivity|destruct c; cbn; lia].
      + destruct (max <=? length (f_map s)); injection E as <- <-; (eexists; split; [reflexivity|cbn; lia]).
      + destruct (free_block max s); [discriminate|]; injection E as <- <-; (eexists; split; [reflexivity|cbn; lia]).
      + destruct (f_run s p); [discriminate|]; injection E as <- <-; (eexists; split; [reflexivity|cbn; lia]).
    - destruct (f_pc s t) eqn:EP; try discriminate. destruct (_ && _); [|discriminate]. injection E as <- <-. eexists; split; [reflexivity|cbn; lia].
    - destruct (f_pc s t) as [|c| | |p|p j|p j j'|p j j'|p j|p|p|p|p|p|p|p|p| |r|r] eqn:EP; try discriminate;
        (destruct (i =? 0); [injection E as <- <-; eexists; split; [reflexivity|cbn; lia]|]);
        match type of E with match ?x with _ => _ end = _ => destruct x; [discriminate|] end; injection E as <- <-; (eexists; split; [reflexivity|cbn; lia]).
  Qed.
  Theorem f_bounded n ls s s' es : (forall t, n <= t -> f_idle s t) -> (forall l, In l ls -> f_own_step l) -> exec (f_step max) s ls = Some (s', es) -> length ls <= n * 12.
  Proof.
    intros ID OW E. set (m := fun s => sumn (fun t => fm (f_pc s t)) n).
    assert (H : length ls + m s' <= m s).
    { refine (exec_measure _ _ _ (f_step max) (fun s => forall t, n <= t -> f_idle s t) f_own_step m _ ls s s' es ID OW E).
      clear. intros s l s' e ID P E. destruct (f_step_decr s l s' e P E) as (t & q & ET & D).
      assert (T : t < n). { destruct (Nat.lt_ge_cases t n) as [X|X]; [exact X|]. specialize (ID t X). unfold f_idle in ID. rewrite ID in D. cbn in D. lia. }
      split.
      - intros u U. unfold f_idle. rewrite ET, fupd_other by lia. now apply ID.
      - unfold m. pose proof (sumn_change n (fun u => fm (f_pc s u)) (fun u => fm (f_pc s' u)) t T) as C. cbn beta in C.
        rewrite ET, fupd_same in C. rewrite ET. assert (X : forall u, u <> t -> fm (fupd (f_pc s) t q u) = fm (f_pc s u)) by (intros u U; now rewrite fupd_other).
        specialize (C X). lia. }
    assert (m s <= n * 12). { apply sumn_bound. intros k _. destruct (f_pc s k); cbn; lia. }
    lia.
  Qed.
End M.
