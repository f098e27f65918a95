(** IntrusiveList: representation invariant and the effect of each function on it. *)
From Coq Require Import List Arith Bool Lia.
Import ListNotations.
From Verif Require Import Spec.ListFamSpec Container.IntrusiveListModel Container.IntrusiveListProofs.

Definition wf (F : fam) : Prop :=
  (forall t l, F t = Some l -> forall n, ind t n + cn n l <= 1) /\
  (forall t u l m, t <> u -> F t = Some l -> F u = Some m -> forall n, ind t n + cn n l + (ind u n + cn n m) <= 1).
Definition Rep (h : heap) (F : fam) : Prop := wf F /\ forall t l, F t = Some l -> edges h (t :: l ++ [t]).

Lemma fset_eq F t o : fset F t o t = o.
Proof. unfold fset. now rewrite Nat.eqb_refl. Qed.
Lemma fset_ne F t o u : u <> t -> fset F t o u = F u.
Proof. intros. unfold fset. destruct (Nat.eqb_spec u t); congruence. Qed.
Lemma contents_Some F t l : F t = Some l -> contents F t = l.
Proof. unfold contents. now intros ->. Qed.
Lemma contents_fset F t l : contents (fset F t (Some l)) t = l.
Proof. apply contents_Some, fset_eq. Qed.
Lemma contents_fset_ne F t o u : u <> t -> contents (fset F t o) u = contents F u.
Proof. intros. unfold contents. now rewrite fset_ne. Qed.
Lemma live_Some F t : live F t -> F t = Some (contents F t).
Proof. unfold live, contents. destruct (F t); congruence. Qed.

Lemma Rep_ext h F G : (forall u, F u = G u) -> Rep h F -> Rep h G.
Proof.
  intros E [[W1 W2] R]. split; [split|].
  - intros t l H. rewrite <- E in H. eauto.
  - intros t u l m N H1 H2. rewrite <- E in H1, H2. eauto.
  - intros t l H. rewrite <- E in H. eauto.
Qed.
Lemma Rep_drop h F t : Rep h F -> Rep h (fset F t None).
Proof.
  intros [[W1 W2] R]. assert (X : forall u l, fset F t None u = Some l -> F u = Some l).
  { intros u l. unfold fset. destruct (u =? t); congruence. }
  split; [split|]; eauto.
Qed.
Lemma Rep_wf h F : Rep h F -> wf F.
Proof. now intros []. Qed.

(** before/from on explicit decompositions *)
Lemma before_at p A B : cn p A = 0 -> before p (A ++ p :: B) = A.
Proof.
  induction A as [|a A IH]; cbn; [now rewrite Nat.eqb_refl|]. unfold ind. destruct (Nat.eqb_spec a p); [lia|].
  intros. f_equal. apply IH. lia.
Qed.
Lemma from_at p A B : cn p A = 0 -> from p (A ++ p :: B) = p :: B.
Proof.
  induction A as [|a A IH]; cbn; [now rewrite Nat.eqb_refl|]. unfold ind. destruct (Nat.eqb_spec a p); [lia|].
  intros. apply IH. lia.
Qed.
Lemma before_none p A : cn p A = 0 -> before p A = A.
Proof.
  induction A as [|a A IH]; cbn; auto. unfold ind. destruct (Nat.eqb_spec a p); [lia|]. intros. f_equal. apply IH. lia.
Qed.
Lemma from_none p A : cn p A = 0 -> from p A = [].
Proof.
  induction A as [|a A IH]; cbn; auto. unfold ind. destruct (Nat.eqb_spec a p); [lia|]. intros. apply IH. lia.
Qed.
(** A position of list t: either end() (D empty) or the head of D *)
Lemma pos_split t l pos :
  ind t t + cn t l <= 1 -> (forall n, cn n l <= 1) -> pos = t \/ In pos l ->
  exists C D, l = C ++ D /\ pos = hd t D /\ before pos l = C /\ from pos l = D /\ cn pos C = 0.
Proof.
  intros Ht Hl [->|Hi].
  - rewrite ind_same in Ht. exists l, []. rewrite app_nil_r, before_none, from_none by lia. cbn. repeat split; lia.
  - apply in_split in Hi as (C & D & ->). exists C, (pos :: D). specialize (Hl pos).
    rewrite cn_app in Hl. cbn in Hl. rewrite ind_same in Hl.
    rewrite before_at, from_at by lia. repeat split. lia.
Qed.
Lemma hd_snoc (t : nat) D : exists B, D ++ [t] = hd t D :: B /\ removelast (hd t D :: B) = D.
Proof.
  destruct D as [|d D]; [exists []; auto|]. exists (D ++ [t]). split; [reflexivity|]. cbn [hd].
  change (d :: D ++ [t]) with ((d :: D) ++ [t]). apply removelast_last.
Qed.
Lemma snoc_cons (t : nat) C : exists A q, t :: C = A ++ [q].
Proof. destruct (@exists_last _ (t :: C)) as (A & q & ->); [discriminate|eauto]. Qed.
Lemma tl_snoc (t : nat) C A q : t :: C = A ++ [q] -> tl (A ++ [q]) = C.
Proof. intros <-. reflexivity. Qed.

Lemma frame_list h h' u m :
  edges h (u :: m ++ [u]) ->
  (forall n, 1 <= ind u n + cn n m -> nx h' n = nx h n /\ pv h' n = pv h n) -> edges h' (u :: m ++ [u]).
Proof.
  intros H X. eapply edges_frame; [exact H| |]; intros n Hi.
  - change (u :: m ++ [u]) with ((u :: m) ++ [u]) in Hi. rewrite removelast_last in Hi. apply cn_In in Hi. cbn in Hi.
    now apply X.
  - cbn [tl] in Hi. apply cn_In in Hi. rewrite cn_app in Hi. cbn in Hi. apply X. lia.
Qed.

(** wf of an updated family *)
Lemma wf_set F t l l' :
  wf F -> F t = Some l -> (forall n, cn n l' <= cn n l) -> wf (fset F t (Some l')).
Proof.
  intros [W1 W2] H L. split.
  - intros u m Hu n. unfold fset in Hu. destruct (Nat.eqb_spec u t) as [->|N]; [|eauto].
    injection Hu as <-. specialize (W1 _ _ H n). specialize (L n). lia.
  - intros u v m k N Hu Hv n. unfold fset in Hu, Hv.
    destruct (Nat.eqb_spec u t) as [->|Nu], (Nat.eqb_spec v t) as [->|Nv]; [congruence| | |eauto].
    + injection Hu as <-. specialize (W2 _ _ _ _ N H Hv n). specialize (L n). lia.
    + injection Hv as <-. specialize (W2 _ _ _ _ N Hu H n). specialize (L n). lia.
Qed.
Lemma unused_cn F d u m : unused F d -> F u = Some m -> ind u d + cn d m = 0.
Proof.
  intros U H. destruct (U _ _ H) as [N I]. apply cn_notIn in I. rewrite ind_diff by congruence. lia.
Qed.
Lemma wf_add F t l l' d :
  wf F -> F t = Some l -> unused F d -> (forall n, cn n l' <= cn n l + ind d n) -> wf (fset F t (Some l')).
Proof.
  intros [W1 W2] H U L.
  assert (X : forall u m n, F u = Some m -> ind u n + cn n m + ind d n <= 1).
  { intros u m n Hu. pose proof (W1 _ _ Hu n). destruct (Nat.eq_dec n d) as [->|N].
    - pose proof (unused_cn _ _ _ _ U Hu). rewrite ind_same. lia.
    - rewrite (ind_diff d n) by congruence. lia. }
  split.
  - intros u m Hu n. unfold fset in Hu. destruct (Nat.eqb_spec u t) as [->|N]; [|eauto].
    injection Hu as <-. specialize (X _ _ n H). specialize (L n). lia.
  - intros u v m k N Hu Hv n. unfold fset in Hu, Hv.
    destruct (Nat.eqb_spec u t) as [->|Nu], (Nat.eqb_spec v t) as [->|Nv]; [congruence| | |eauto].
    + injection Hu as <-. specialize (W2 _ _ _ _ N H Hv n). specialize (L n). specialize (X _ _ n Hv). specialize (W1 _ _ H n). 
      destruct (Nat.eq_dec n d) as [->|Nd]; [rewrite ind_same in *|rewrite (ind_diff d n) in * by congruence; lia].
      pose proof (unused_cn _ _ _ _ U H). pose proof (unused_cn _ _ _ _ U Hv). lia.
    + injection Hv as <-. specialize (W2 _ _ _ _ N Hu H n). specialize (L n).
      destruct (Nat.eq_dec n d) as [->|Nd]; [rewrite ind_same in *|rewrite (ind_diff d n) in * by congruence; lia].
      pose proof (unused_cn _ _ _ _ U H). pose proof (unused_cn _ _ _ _ U Hu). lia.
Qed.
Lemma wf_move F t x lt lx lt' lx' :
  wf F -> t <> x -> F t = Some lt -> F x = Some lx ->
  (forall n, cn n lt' + cn n lx' <= cn n lt + cn n lx) -> wf (fset (fset F x (Some lx')) t (Some lt')).
Proof.
  intros [W1 W2] Ntx Ht Hx L. split.
  - intros u m Hu n. unfold fset in Hu. specialize (L n). pose proof (W2 _ _ _ _ Ntx Ht Hx n).
    destruct (Nat.eqb_spec u t) as [->|N]; [injection Hu as <-; lia|].
    destruct (Nat.eqb_spec u x) as [->|N']; [injection Hu as <-; lia|eauto].
  - intros u v m k N Hu Hv n. unfold fset in Hu, Hv. specialize (L n). pose proof (W2 _ _ _ _ Ntx Ht Hx n).
    destruct (Nat.eqb_spec u t) as [->|Nu]; [injection Hu as <-|destruct (Nat.eqb_spec u x) as [->|Nu']; [injection Hu as <-|]];
    (destruct (Nat.eqb_spec v t) as [->|Nv]; [injection Hv as <-|destruct (Nat.eqb_spec v x) as [->|Nv']; [injection Hv as <-|]]);
      try congruence; try lia; eauto.
    + pose proof (W2 _ _ _ _ N Ht Hv n). pose proof (W2 _ _ _ _ Nv' Hv Hx n). lia.
    + pose proof (W2 _ _ _ _ N Hx Hv n). pose proof (W2 _ _ _ _ Nv Hv Ht n). lia.
    + pose proof (W2 _ _ _ _ N Hu Ht n). pose proof (W2 _ _ _ _ Nu' Hu Hx n). lia.
    + pose proof (W2 _ _ _ _ N Hu Hx n). pose proof (W2 _ _ _ _ Nu Hu Ht n). lia.
Qed.
Lemma wf_new F t : wf F -> unused F t -> wf (fset F t (Some [])).
Proof.
  intros [W1 W2] U. split.
  - intros u m Hu n. unfold fset in Hu. destruct (Nat.eqb_spec u t) as [->|N]; [|eauto].
    injection Hu as <-. pose proof (ind_le t n). cbn. lia.
  - assert (X : forall u m n, F u = Some m -> ind u n + cn n m + ind t n <= 1).
    { intros u m n Hu. pose proof (W1 _ _ Hu n). destruct (Nat.eq_dec n t) as [->|N].
      - pose proof (unused_cn _ _ _ _ U Hu). rewrite ind_same. lia.
      - rewrite (ind_diff t n) by congruence. lia. }
    intros u v m k N Hu Hv n. unfold fset in Hu, Hv.
    destruct (Nat.eqb_spec u t) as [->|Nu], (Nat.eqb_spec v t) as [->|Nv]; [congruence| | |eauto].
    + injection Hu as <-. specialize (X _ _ n Hv). cbn. lia.
    + injection Hv as <-. specialize (X _ _ n Hu). cbn. lia.
Qed.

Lemma Rep_cn h F t l n : Rep h F -> F t = Some l -> ind t n + cn n l <= 1.
Proof. intros [[W _] _] H. eauto. Qed.
Lemma Rep_cn1 h F t l n : Rep h F -> F t = Some l -> cn n l <= 1.
Proof. intros R H. pose proof (Rep_cn _ _ _ _ n R H). lia. Qed.
Lemma Rep_notin h F t l : Rep h F -> F t = Some l -> cn t l = 0.
Proof. intros R H. pose proof (Rep_cn _ _ _ _ t R H). rewrite ind_same in *. lia. Qed.
Lemma Rep_pos h F t l pos :
  Rep h F -> F t = Some l -> pos = t \/ In pos l ->
  exists C D, l = C ++ D /\ pos = hd t D /\ before pos l = C /\ from pos l = D /\ cn pos C = 0.
Proof.
  intros R H P. apply pos_split; [apply (Rep_cn _ _ _ _ _ R H)|intros; apply (Rep_cn1 _ _ _ _ _ R H)|exact P].
Qed.

(** *** Reads *)
Lemma ring_next h F t l : Rep h F -> F t = Some l -> nx h t = Some (hd t l).
Proof. intros [_ R] H. specialize (R _ _ H). destruct l; cbn in *; apply R. Qed.
Lemma ring_prev h F t l : Rep h F -> F t = Some l -> pv h t = Some (last l t).
Proof.
  intros [_ R] H. specialize (R _ _ H). destruct (list_eq_dec Nat.eq_dec l []) as [->|N]; [cbn in *; apply R|].
  destruct (exists_last N) as (l' & e & ->). rewrite last_last. rewrite <- app_assoc in R.
  change (t :: l' ++ [e] ++ [t]) with ((t :: l') ++ e :: t :: []) in R. apply edges_split in R as (_ & [_ R] & _). exact R.
Qed.
Lemma ring_pred h F t C D : Rep h F -> F t = Some (C ++ D) ->
  exists A q B, t :: C = A ++ [q] /\ D ++ [t] = hd t D :: B /\ removelast (hd t D :: B) = D /\
    edges h (A ++ q :: hd t D :: B) /\ t :: (C ++ D) ++ [t] = A ++ q :: hd t D :: B.
Proof.
  intros [_ R] H. specialize (R _ _ H). destruct (snoc_cons t C) as (A & q & E1). destruct (hd_snoc t D) as (B & E2 & E3).
  assert (X : t :: (C ++ D) ++ [t] = A ++ q :: hd t D :: B).
  { rewrite <- app_assoc, E2. change (t :: C ++ hd t D :: B) with ((t :: C) ++ hd t D :: B). rewrite E1, <- app_assoc. reflexivity. }
  rewrite X in R. exists A, q, B. auto.
Qed.

Section Ops.
  Variable dbg : bool.

  Lemma empty_runs h F t l : Rep h F -> F t = Some l ->
    l_empty t h = LOk (match l with [] => true | _ => false end) h.
  Proof.
    intros R H. unfold l_empty, get_nx, lbind, deref, lret. rewrite (ring_next _ _ _ _ R H).
    pose proof (Rep_notin _ _ _ _ R H) as N. destruct l as [|a l]; cbn; [now rewrite Nat.eqb_refl|].
    cbn in N. unfold ind in N. destruct (Nat.eqb_spec a t); [lia|reflexivity].
  Qed.

  Lemma new_runs h F t : Rep h F -> unused F t ->
    exists h', l_new t h = LOk tt h' /\ Rep h' (fset F t (Some [])).
  Proof.
    intros R U. eexists. split; [reflexivity|]. cbn. split; [apply wf_new; [apply R|exact U]|].
    intros u m Hu. unfold fset in Hu. destruct (Nat.eqb_spec u t) as [->|N].
    - injection Hu as <-. cbn. repeat split; cbn; now rewrite hupd_eq.
    - eapply frame_list; [apply R; exact Hu|]. intros n Hn. cbn. assert (n <> t).
      { intros ->. pose proof (unused_cn _ _ _ _ U Hu). lia. }
      rewrite !hupd_ne by auto. auto.
  Qed.

  Lemma insert_runs h F t C D d : Rep h F -> F t = Some (C ++ D) -> unused F d ->
    exists h', l_insert dbg (Some (hd t D)) d h = LOk (Some d) h' /\ Rep h' (fset F t (Some (C ++ d :: D))).
  Proof.
    intros R H U. destruct (ring_pred _ _ _ _ _ R H) as (A & q & B & E1 & E2 & E3 & HE & _).
    pose proof (edges_split _ _ _ _ _ HE) as (_ & [En Ep] & _).
    pose proof (unused_cn _ _ _ _ U H) as UC. rewrite cn_app in UC.
    assert (Q : forall n, cn n (A ++ [q]) = ind t n + cn n C) by (intros; rewrite <- E1; reflexivity).
    assert (P : forall n, cn n (hd t D :: B) = cn n D + ind t n) by (intros; rewrite <- E2, cn_app; cbn; lia).
    assert (W : forall n, ind t n + cn n C + cn n D + ind d n <= 1).
    { intros n. pose proof (Rep_cn _ _ _ _ n R H) as X. rewrite cn_app in X. destruct (Nat.eq_dec n d) as [->|N]; [rewrite ind_same; lia|].
      rewrite (ind_diff d n) by congruence. lia. }
    assert (Npd : hd t D <> d) by (intros X; specialize (P d); rewrite X in P; cbn [cn] in P; rewrite ind_same in P; lia).
    assert (Nqd : q <> d) by (intros ->; specialize (Q d); rewrite cn_app in Q; cbn [cn] in Q; rewrite ind_same in Q; lia).
    exists (ins_heap h q d (hd t D)). split.
    - unfold l_insert, lassert, set_nx, set_pv, get_pv, lbind, deref, lret. destruct dbg; cbn;
        rewrite Ep; cbn; rewrite (hupd_ne _ (hd t D)) by auto; rewrite hupd_eq; reflexivity.
    - split; [apply wf_add with (l := C ++ D) (d := d); [apply R|exact H|exact U|intros n; rewrite !cn_app; cbn; lia]|].
      intros u m Hu. unfold fset in Hu. destruct (Nat.eqb_spec u t) as [->|N].
      + injection Hu as <-. assert (X : t :: (C ++ d :: D) ++ [t] = A ++ q :: d :: hd t D :: B).
        { rewrite <- app_assoc. cbn [app]. rewrite E2. change (t :: C ++ d :: hd t D :: B) with ((t :: C) ++ d :: hd t D :: B).
          rewrite E1, <- app_assoc. reflexivity. }
        rewrite X. apply ins_edges; [| |exact HE]; intros n; specialize (Q n); specialize (P n); specialize (W n).
        * rewrite (tl_snoc _ _ _ _ E1). lia.
        * rewrite E3. lia.
      + eapply frame_list; [apply R; exact Hu|]. intros n Hn.
        destruct R as [[_ W2] _]. pose proof (W2 _ _ _ _ N Hu H n) as X. rewrite cn_app in X.
        assert (n <> d) by (intros ->; pose proof (unused_cn _ _ _ _ U Hu); lia).
        assert (n <> q) by (intros ->; specialize (Q q); rewrite cn_app in Q; cbn [cn] in Q; rewrite ind_same in Q; lia).
        assert (n <> hd t D) by (intros ->; specialize (P (hd t D)); cbn [cn] in P; rewrite ind_same in P; lia).
        cbn. rewrite !hupd_ne by auto. auto.
  Qed.

  Lemma erase_runs h F t C x D : Rep h F -> F t = Some (C ++ x :: D) ->
    exists h', l_erase dbg t (Some x) h = LOk (Some (hd t D)) h' /\ Rep h' (fset F t (Some (C ++ D))).
  Proof.
    intros R H. destruct (ring_pred _ _ _ _ _ R H) as (A & a & B' & E1 & E2 & E3 & HE & _). cbn [hd] in *.
    cbn [app] in E2. injection E2 as E2. destruct (hd_snoc t D) as (B & E4 & E5). rewrite <- E2, E4 in HE.
    pose proof (edges_split _ _ _ _ _ HE) as (_ & [En Ep] & X). rewrite edges_cons in X. destruct X as [[En2 Ep2] _].
    assert (Q : forall n, cn n (A ++ [a]) = ind t n + cn n C) by (intros; rewrite <- E1; reflexivity).
    assert (P : forall n, cn n (hd t D :: B) = cn n D + ind t n) by (intros; rewrite <- E4, cn_app; cbn; lia).
    assert (W : forall n, ind t n + cn n C + cn n D + ind x n <= 1).
    { intros n. pose proof (Rep_cn _ _ _ _ n R H) as X. rewrite cn_app in X. cbn in X. lia. }
    assert (Nax : x <> a) by (intros ->; specialize (Q a); specialize (W a); rewrite cn_app in Q; cbn [cn] in Q; rewrite ind_same in *; lia).
    exists (del_heap h a (hd t D)). split.
    - unfold l_erase. unfold lbind at 1. rewrite (empty_runs _ _ _ _ R H).
      assert (X : (match C ++ x :: D with [] => true | _ => false end) = false) by (destruct C; reflexivity). rewrite X.
      unfold lassert, set_nx, set_pv, get_pv, get_nx, lbind, deref, lret. destruct dbg; cbn;
        rewrite Ep, En2; cbn; rewrite hupd_ne, En2, Ep by auto; cbn; reflexivity.
    - split; [apply wf_set with (l := C ++ x :: D); [apply R|exact H|intros n; rewrite !cn_app; cbn; lia]|].
      intros u m Hu. unfold fset in Hu. destruct (Nat.eqb_spec u t) as [->|N].
      + injection Hu as <-. assert (X : t :: (C ++ D) ++ [t] = A ++ a :: hd t D :: B).
        { rewrite <- app_assoc. rewrite E4. change (t :: C ++ hd t D :: B) with ((t :: C) ++ hd t D :: B).
          rewrite E1, <- app_assoc. reflexivity. }
        rewrite X. apply del_edges with (x := x); [| |exact HE]; intros n; specialize (Q n); specialize (P n); specialize (W n).
        * rewrite (tl_snoc _ _ _ _ E1). lia.
        * rewrite E5. lia.
      + eapply frame_list; [apply R; exact Hu|]. intros n Hn.
        destruct R as [[_ W2] _]. pose proof (W2 _ _ _ _ N Hu H n) as X. rewrite cn_app in X. cbn [cn] in X.
        assert (n <> a) by (intros ->; specialize (Q a); rewrite cn_app in Q; cbn [cn] in Q; rewrite ind_same in Q; lia).
        assert (n <> hd t D) by (intros ->; specialize (P (hd t D)); cbn [cn] in P; rewrite ind_same in P; lia).
        cbn. rewrite !hupd_ne by auto. auto.
  Qed.

  (** *** splice(pos, x, first, last): the writes *)
  Lemma splice_writes h t pos x first lst fp lp pp :
    first <> t -> first <> x -> first <> lst -> pos <> lst -> first <> pos ->
    pv h first = Some fp -> pv h lst = Some lp -> pv h pos = Some pp ->
    l_splice_range dbg t (Some pos) x (Some first) (Some lst) h = LOk tt (spl_heap h fp first lp lst pp pos).
  Proof.
    intros N1 N2 N3 N4 N5 E1 E2 E3. unfold l_splice_range.
    assert (A1 : (first =? t) = false) by now apply Nat.eqb_neq.
    assert (A2 : (first =? x) = false) by now apply Nat.eqb_neq.
    assert (A3 : (first =? lst) = false) by now apply Nat.eqb_neq.
    assert (A4 : (pos =? lst) = false) by now apply Nat.eqb_neq.
    unfold lassert, set_nx, set_pv, get_pv, get_nx, lbind, deref, lret, l_end. cbn [nonnull onat_eqb].
    rewrite A1, A2, A3, A4.
    destruct dbg; cbn; repeat (first [rewrite E1|rewrite E2|rewrite E3|rewrite hupd_ne by auto]; cbn); reflexivity.
  Qed.

  (** from another list *)
  Lemma splice_other_runs h F t x P M' first R C D :
    Rep h F -> t <> x -> F x = Some (P ++ (first :: M') ++ R) -> F t = Some (C ++ D) ->
    exists h', l_splice_range dbg t (Some (hd t D)) x (Some first) (Some (hd x R)) h = LOk tt h' /\
      Rep h' (fset (fset F x (Some (P ++ R))) t (Some (C ++ (first :: M') ++ D))).
  Proof.
    intros HR Ntx Hx Ht.
    remember (first :: M') as M eqn:EM.
    destruct (ring_pred _ _ _ _ _ HR Ht) as (A2 & pp & B2 & T1 & T2 & T3 & TE & _).
    destruct (ring_pred _ _ x P (M ++ R) HR Hx) as (A1 & fp & B1 & X1 & X2 & X3 & _ & XE).
    assert (HM : M <> []) by (rewrite EM; discriminate). destruct (exists_last HM) as (M'' & lp & EM'').
    destruct (hd_snoc x R) as (B & R1 & R2).
    set (pos := hd t D) in *. set (lst := hd x R) in *.
    assert (EX : x :: (P ++ M ++ R) ++ [x] = A1 ++ fp :: M ++ lst :: B).
    { rewrite <- !app_assoc, R1. change (x :: P ++ M ++ lst :: B) with ((x :: P) ++ M ++ lst :: B).
      rewrite X1, <- app_assoc. reflexivity. }
    assert (HX : edges h (A1 ++ fp :: M ++ lst :: B)) by (rewrite <- EX; apply HR; exact Hx).
    assert (W : forall n, ind x n + cn n P + cn n M + cn n R + (ind t n + cn n C + cn n D) <= 1).
    { intros n. destruct HR as [[_ W2] _]. pose proof (W2 _ _ _ _ Ntx Ht Hx n) as W. rewrite !cn_app in W. lia. }
    assert (Q1 : forall n, cn n (A1 ++ [fp]) = ind x n + cn n P) by (intros; rewrite <- X1; reflexivity).
    assert (Q2 : forall n, cn n (A2 ++ [pp]) = ind t n + cn n C) by (intros; rewrite <- T1; reflexivity).
    assert (P1 : forall n, cn n (lst :: B) = cn n R + ind x n) by (intros; rewrite <- R1, cn_app; cbn; lia).
    assert (P2 : forall n, cn n (pos :: B2) = cn n D + ind t n) by (intros; rewrite <- T2, cn_app; cbn; lia).
    assert (C1 : forall n, cn n M = ind first n + cn n M') by (intros; rewrite EM; reflexivity).
    assert (C2 : forall n, cn n M = cn n M'' + ind lp n) by (intros; rewrite EM'', cn_app; cbn; lia).
    assert (V1 : 1 <= cn lst R + ind x lst) by (specialize (P1 lst); cbn [cn] in P1; rewrite ind_same in P1; lia).
    assert (V2 : 1 <= cn pos D + ind t pos) by (specialize (P2 pos); cbn [cn] in P2; rewrite ind_same in P2; lia).
    assert (V3 : 1 <= ind x fp + cn fp P) by (specialize (Q1 fp); rewrite cn_app in Q1; cbn [cn] in Q1; rewrite ind_same in Q1; lia).
    assert (V4 : 1 <= ind t pp + cn pp C) by (specialize (Q2 pp); rewrite cn_app in Q2; cbn [cn] in Q2; rewrite ind_same in Q2; lia).
    assert (V5 : 1 <= cn first M) by (rewrite C1, ind_same; lia).
    assert (V6 : 1 <= cn lp M) by (rewrite C2, ind_same; lia).
    pose proof (edges_split _ _ _ _ _ TE) as (_ & [_ Epos] & _).
    assert (Efirst : pv h first = Some fp).
    { rewrite EM in HX. cbn [app] in HX. apply edges_split in HX as (_ & [_ E] & _). exact E. }
    assert (Elst : pv h lst = Some lp).
    { apply edges_app in HX as [_ HX]. rewrite EM'' in HX. rewrite <- app_assoc in HX. cbn [app] in HX.
      change (fp :: M'' ++ lp :: lst :: B) with ((fp :: M'') ++ lp :: lst :: B) in HX.
      apply edges_split in HX as (_ & [_ E] & _). exact E. }
    exists (spl_heap h fp first lp lst pp pos). split.
    - apply splice_writes; auto.
      + intros E. specialize (W first). rewrite E in *. rewrite ind_same in *. lia.
      + intros E. specialize (W first). rewrite E in *. rewrite ind_same in *. lia.
      + intros E. specialize (W first). rewrite <- E in *. lia.
      + intros E. specialize (W lst). rewrite E in *. lia.
      + intros E. specialize (W first). rewrite <- E in *. lia.
    - destruct (spl_other h A1 fp M lst B A2 pp pos B2 first M' M'' lp EM EM'') as [G1 G2]; [| |exact HX|exact TE|].
      { intros n. rewrite (tl_snoc _ _ _ _ X1), (tl_snoc _ _ _ _ T1), P1, P2. specialize (W n). lia. }
      { intros n. rewrite R2, T3, Q1, Q2. specialize (W n). lia. }
      split; [apply wf_move with (lt := C ++ D) (lx := P ++ M ++ R); auto; [apply HR|intros n; rewrite !cn_app; lia]|].
      intros u m Hu. unfold fset in Hu. destruct (Nat.eqb_spec u t) as [->|Nt]; [|destruct (Nat.eqb_spec u x) as [->|Nx]].
      + injection Hu as <-. replace (t :: (C ++ M ++ D) ++ [t]) with (A2 ++ pp :: M ++ pos :: B2); [exact G2|].
        rewrite <- !app_assoc, T2. change (t :: C ++ M ++ pos :: B2) with ((t :: C) ++ M ++ pos :: B2). rewrite T1, <- app_assoc. reflexivity.
      + injection Hu as <-. replace (x :: (P ++ R) ++ [x]) with (A1 ++ fp :: lst :: B); [exact G1|].
        rewrite <- !app_assoc, R1. change (x :: P ++ lst :: B) with ((x :: P) ++ lst :: B). rewrite X1, <- app_assoc. reflexivity.
      + eapply frame_list; [apply HR; exact Hu|]. intros n Hn.
        destruct HR as [[_ W2] _]. pose proof (W2 _ _ _ _ Nt Hu Ht n) as Y1. pose proof (W2 _ _ _ _ Nx Hu Hx n) as Y2.
        rewrite !cn_app in Y1. rewrite !cn_app in Y2. cbn. rewrite !hupd_ne; [auto|..]; intros E; subst n; lia.
  Qed.

  (** within the list, backwards: pos is before first *)
  Lemma splice_same_before h F t P1 pos P2 first M' R :
    Rep h F -> F t = Some (P1 ++ (pos :: P2) ++ (first :: M') ++ R) ->
    exists h', l_splice_range dbg t (Some pos) t (Some first) (Some (hd t R)) h = LOk tt h' /\
      Rep h' (fset F t (Some (P1 ++ (first :: M') ++ (pos :: P2) ++ R))).
  Proof.
    intros HR Ht.
    remember (first :: M') as M eqn:EM. remember (pos :: P2) as S eqn:ES.
    destruct (snoc_cons t P1) as (A & a & EA).
    assert (HM : M <> []) by (rewrite EM; discriminate). destruct (exists_last HM) as (M'' & lp & EM'').
    assert (HS : S <> []) by (rewrite ES; discriminate). destruct (exists_last HS) as (S'' & fp & ES'').
    destruct (hd_snoc t R) as (B & R1 & R2). set (lst := hd t R) in *.
    assert (Y : forall S M, t :: (P1 ++ S ++ M ++ R) ++ [t] = A ++ a :: S ++ M ++ lst :: B).
    { intros. rewrite <- !app_assoc, R1. change (t :: P1 ++ S0 ++ M0 ++ lst :: B) with ((t :: P1) ++ S0 ++ M0 ++ lst :: B).
      rewrite EA, <- app_assoc. reflexivity. }
    assert (HE : edges h (A ++ a :: S ++ M ++ lst :: B)) by (rewrite <- Y; apply HR; exact Ht).
    assert (W : forall n, ind t n + cn n P1 + cn n S + cn n M + cn n R <= 1).
    { intros n. pose proof (Rep_cn _ _ _ _ n HR Ht) as W. rewrite !cn_app in W. lia. }
    assert (Q1 : forall n, cn n (A ++ [a]) = ind t n + cn n P1) by (intros; rewrite <- EA; reflexivity).
    assert (P3 : forall n, cn n (lst :: B) = cn n R + ind t n) by (intros; rewrite <- R1, cn_app; cbn; lia).
    assert (C1 : forall n, cn n M = ind first n + cn n M') by (intros; rewrite EM; reflexivity).
    assert (C2 : forall n, cn n M = cn n M'' + ind lp n) by (intros; rewrite EM'', cn_app; cbn; lia).
    assert (C3 : forall n, cn n S = ind pos n + cn n P2) by (intros; rewrite ES; reflexivity).
    assert (C4 : forall n, cn n S = cn n S'' + ind fp n) by (intros; rewrite ES'', cn_app; cbn; lia).
    assert (V1 : 1 <= cn lst R + ind t lst) by (specialize (P3 lst); cbn [cn] in P3; rewrite ind_same in P3; lia).
    assert (V3 : 1 <= ind t a + cn a P1) by (specialize (Q1 a); rewrite cn_app in Q1; cbn [cn] in Q1; rewrite ind_same in Q1; lia).
    assert (V5 : 1 <= cn first M) by (rewrite C1, ind_same; lia).
    assert (V6 : 1 <= cn lp M) by (rewrite C2, ind_same; lia).
    assert (V7 : 1 <= cn pos S) by (rewrite C3, ind_same; lia).
    assert (V8 : 1 <= cn fp S) by (rewrite C4, ind_same; lia).
    assert (N1 : lp <> fp) by (intros E; specialize (W lp); rewrite <- E in *; lia).
    assert (N2 : lp <> a) by (intros E; specialize (W lp); rewrite <- E in *; lia).
    assert (N3 : fp <> a) by (intros E; specialize (W fp); rewrite <- E in *; lia).
    assert (O1 : first <> lst) by (intros E; specialize (W first); rewrite <- E in *; lia).
    assert (O2 : first <> pos) by (intros E; specialize (W first); rewrite <- E in *; lia).
    assert (O3 : lst <> pos) by (intros E; specialize (W lst); rewrite <- E in *; lia).
    assert (Epos : pv h pos = Some a).
    { rewrite ES in HE. cbn [app] in HE. apply edges_split in HE as (_ & [_ E] & _). exact E. }
    assert (Efirst : pv h first = Some fp).
    { rewrite ES'', EM in HE. rewrite <- app_assoc in HE. cbn [app] in HE. apply edges_app in HE as [_ HE].
      change (a :: S'' ++ fp :: first :: M' ++ lst :: B) with ((a :: S'') ++ fp :: first :: M' ++ lst :: B) in HE.
      apply edges_split in HE as (_ & [_ E] & _). exact E. }
    assert (Elst : pv h lst = Some lp).
    { apply edges_app in HE as [_ HE]. rewrite EM'' in HE. rewrite <- app_assoc in HE. cbn [app] in HE.
      replace (a :: S ++ M'' ++ lp :: lst :: B) with ((a :: S ++ M'') ++ lp :: lst :: B) in HE by (cbn; now rewrite <- app_assoc).
      apply edges_split in HE as (_ & [_ E] & _). exact E. }
    exists (spl_heap h fp first lp lst a pos). split.
    - apply splice_writes; auto;
      intros E; specialize (W first); rewrite E in *; rewrite ind_same in *; lia.
    - split; [apply wf_set with (l := P1 ++ S ++ M ++ R); [apply HR|exact Ht|intros n; rewrite !cn_app; lia]|].
      intros u m Hu. unfold fset in Hu. destruct (Nat.eqb_spec u t) as [->|N].
      + injection Hu as <-. rewrite Y.
        refine (swap_segments h _ A a S pos P2 S'' fp M first M' M'' lp lst B ES ES'' EM EM'' _ _ HE _ _ _ _ _).
        * intros n. rewrite (tl_snoc _ _ _ _ EA), P3. specialize (W n). lia.
        * intros n. rewrite R2, Q1. specialize (W n). lia.
        * intros n K1 K2 K3. cbn. now rewrite !hupd_ne by auto.
        * intros n K1 K2 K3. cbn. now rewrite !hupd_ne by auto.
        * split; cbn; now rewrite hupd_eq.
        * split; cbn; rewrite !hupd_ne, hupd_eq by auto; reflexivity.
        * split; cbn; rewrite hupd_ne, hupd_eq by auto; reflexivity.
      + eapply frame_list; [apply HR; exact Hu|]. intros n Hn.
        destruct HR as [[_ W2] _]. pose proof (W2 _ _ _ _ N Hu Ht n) as Y1.
        rewrite !cn_app in Y1. cbn. rewrite !hupd_ne; [auto|..]; intros E; subst n; lia.
  Qed.

  (** within the list, forwards: pos is after last *)
  Lemma splice_same_after h F t P first M' lst S' R :
    Rep h F -> F t = Some (P ++ (first :: M') ++ (lst :: S') ++ R) ->
    exists h', l_splice_range dbg t (Some (hd t R)) t (Some first) (Some lst) h = LOk tt h' /\
      Rep h' (fset F t (Some (P ++ (lst :: S') ++ (first :: M') ++ R))).
  Proof.
    intros HR Ht.
    remember (first :: M') as M eqn:EM. remember (lst :: S') as S eqn:ES.
    destruct (snoc_cons t P) as (A & a & EA).
    assert (HM : M <> []) by (rewrite EM; discriminate). destruct (exists_last HM) as (M'' & lp & EM'').
    assert (HS : S <> []) by (rewrite ES; discriminate). destruct (exists_last HS) as (S'' & pp & ES'').
    destruct (hd_snoc t R) as (B & R1 & R2). set (pos := hd t R) in *.
    assert (Y : forall S M, t :: (P ++ S ++ M ++ R) ++ [t] = A ++ a :: S ++ M ++ pos :: B).
    { intros. rewrite <- !app_assoc, R1. change (t :: P ++ S0 ++ M0 ++ pos :: B) with ((t :: P) ++ S0 ++ M0 ++ pos :: B).
      rewrite EA, <- app_assoc. reflexivity. }
    assert (HE : edges h (A ++ a :: M ++ S ++ pos :: B)) by (rewrite <- Y; apply HR; exact Ht).
    assert (W : forall n, ind t n + cn n P + cn n S + cn n M + cn n R <= 1).
    { intros n. pose proof (Rep_cn _ _ _ _ n HR Ht) as W. rewrite !cn_app in W. lia. }
    assert (Q1 : forall n, cn n (A ++ [a]) = ind t n + cn n P) by (intros; rewrite <- EA; reflexivity).
    assert (P3 : forall n, cn n (pos :: B) = cn n R + ind t n) by (intros; rewrite <- R1, cn_app; cbn; lia).
    assert (C1 : forall n, cn n M = ind first n + cn n M') by (intros; rewrite EM; reflexivity).
    assert (C2 : forall n, cn n M = cn n M'' + ind lp n) by (intros; rewrite EM'', cn_app; cbn; lia).
    assert (C3 : forall n, cn n S = ind lst n + cn n S') by (intros; rewrite ES; reflexivity).
    assert (C4 : forall n, cn n S = cn n S'' + ind pp n) by (intros; rewrite ES'', cn_app; cbn; lia).
    assert (V1 : 1 <= cn pos R + ind t pos) by (specialize (P3 pos); cbn [cn] in P3; rewrite ind_same in P3; lia).
    assert (V3 : 1 <= ind t a + cn a P) by (specialize (Q1 a); rewrite cn_app in Q1; cbn [cn] in Q1; rewrite ind_same in Q1; lia).
    assert (V5 : 1 <= cn first M) by (rewrite C1, ind_same; lia).
    assert (V6 : 1 <= cn lp M) by (rewrite C2, ind_same; lia).
    assert (V7 : 1 <= cn lst S) by (rewrite C3, ind_same; lia).
    assert (V8 : 1 <= cn pp S) by (rewrite C4, ind_same; lia).
    assert (N1 : lp <> pp) by (intros E; specialize (W lp); rewrite <- E in *; lia).
    assert (N2 : lp <> a) by (intros E; specialize (W lp); rewrite <- E in *; lia).
    assert (N3 : pp <> a) by (intros E; specialize (W pp); rewrite <- E in *; lia).
    assert (O1 : first <> lst) by (intros E; specialize (W first); rewrite <- E in *; lia).
    assert (O2 : first <> pos) by (intros E; specialize (W first); rewrite <- E in *; lia).
    assert (O3 : lst <> pos) by (intros E; specialize (W lst); rewrite <- E in *; lia).
    assert (Efirst : pv h first = Some a).
    { rewrite EM in HE. cbn [app] in HE. apply edges_split in HE as (_ & [_ E] & _). exact E. }
    assert (Elst : pv h lst = Some lp).
    { rewrite EM'', ES in HE. rewrite <- app_assoc in HE. cbn [app] in HE. apply edges_app in HE as [_ HE].
      change (a :: M'' ++ lp :: lst :: S' ++ pos :: B) with ((a :: M'') ++ lp :: lst :: S' ++ pos :: B) in HE.
      apply edges_split in HE as (_ & [_ E] & _). exact E. }
    assert (Epos : pv h pos = Some pp).
    { apply edges_app in HE as [_ HE]. rewrite ES'' in HE. rewrite <- app_assoc in HE. cbn [app] in HE.
      replace (a :: M ++ S'' ++ pp :: pos :: B) with ((a :: M ++ S'') ++ pp :: pos :: B) in HE by (cbn; now rewrite <- app_assoc).
      apply edges_split in HE as (_ & [_ E] & _). exact E. }
    exists (spl_heap h a first lp lst pp pos). split.
    - apply splice_writes; auto;
      intros E; specialize (W first); rewrite E in *; rewrite ind_same in *; lia.
    - split; [apply wf_set with (l := P ++ M ++ S ++ R); [apply HR|exact Ht|intros n; rewrite !cn_app; lia]|].
      intros u m Hu. unfold fset in Hu. destruct (Nat.eqb_spec u t) as [->|N].
      + injection Hu as <-. rewrite Y.
        refine (swap_segments h _ A a M first M' M'' lp S lst S' S'' pp pos B EM EM'' ES ES'' _ _ HE _ _ _ _ _).
        * intros n. rewrite (tl_snoc _ _ _ _ EA), P3. specialize (W n). lia.
        * intros n. rewrite R2, Q1. specialize (W n). lia.
        * intros n K1 K2 K3. cbn. now rewrite !hupd_ne by auto.
        * intros n K1 K2 K3. cbn. now rewrite !hupd_ne by auto.
        * split; cbn; rewrite hupd_ne, hupd_eq by auto; reflexivity.
        * split; cbn; now rewrite hupd_eq.
        * split; cbn; rewrite !hupd_ne, hupd_eq by auto; reflexivity.
      + eapply frame_list; [apply HR; exact Hu|]. intros n Hn.
        destruct HR as [[_ W2] _]. pose proof (W2 _ _ _ _ N Hu Ht n) as Y1.
        rewrite !cn_app in Y1. cbn. rewrite !hupd_ne; [auto|..]; intros E; subst n; lia.
  Qed.

  (** splice(pos, x) *)
  Lemma splice_all_runs h F t x C D M :
    Rep h F -> t <> x -> F x = Some M -> F t = Some (C ++ D) ->
    exists h', l_splice_all dbg t (Some (hd t D)) x h = LOk tt h' /\
      Rep h' (fset (fset F x (Some [])) t (Some (C ++ M ++ D))).
  Proof.
    intros R N Hx Ht. unfold l_splice_all. assert (E : (t =? x) = false) by now apply Nat.eqb_neq. rewrite E.
    destruct M as [|first M'].
    - exists h. split.
      + unfold lbind, lassert. destruct dbg; cbn [negb]; rewrite (empty_runs _ _ _ _ R Hx); reflexivity.
      + eapply Rep_ext; [|exact R]. intros u. unfold fset.
        destruct (Nat.eqb_spec u t) as [->|N1]; [exact Ht|]. destruct (Nat.eqb_spec u x) as [->|N2]; [exact Hx|reflexivity].
    - destruct (splice_other_runs h F t x [] M' first [] C D R N) as (h' & E1 & E2); [cbn; rewrite app_nil_r; exact Hx|exact Ht|].
      cbn [hd] in E1. exists h'. split.
      + unfold lbind at 1. assert (L : lassert dbg (negb false) h = LOk tt h) by (unfold lassert; destruct dbg; reflexivity).
        rewrite L. unfold lbind at 1. rewrite (empty_runs _ _ _ _ R Hx). unfold l_begin, get_nx, lbind, deref.
        rewrite (ring_next _ _ _ _ R Hx). exact E1.
      + exact E2.
  Qed.
End Ops.
