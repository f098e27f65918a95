(** What the callers of variable-size memory pools see: consequences of linearizability for Itron; the race without the mutex; StdCpp. *)
From Coq Require Import List NArith Bool Lia Arith.
Import ListNotations.
From Verif Require Import Spec.Linear Spec.VarPoolSpec OS.Sched OS.VarPoolModel OS.VarPoolProofs.

(** * the view of a run of the specification *)
Definition sees (s : vstate) (i : nat) (st : option (N * N * list (N * N))) : Prop :=
  match s i, st with
  | Some p, Some (size, addr, held) => v_size p = size /\ v_out p = held /\ (addr <> 0%N -> v_base p = addr) /\ pool_ok p
  | None, None => True
  | _, _ => False
  end.
Lemma sees_eq s s' i st : s' i = s i -> sees s i st -> sees s' i st.
Proof. unfold sees. now intros ->. Qed.
Lemma vset_same f i x : vset f i x i = x.
Proof. unfold vset. now rewrite Nat.eqb_refl. Qed.
Lemma vset_other f i j x : i <> j -> vset f i x j = f j.
Proof. intros H. unfold vset. destruct (Nat.eqb_spec j i); [congruence|reflexivity]. Qed.
Lemma sees_step max us s t c r s' i st : vspec max us s t c r s' -> sees s i st -> sees s' i (view_step i st (t, c, r)).
Proof.
  intros SP V. destruct c as [size addr|j|j n|j a]; cbn in SP.
  - destruct r; cbn; try tauto; try (destruct SP as (_ & SP); now apply (sees_eq s); [rewrite (SP i)|]).
    destruct SP as (_ & _ & NZ & base & B1 & B2 & _ & SP). destruct (Nat.eqb_spec i0 i) as [->|N].
    + unfold sees. rewrite (SP i), vset_same. split; [reflexivity|]. split; [reflexivity|]. split; [exact B2|now apply pool_ok_new].
    + apply (sees_eq s); [|exact V]. now rewrite (SP i), vset_other.
  - destruct SP as (-> & SP). cbn. destruct (Nat.eqb_spec j i) as [->|N].
    + unfold sees. now rewrite (SP i), vset_same.
    + apply (sees_eq s); [|exact V]. now rewrite (SP i), vset_other.
  - destruct (s j) as [p|] eqn:EJ.
    + destruct r; cbn; try tauto.
      * destruct SP as (F & SP). destruct (Nat.eqb_spec j i) as [->|N].
        -- unfold sees in V. rewrite EJ in V. destruct st as [[[sz ad] h]|]; [|tauto]. destruct V as (V1 & V2 & V3 & V4). unfold sees. rewrite (SP i), vset_same. cbn.
           split; [exact V1|]. split; [now rewrite V2|]. split; [exact V3|]. now apply pool_ok_get.
        -- apply (sees_eq s); [|exact V]. now rewrite (SP i), vset_other.
      * destruct SP as (_ & SP). now apply (sees_eq s); [rewrite (SP i)|].
    + destruct SP as (-> & SP). cbn. now apply (sees_eq s); [rewrite (SP i)|].
  - destruct SP as (-> & SP). cbn. destruct (s j) as [p|] eqn:EJ.
    + destruct (Nat.eqb_spec j i) as [->|N].
      * unfold sees in V. rewrite EJ in V. destruct st as [[[sz ad] h]|]; [|tauto]. destruct V as (V1 & V2 & V3 & V4). unfold sees. rewrite (SP i), vset_same. cbn.
        split; [exact V1|]. split; [now rewrite V2|]. split; [exact V3|]. now apply pool_ok_free.
      * apply (sees_eq s); [|exact V]. now rewrite (SP i), vset_other.
    + assert (V' : sees s' i st) by (apply (sees_eq s); [now rewrite (SP i)|exact V]). destruct (Nat.eqb_spec j i) as [->|N]; [|exact V'].
      destruct st as [[[sz ad] h]|]; [|exact V']. unfold sees in V. now rewrite EJ in V.
Qed.
Lemma sees_run max us s l s' : sp_run (vspec max us) s l s' -> forall i st, sees s i st -> sees s' i (fold_left (view_step i) l st).
Proof. intros R. induction R as [s|s t c r s1 l s' SP R IH]; intros i st V; [exact V|]. cbn [fold_left]. apply IH. eapply sees_step; eauto. Qed.
Lemma sees_view max us l s : sp_run (vspec max us) v_new l s -> forall i, sees s i (pool_view i l).
Proof. intros R i. apply (sees_run _ _ _ _ _ R). exact I. Qed.
(** pools in memory of the system's own do not overlap *)
Definition areas_apart (s : vstate) : Prop := forall i j p q, i <> j -> s i = Some p -> s j = Some q -> apart (v_base p) (v_size p) (v_base q) (v_size q).
Lemma apart_sym a n b m : apart a n b m -> apart b m a n.
Proof. unfold apart. tauto. Qed.
Lemma areas_upd s s' j p p' : areas_apart s -> s j = Some p -> v_base p' = v_base p -> v_size p' = v_size p -> veq s' (vset s j (Some p')) -> areas_apart s'.
Proof.
  intros A EJ B Z SP i k q q' N Q Q'. rewrite (SP i) in Q. rewrite (SP k) in Q'. unfold vset in *.
  destruct (Nat.eqb_spec i j) as [->|Ni]; destruct (Nat.eqb_spec k j) as [->|Nk]; try congruence.
  - injection Q as <-. rewrite B, Z. now apply (A j k p q').
  - injection Q' as <-. rewrite B, Z. now apply (A i j q p).
  - now apply (A i k q q').
Qed.
Lemma areas_eq s s' : veq s' s -> areas_apart s -> areas_apart s'.
Proof. intros E A i j p q N P Q. rewrite (E i) in P. rewrite (E j) in Q. now apply (A i j). Qed.
Lemma areas_step max us s t c r s' : vspec max us s t c r s' -> (forall size addr, c = VCreate size addr -> addr = 0%N) -> areas_apart s -> areas_apart s'.
Proof.
  intros SP Z A. destruct c as [size addr|j|j n|j a]; cbn in SP.
  - specialize (Z _ _ eq_refl). destruct r; try tauto; try (now apply (areas_eq s); [apply SP|]).
    destruct SP as (_ & SI & NZ & base & B1 & _ & B3 & SP). specialize (B3 Z). intros j k p q N P Q. rewrite (SP j) in P. rewrite (SP k) in Q. unfold vset in *.
    destruct (Nat.eqb_spec j i) as [->|Nj]; destruct (Nat.eqb_spec k i) as [->|Nk]; try congruence.
    + injection P as <-. cbn. now apply (B3 k).
    + injection Q as <-. cbn. apply apart_sym. now apply (B3 j).
    + now apply (A j k).
  - destruct SP as (_ & SP). intros i k p q N P Q. rewrite (SP i) in P. rewrite (SP k) in Q. unfold vset in *. destruct (Nat.eqb i j), (Nat.eqb k j); try discriminate. now apply (A i k).
  - destruct (s j) as [p|] eqn:EJ; [|now apply (areas_eq s); [apply SP|]]. destruct r; try tauto; [|now apply (areas_eq s); [apply SP|]].
    destruct SP as (_ & SP). refine (areas_upd s s' j p _ A EJ _ _ SP); reflexivity.
  - destruct SP as (_ & SP). destruct (s j) as [p|] eqn:EJ; [|now apply (areas_eq s)]. refine (areas_upd s s' j p _ A EJ _ _ SP); reflexivity.
Qed.
Lemma areas_run max us s l s' : sp_run (vspec max us) s l s' -> (forall t size addr r, In (t, VCreate size addr, r) l -> addr = 0%N) -> areas_apart s -> areas_apart s'.
Proof.
  intros R. induction R as [s|s t c r s1 l s' SP R IH]; intros Z A; [exact A|]. apply IH; [intros; eapply Z; right; eauto|].
  apply (areas_step _ _ _ _ _ _ _ SP); [|exact A]. intros size addr ->. apply (Z t size addr r). now left.
Qed.

(** * Itron *)
Section I.
  Variables (max nids : nat) (us : vpool -> N -> N -> bool).
  Notation step := (y_step max nids us true).
  Lemma y_spec_run ls s es : exec step y_init ls = Some (s, es) -> exists a, sp_run (vspec max us) v_new (effects es) a.
  Proof. intros E. destruct (y_reach _ _ _ _ _ _ E) as (_ & f & a & L & _). exists a. exact (lin_run_effects _ _ _ _ _ _ _ _ _ L). Qed.
  Theorem y_blocks ls s es i size addr held : exec step y_init ls = Some (s, es) -> pool_view i (effects es) = Some (size, addr, held) ->
    all_apart held /\ (total held <= size)%N /\
    exists base, base <> 0%N /\ (addr <> 0%N -> base = addr) /\ forall a n, In (a, n) held -> n <> 0%N /\ inside base size a n.
  Proof.
    intros E V. destruct (y_spec_run _ _ _ E) as (a & R). pose proof (sees_view _ _ _ _ R i) as S. rewrite V in S. unfold sees in S. destruct (a i) as [p|]; [|tauto].
    destruct S as (<- & <- & B & K). pose proof K as (K1 & K2 & K3). split; [exact K2|]. split; [now apply pool_total|]. exists (v_base p).
    split; [exact K1|]. split; [exact B|exact K3].
  Qed.
  Theorem y_pools_apart ls s es : exec step y_init ls = Some (s, es) -> (forall t size addr r, In (t, VCreate size addr, r) (effects es) -> addr = 0%N) ->
    forall i j si ai hi sj aj hj a n b m, i <> j -> pool_view i (effects es) = Some (si, ai, hi) -> pool_view j (effects es) = Some (sj, aj, hj) ->
      In (a, n) hi -> In (b, m) hj -> apart a n b m.
  Proof.
    intros E Z i j si ai hi sj aj hj a n b m N VI VJ HI HJ. destruct (y_spec_run _ _ _ E) as (x & R).
    assert (A : areas_apart x). { apply (areas_run _ _ _ _ _ R Z). intros ? ? ? ? ? H. discriminate. }
    pose proof (sees_view _ _ _ _ R i) as S. rewrite VI in S. unfold sees in S. destruct (x i) as [p|] eqn:EP; [|tauto]. destruct S as (<- & <- & _ & (_ & _ & K)).
    pose proof (sees_view _ _ _ _ R j) as S. rewrite VJ in S. unfold sees in S. destruct (x j) as [q|] eqn:EQ; [|tauto]. destruct S as (<- & <- & _ & (_ & _ & K')).
    destruct (K _ _ HI) as (_ & L1 & L2). destruct (K' _ _ HJ) as (_ & L3 & L4). destruct (A i j p q N EP EQ) as [X|X]; [left|right]; lia.
  Qed.
End I.
(** a kernel without alignment and overhead: allocate gives null only if the pool has no such free piece *)
Theorem y_null_full max nids ls s es l1 t i n l2 size addr held : exec (y_step max nids (fun _ _ _ => true) true) y_init ls = Some (s, es) ->
  effects es = l1 ++ (t, VAlloc i n, VNull) :: l2 -> pool_view i l1 = Some (size, addr, held) -> n <> 0%N ->
  exists base, base <> 0%N /\ (addr <> 0%N -> base = addr) /\ forall a, inside base size a n -> exists b m, In (b, m) held /\ ~ apart a n b m.
Proof.
  intros E F V NZ. destruct (y_spec_run _ _ _ _ _ _ E) as (x & R). rewrite F in R. apply sp_run_app_inv in R. destruct R as (s1 & R1 & R2).
  inversion R2 as [|? ? ? ? s2 ? ? SP R3]; subst. cbn in SP. pose proof (sees_view _ _ _ _ R1 i) as S. rewrite V in S. unfold sees in S. destruct (s1 i) as [p|]; [|tauto].
  destruct S as (<- & <- & B & (K1 & _)). destruct SP as (SP & _). exists (v_base p). split; [exact K1|]. split; [exact B|]. intros a (A1 & A2).
  assert (D : forall l, (exists b m, In (b, m) l /\ ~ apart a n b m) \/ forall b m, In (b, m) l -> apart a n b m).
  { induction l as [|(b, m) l IH]; [right; intros ? ? []|]. destruct (apartb a n b m) eqn:AB.
    - apply apartb_iff in AB. destruct IH as [(b' & m' & X & Y)|IH]; [left; exists b', m'; split; [now right|exact Y]|]. right. intros b' m' [[= <- <-]|X]; auto.
    - left. exists b, m. split; [now left|]. intros X. apply apartb_iff in X. congruence. }
  destruct (D (v_out p)) as [X|X]; [exact X|]. exfalso. assert (Y : true = false); [|discriminate]. apply (SP a). repeat split; auto.
Qed.

(** ** without the mutex *)
Definition yrace_schedule : list ylab :=
  [UCall 1 (VCreate 16 0); UCall 2 (VCreate 32 0); UStep 1; UStep 2; UStep 1; UStep 2; UAcre 1 7 100; UAcre 2 9 200; UStep 1; UStep 2; UStep 1; UStep 2; UStep 1; UStep 2].
Definition yrets0 (es : yout) : nat := length (filter (fun e => match e with Ret _ (VPool 0) => true | _ => false end) es).
Definition yroom (k : nat) (f : nat -> status vcall vres) (s : vstate) : Prop :=
  match k with
  | 0 => s 0 <> None /\ forall t, f t <> Done (VPool 0)
  | _ => (s 0 <> None /\ exists w, forall t, f t = Done (VPool 0) -> t = w) \/ (s 0 = None /\ forall t, f t <> Done (VPool 0))
  end.
Lemma yroom_set k f s t x : yroom k f s -> x <> Done (VPool 0) -> yroom k (set_st f t x) s.
Proof.
  intros R X. destruct k; cbn in *.
  - destruct R as (A & B). split; [exact A|]. intros u. unfold set_st. destruct (Nat.eqb u t); auto.
  - destruct R as [(A & w & B)|(A & B)]; [left|right]; (split; [exact A|]).
    + exists w. intros u. unfold set_st. destruct (Nat.eqb u t); auto. intros Y. now elim X.
    + intros u. unfold set_st. destruct (Nat.eqb u t); auto.
Qed.
Lemma yroom_eq k f s s' : s' 0 = s 0 -> yroom k f s -> yroom k f s'.
Proof. intros E. destruct k; cbn; rewrite E; auto. Qed.
Lemma y_one_pool_0 max us es f s f' s' : lin_run (vspec max us) f s es f' s' ->
  (forall t c, In (Call t c) es -> exists size addr, c = VCreate size addr) -> (forall t c, f t = Pending c -> exists size addr, c = VCreate size addr) ->
  forall k, yroom k f s -> yrets0 es <= k.
Proof.
  intros L. induction L as [f s|f s t c es f' s' O L IH|f s t c r s1 es f' s' O SP L IH|f s t r es f' s' O L IH]; intros NC PC k R.
  - cbn. lia.
  - unfold yrets0. cbn [filter]. apply IH; [intros; apply (NC t0); now right| |apply yroom_set; [exact R|discriminate]].
    intros t0 c0. unfold set_st. destruct (Nat.eqb t0 t); [|apply PC]. intros [= <-]. apply (NC t). now left.
  - unfold yrets0. cbn [filter]. apply IH; [intros; apply (NC t0); now right| |].
    { intros t0 c0. unfold set_st. destruct (Nat.eqb t0 t); [discriminate|apply PC]. }
    destruct (PC _ _ O) as (size & addr & ->). cbn in SP.
    assert (Z : r <> VPool 0 -> s1 0 = s 0).
    { intros Z. destruct r; try tauto; [|destruct SP as (_ & SP)..]; try (now rewrite (SP 0)). destruct SP as (_ & _ & _ & base & _ & _ & _ & SP). rewrite (SP 0). unfold vset.
      destruct i; [congruence|reflexivity]. }
    assert (D : r = VPool 0 \/ r <> VPool 0) by (destruct r as [|[|i]| | | | |]; auto; right; discriminate).
    destruct D as [-> |D].
    + destruct SP as (_ & S0 & _ & base & _ & _ & _ & SP). destruct k; cbn in R; [tauto|]. cbn. left. destruct R as [(A & _)|(A & B)]; [congruence|].
      split; [rewrite (SP 0); unfold vset; cbn; discriminate|]. exists t. intros u. unfold set_st. destruct (Nat.eqb_spec u t); [auto|]. intros X. now elim (B u).
    + apply (yroom_eq _ _ s); [now apply Z|]. apply yroom_set; [exact R|congruence].
  - assert (D : r = VPool 0 \/ r <> VPool 0) by (destruct r as [|[|i]| | | | |]; auto; right; discriminate).
    assert (PC' : forall t0 c0, set_st f t Out t0 = Pending c0 -> exists size addr, c0 = VCreate size addr).
    { intros t0 c0. unfold set_st. destruct (Nat.eqb t0 t); [discriminate|apply PC]. }
    destruct D as [-> |D].
    + unfold yrets0. cbn [filter length]. destruct k; cbn in R; [destruct R as (_ & R); now elim (R t)|]. destruct R as [(A & w & B)|(_ & R)]; [|now elim (R t)].
      enough (yrets0 es <= 0) by (unfold yrets0 in *; lia). apply IH; [intros; apply (NC t0); now right|exact PC'|]. cbn. split; [exact A|].
      intros u. unfold set_st. destruct (Nat.eqb_spec u t) as [->|N]; [discriminate|]. intros X. apply B in X. apply B in O. congruence.
    + replace (yrets0 (Ret t r :: es)) with (yrets0 es).
      * apply IH; [intros; apply (NC t0); now right|exact PC'|]. apply yroom_set; [exact R|discriminate].
      * unfold yrets0. cbn [filter]. destruct r as [|[|i]| | | | |]; try reflexivity. congruence.
Qed.
Lemma in_history {C R} (e : event C R) es : visible e = true -> (In e es <-> In e (history es)).
Proof. intros V. unfold history. rewrite filter_In. tauto. Qed.
Lemma yrets0_history es : yrets0 (history es) = yrets0 es.
Proof.
  unfold yrets0, history. f_equal. induction es as [|e es IH]; [reflexivity|]. destruct e as [t c|t c r|t r]; cbn; auto.
  destruct r as [|[|i]| | | | |]; cbn; now rewrite IH.
Qed.
Lemma y_same_slot_not_lin max us : ~ linearizable (vspec max us) v_new [Call 1 (VCreate 16 0); Call 2 (VCreate 32 0); Ret 1 (VPool 0); Ret 2 (VPool 0)].
Proof.
  intros (es & f & a & H & L).
  assert (X : yrets0 es <= 1).
  { apply (y_one_pool_0 _ _ _ _ _ _ _ L); [|discriminate|right; split; [reflexivity|discriminate]].
    intros t c I. apply in_history in I; [|reflexivity]. rewrite H in I. destruct I as [I|[I|[I|[I|[]]]]]; try discriminate; injection I as <- <-; eauto. }
  rewrite <- yrets0_history, H in X. cbn in X. lia.
Qed.
Theorem y_race : ~ (forall max nids us ls s es, exec (y_step max nids us false) y_init ls = Some (s, es) -> linearizable (vspec max us) v_new (history es)).
Proof.
  intros H. specialize (H 4 10 (fun _ _ _ => true) yrace_schedule). destruct (exec (y_step 4 10 (fun _ _ _ => true) false) y_init yrace_schedule) as [[s es]|] eqn:E; [|vm_compute in E; discriminate].
  specialize (H s es eq_refl). vm_compute in E. injection E as <- <-. exact (y_same_slot_not_lin _ _ H).
Qed.

(** * StdCpp *)
Definition g_cs (q : gpc) : bool := match q with GNew _ _ | GDelete _ | GUnlock _ => true | _ => false end.
Definition gok (q : gpc) : Prop :=
  match q with
  | GLock c => match c with VCreate size _ => size <> 0%N | VDestroy _ => True | _ => False end
  | GAt c => match c with VCreate _ _ | VDestroy _ => False | _ => True end
  | GNew size _ => size <> 0%N
  | _ => True
  end.
Record ginv (s : gst) : Prop := { gi_lock : forall t, g_cs (g_thr s t) = true <-> g_mtx s = Some t; gi_thr : forall t, gok (g_thr s t) }.
Lemma ginv_upd s t q p h m : ginv s -> gok q ->
  ((g_cs (g_thr s t) = g_cs q /\ m = g_mtx s) \/ (g_cs (g_thr s t) = true /\ g_cs q = false /\ m = None) \/ (g_mtx s = None /\ g_cs q = true /\ m = Some t)) ->
  ginv (mkG p h m (fupd (g_thr s) t q)).
Proof.
  intros [LK TH] K D. constructor; cbn; intros u; rewrite fupd_eq; destruct (Nat.eqb_spec u t) as [->|N]; auto.
  - destruct D as [(A & ->)|[(A & B & ->)|(A & B & ->)]]; [rewrite <- A; apply LK|rewrite B; split; discriminate|rewrite B; tauto].
  - destruct D as [(A & ->)|[(A & B & ->)|(A & B & ->)]]; [apply LK| |].
    + split; [|discriminate]. intros X. apply LK in X. apply LK in A. congruence.
    + split; [|congruence]. intros X. apply LK in X. congruence.
Qed.
Lemma ginv_step s l s' e : ginv s -> g_step s l = Some (s', e) -> ginv s'.
Proof.
  intros I E. pose proof (gi_thr s I) as TH. destruct l as [t c|t|t oi|t a]; cbn beta iota delta [g_step] in E; specialize (TH t); destruct (g_thr s t) as [|c'|size addr|i|r|c'|r] eqn:ET; try discriminate; cbn in TH.
  - destruct c as [size addr|i|i n|i a]; try (injection E as <- <-; apply ginv_upd; [exact I|exact Logic.I|left; now rewrite ET]).
    destruct (N.eqb_spec size 0); injection E as <- <-; (apply ginv_upd; [exact I|cbn; auto|left; now rewrite ET]).
  - destruct (g_mtx s) eqn:EM; [discriminate|]. injection E as <- <-. apply ginv_upd; [exact I| |]; destruct c'; cbn in TH; try tauto; right; right; now rewrite EM.
  - injection E as <- <-. apply ginv_upd; [exact I|exact Logic.I|left; now rewrite ET].
  - injection E as <- <-. apply ginv_upd; [exact I|exact Logic.I|right; left; now rewrite ET].
  - destruct c'; try discriminate. injection E as <- <-. apply ginv_upd; [exact I|exact Logic.I|left; now rewrite ET].
  - injection E as <- <-. apply ginv_upd; [exact I|exact Logic.I|left; now rewrite ET].
  - destruct oi as [i|]; [destruct (g_pool s i); [discriminate|]|]; injection E as <- <-; (apply ginv_upd; [exact I|exact Logic.I|left; now rewrite ET]).
  - destruct c'; try discriminate. destruct (N.eqb a 0); [|destruct (forallb _ _); [|discriminate]]; injection E as <- <-; (apply ginv_upd; [exact I|exact Logic.I|left; now rewrite ET]).
Qed.
Lemma ginv_init : ginv g_init.
Proof. constructor; cbn; [|exact (fun _ => I)]. intros; split; discriminate. Qed.
Definition gst_of (q : gpc) : status vcall vres :=
  match q with
  | GIdle => Out | GLock c | GAt c => Pending c | GNew size addr => Pending (VCreate size addr) | GDelete i => Pending (VDestroy i) | GUnlock r | GRet r => Done r
  end.
Definition gabs (s : gst) : hstate := mkH (g_pool s) (g_heap s).
Definition glin (s : gst) (es : yout) : Prop :=
  exists f a, lin_run hspec (fun _ => Out) h_new es f a /\ (forall t, f t = gst_of (g_thr s t)) /\ heq a (gabs s).
Lemma heq_refl s : heq s s. Proof. split; auto. Qed.
Lemma heq_trans s s' s'' : heq s s' -> heq s' s'' -> heq s s''.
Proof. intros (A & B) (C & D). split; [intros i; now rewrite A|congruence]. Qed.
Lemma heq_sym s s' : heq s s' -> heq s' s.
Proof. intros (A & B). split; auto. Qed.
Lemma hspec_pre a a' t c r b : heq a a' -> hspec a' t c r b -> hspec a t c r b.
Proof.
  intros (P & Q) H. destruct c as [size addr|i|i n|i x]; cbn in *.
  - destruct r; auto.
    + destruct H as (A & B & C & D). rewrite P, Q. split; [exact A|]. split; [exact B|]. split; [|exact D]. intros j. rewrite C. cbn. destruct (Nat.eqb j i); auto.
    + destruct H as (A & B). split; [intros i; now rewrite P|congruence].
    + destruct H as (X & A & B). split; [exact X|]. split; [intros i; now rewrite P|congruence].
  - destruct H as (X & A & B). split; [exact X|]. split; [|cbn in *; congruence]. intros j. rewrite A. cbn. destruct (Nat.eqb j i); auto.
  - destruct r; auto.
    + rewrite Q. destruct H as (X & Y & A & B). split; [exact X|]. split; [exact Y|]. split; [|exact B]. intros j. rewrite A. cbn. auto.
    + destruct H as (A & B). split; [intros j; now rewrite P|congruence].
  - destruct H as (X & A & B). split; [exact X|]. rewrite Q. split; [|exact B]. intros j. rewrite A. cbn. auto.
Qed.
Lemma glin_gen s es s' t q e : glin s es -> g_thr s' = fupd (g_thr s) t q ->
  match e with
  | [] => gst_of q = gst_of (g_thr s t) /\ heq (gabs s') (gabs s)
  | [Call u c] => u = t /\ gst_of (g_thr s t) = Out /\ gst_of q = Pending c /\ heq (gabs s') (gabs s)
  | [Call u c; Eff v c' r] => u = t /\ v = t /\ c' = c /\ gst_of (g_thr s t) = Out /\ gst_of q = Done r /\ hspec (gabs s) t c r (gabs s')
  | [Eff u c r] => u = t /\ gst_of (g_thr s t) = Pending c /\ gst_of q = Done r /\ hspec (gabs s) t c r (gabs s')
  | [Ret u r] => u = t /\ gst_of (g_thr s t) = Done r /\ gst_of q = Out /\ heq (gabs s') (gabs s)
  | _ => False
  end -> glin s' (es ++ e).
Proof.
  intros (f & a & L & F & A) ET H.
  assert (G : forall x u, gst_of q = x -> set_st f t x u = gst_of (g_thr s' u)).
  { intros x u <-. unfold set_st. rewrite ET, fupd_eq. destruct (Nat.eqb u t); auto. }
  destruct e as [|[u c|u c r|u r] [|[v d|v d r'|v r'] [|]]]; try tauto.
  - destruct H as (H1 & H2). rewrite app_nil_r. exists f, a. split; [exact L|]. split; [|now apply (heq_trans _ _ _ A), heq_sym].
    intros u. rewrite F, ET, fupd_eq. destruct (Nat.eqb_spec u t) as [->|]; auto.
  - destruct H as (-> & H1 & H2 & H3). exists (set_st f t (Pending c)), a. split; [|split; [auto|now apply (heq_trans _ _ _ A), heq_sym]].
    apply (lin_run_app _ _ _ _ _ _ _ _ _ _ _ _ L). constructor; [now rewrite F|constructor].
  - destruct H as (-> & -> & -> & H1 & H2 & H3). exists (set_st (set_st f t (Pending c)) t (Done r')), (gabs s'). split; [|split; [|apply heq_refl]].
    + apply (lin_run_app _ _ _ _ _ _ _ _ _ _ _ _ L). constructor; [now rewrite F|]. econstructor; [unfold set_st; now rewrite Nat.eqb_refl|exact (hspec_pre _ _ _ _ _ _ A H3)|constructor].
    + intros u. rewrite <- (G _ u H2). unfold set_st. destruct (Nat.eqb u t); auto.
  - destruct H as (-> & H1 & H2 & H3). exists (set_st f t (Done r)), (gabs s'). split; [|split; [auto|apply heq_refl]].
    apply (lin_run_app _ _ _ _ _ _ _ _ _ _ _ _ L). econstructor; [now rewrite F|exact (hspec_pre _ _ _ _ _ _ A H3)|constructor].
  - destruct H as (-> & H1 & H2 & H3). exists (set_st f t Out), a. split; [|split; [auto|now apply (heq_trans _ _ _ A), heq_sym]].
    apply (lin_run_app _ _ _ _ _ _ _ _ _ _ _ _ L). constructor; [now rewrite F|constructor].
Qed.
Lemma glin_step s es l s' e : ginv s -> glin s es -> g_step s l = Some (s', e) -> glin s' (es ++ e).
Proof.
  intros I L E. pose proof (gi_thr s I) as TH.
  destruct l as [t c|t|t oi|t a]; cbn beta iota delta [g_step] in E; specialize (TH t); destruct (g_thr s t) as [|c'|size addr|i|r|c'|r] eqn:ET; try discriminate; cbn in TH.
  - destruct c as [size addr|i|i n|i a]; try (injection E as <- <-; eapply (glin_gen s es); [exact L|reflexivity|]; rewrite ET; repeat split; reflexivity).
    destruct (N.eqb_spec size 0) as [Z|Z]; injection E as <- <-; (eapply (glin_gen s es); [exact L|reflexivity|]; rewrite ET; repeat split; try reflexivity; exact Z).
  - destruct (g_mtx s); [discriminate|]. injection E as <- <-. eapply (glin_gen s es); [exact L|reflexivity|]. rewrite ET. split; [|apply heq_refl]. destruct c'; cbn in TH; try tauto; reflexivity.
  - injection E as <- <-. eapply (glin_gen s es); [exact L|reflexivity|]. rewrite ET. repeat split; reflexivity.
  - injection E as <- <-. eapply (glin_gen s es); [exact L|reflexivity|]. rewrite ET. repeat split; reflexivity.
  - destruct c' as [| | |i a]; try discriminate. injection E as <- <-. eapply (glin_gen s es); [exact L|reflexivity|]. rewrite ET. repeat split; reflexivity.
  - injection E as <- <-. eapply (glin_gen s es); [exact L|reflexivity|]. rewrite ET. repeat split; reflexivity.
  - destruct oi as [i|]; [destruct (g_pool s i) eqn:P; [discriminate|]|]; injection E as <- <-; (eapply (glin_gen s es); [exact L|reflexivity|]; rewrite ET; cbn).
    + split; [reflexivity|]. split; [reflexivity|]. split; [reflexivity|]. split; [exact P|]. split; [exact TH|]. apply heq_refl.
    + split; [reflexivity|]. split; [reflexivity|]. split; [reflexivity|]. apply heq_refl.
  - destruct c' as [| |i n|]; try discriminate. destruct (N.eqb_spec a 0) as [Z|Z].
    + injection E as <- <-. eapply (glin_gen s es); [exact L|reflexivity|]. rewrite ET. repeat split; reflexivity.
    + destruct (forallb _ _) eqn:FB; [|discriminate]. injection E as <- <-. eapply (glin_gen s es); [exact L|reflexivity|]. rewrite ET. cbn.
      split; [reflexivity|]. split; [reflexivity|]. split; [reflexivity|]. split; [exact Z|]. split; [|apply heq_refl].
      rewrite forallb_forall in FB. intros b m X. specialize (FB _ X). cbn in FB. apply andb_true_iff in FB. destruct FB as (F1 & F2). apply apartb_iff in F1. apply negb_true_iff, N.eqb_neq in F2. auto.
Qed.
Lemma g_reach ls s es : exec g_step g_init ls = Some (s, es) -> ginv s /\ glin s es.
Proof.
  intros E. refine (exec_inv _ _ _ g_step (fun s es => ginv s /\ glin s es) _ ls g_init [] s es (conj ginv_init _) E).
  - intros s0 es0 l s1 es1 (A & B) E1. split; [exact (ginv_step _ _ _ _ A E1)|exact (glin_step _ _ _ _ _ A B E1)].
  - exists (fun _ => Out), h_new. split; [constructor|]. split; [reflexivity|]. split; reflexivity.
Qed.
Theorem g_linearizable ls s es : exec g_step g_init ls = Some (s, es) -> linearizable hspec h_new (history es).
Proof. intros E. destruct (g_reach _ _ _ E) as (_ & f & a & L & _). exists es, f, a. auto. Qed.
Lemma h_view s l s' : sp_run hspec s l s' -> h_out s' = fold_left heap_step l (h_out s) /\ (all_apart (h_out s) -> all_apart (h_out s')).
Proof.
  intros R. induction R as [s|s t c r s1 l s' SP R IH]; [split; auto|]. cbn [fold_left].
  assert (X : h_out s1 = heap_step (h_out s) (t, c, r) /\ (all_apart (h_out s) -> all_apart (h_out s1))).
  { destruct c as [size addr|i|i n|i a]; cbn in SP.
    - destruct r; try tauto; cbn; [destruct SP as (_ & _ & _ & ->)|destruct SP as (_ & ->)|destruct SP as (_ & _ & ->)]; split; auto.
    - destruct SP as (_ & _ & ->). split; auto.
    - destruct r; try tauto; cbn; [destruct SP as (_ & AP & _ & ->)|destruct SP as (_ & ->)]; split; auto. cbn. intros A. split; [|exact A]. intros b m H. now apply AP.
    - destruct SP as (_ & _ & ->). cbn. split; [reflexivity|]. apply all_apart_filter. }
  destruct X as (X1 & X2). rewrite <- X1. destruct IH as (I1 & I2). auto.
Qed.
Theorem g_blocks ls s es : exec g_step g_init ls = Some (s, es) -> g_heap s = heap_view (effects es) /\ all_apart (heap_view (effects es)).
Proof.
  intros E. destruct (g_reach _ _ _ E) as (_ & f & a & L & _ & _ & A). apply lin_run_effects in L. destruct (h_view _ _ _ L) as (B & C). cbn in A, B.
  unfold heap_view. rewrite <- B. split; [now symmetry|]. apply C. exact I.
Qed.
Theorem g_progress ls s es : exec g_step g_init ls = Some (s, es) -> g_stuck s -> forall t, g_idle s t.
Proof.
  intros E ST. destruct (g_reach _ _ _ E) as (I & _). pose proof I as [LK TH]. clear E.
  assert (CS : forall t, g_cs (g_thr s t) = false).
  { intros t. destruct (g_cs (g_thr s t)) eqn:X; [|reflexivity]. pose proof (ST (WStep t) Logic.I) as A. pose proof (ST (WNew t None) Logic.I) as B. unfold g_step in A, B.
    destruct (g_thr s t); cbn in X; discriminate. }
  intros t. unfold g_idle. pose proof (ST (WStep t) Logic.I) as A. pose proof (ST (WMalloc t 0%N) Logic.I) as B. specialize (TH t). specialize (CS t) as CT. unfold g_step in A, B.
  destruct (g_thr s t) as [|c|size addr|i|r|c|r] eqn:ET; try discriminate; [reflexivity| |].
  - destruct (g_mtx s) as [u|] eqn:EM; [|discriminate]. pose proof (proj2 (LK u) eq_refl) as X. rewrite CS in X. discriminate.
  - cbn in TH. destruct c; try tauto; discriminate.
Qed.
(** the pool size is ignored; so is the memory given; and destroy gives nothing back *)
Definition g_run : list glab := [WCall 1 (VCreate 16 1000); WStep 1; WNew 1 (Some 0); WStep 1; WStep 1; WCall 1 (VAlloc 0 100); WMalloc 1 5000; WStep 1].
Theorem g_size_ignored : ~ (forall ls s es i size addr held, exec g_step g_init ls = Some (s, es) -> pool_view i (effects es) = Some (size, addr, held) -> (total held <= size)%N).
Proof.
  intros H. specialize (H g_run). destruct (exec g_step g_init g_run) as [[s es]|] eqn:E; [|vm_compute in E; discriminate].
  vm_compute in E. injection E as <- <-. specialize (H _ _ 0 16%N 1000%N [(5000, 100)]%N eq_refl eq_refl). vm_compute in H. now apply H.
Qed.
Theorem g_memory_ignored : ~ (forall ls s es i size addr held a n, exec g_step g_init ls = Some (s, es) -> pool_view i (effects es) = Some (size, addr, held) ->
  addr <> 0%N -> (n <= size)%N -> In (a, n) held -> inside addr size a n).
Proof.
  intros H. specialize (H [WCall 1 (VCreate 16 1000); WStep 1; WNew 1 (Some 0); WStep 1; WStep 1; WCall 1 (VAlloc 0 8); WMalloc 1 5000; WStep 1]).
  destruct (exec g_step g_init _) as [[s es]|] eqn:E; [|vm_compute in E; discriminate].
  vm_compute in E. injection E as <- <-. specialize (H _ _ 0 16%N 1000%N [(5000, 8)]%N 5000%N 8%N eq_refl eq_refl ltac:(discriminate) ltac:(discriminate) (or_introl eq_refl)).
  destruct H as (_ & H). vm_compute in H. now apply H.
Qed.
Theorem g_destroy_leaks : ~ (forall ls s es, exec g_step g_init ls = Some (s, es) -> (forall t, g_idle s t) -> (forall i, pool_view i (effects es) = None) -> g_heap s = []).
Proof.
  intros H. specialize (H (g_run ++ [WCall 1 (VDestroy 0); WStep 1; WStep 1; WStep 1; WStep 1])).
  destruct (exec g_step g_init _) as [[s es]|] eqn:E; [|vm_compute in E; discriminate].
  vm_compute in E. injection E as <- <-. assert (X : [(5000%N, 100%N)] = []); [|discriminate]. refine (H _ _ eq_refl _ _).
  - intros t. unfold g_idle. cbn. do 2 (destruct t as [|t]; [reflexivity|]). reflexivity.
  - intros [|i]; reflexivity.
Qed.
