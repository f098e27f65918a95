(** Proofs about ThreadPool::create and destroy. *)
From Coq Require Import List Permutation ZArith Lia Arith Bool.
Import ListNotations.
From Verif Require Import Spec.Resource OS.Resources OS.MessageQueueModel OS.MessageQueueProofs OS.MessageQueueCreate OS.MessageQueueCreateProofs OS.ThreadPoolCreate.
Open Scope nat_scope.

(** holding, in any order *)
Definition hold (s : rst) (L : list res) : Prop := exists L', holds s L' /\ Permutation L' L.
Lemma hold_of s L : holds s L -> hold s L.
Proof. intros H. exists L. auto. Qed.
Lemma hold_perm s L M : hold s L -> Permutation L M -> hold s M.
Proof. intros (L' & H & P) Q. exists L'. split; [exact H|]. now rewrite P. Qed.
Lemma hold_release k id s L M : hold s L -> Permutation L ((k, id) :: M) -> (forall blk n, k = KPool blk -> ~ In (KBlock id, n) M) -> hold (release k id s) M.
Proof. intros (L' & H & P) Q N. apply hold_of. eapply holds_release; [exact H|now rewrite P|exact N]. Qed.
Lemma hold_nil s : hold s [] -> live (rs_tr s) [].
Proof. intros (L & H & P). apply Permutation_sym, Permutation_nil in P. subst L. exact (proj1 H). Qed.
Local Ltac nopool := let b := fresh in let n := fresh in let X := fresh in intros b n X; discriminate X.
Lemma hold_release_opt k o s L : (forall b, k <> KPool b) -> hold s ((match o with Some x => [(k, x)] | None => [] end) ++ L) -> hold (release_opt k o s) L.
Proof. intros NK H. destruct o as [x|]; cbn in *; [|exact H]. eapply hold_release; [exact H|reflexivity|]. intros b n E. now elim (NK b). Qed.
Lemma hold_mq_destroy h s L : (forall n, ~ In (KBlock (h_pool h), n) L) -> hold s (part h ++ L) -> hold (mq_destroy (Some h) s) L.
Proof.
  intros NB H. destruct h as [pool size blk a b c d]. unfold part, mq_destroy in *. cbn [h_pool h_size h_blk h_rb h_send h_recv h_ev] in *.
  rewrite <- !app_assoc in H.
  apply hold_release_opt in H; [|discriminate]. apply hold_release_opt in H; [|discriminate]. apply hold_release_opt in H; [|discriminate].
  apply hold_release_opt in H; [|discriminate]. cbn in H.
  eapply hold_release; [eapply hold_release; [exact H|reflexivity|nopool]|reflexivity|]. intros bk n _. apply NB.
Qed.

Section P.
  Variable orc : nat -> bool.
  Variables sTP sTR sMQ : Z.
  Notation create := (tp_create orc sTP sTR sMQ).
  Notation destroy := (tp_destroy sTP sTR).
  Notation members := (destroy_members sTR).

  (** the runners *)
  Lemma hold_runners rp : forall q s L, hold s (flat_map (runner_res rp) q ++ L) -> hold (fold_left (destroy_runner rp) q s) L.
  Proof.
    induction q as [|r q IH]; intros s L H; [exact H|]. cbn [fold_left]. apply IH. cbn in H. unfold destroy_runner.
    eapply hold_release; [eapply hold_release; [eapply hold_release; [exact H| |nopool]|reflexivity|nopool]|reflexivity|nopool].
    apply perm_swap.
  Qed.
  Lemma runners_mono rp (q : list runner) n p : In (KBlock p, n) (flat_map (runner_res rp) q) -> p = rp.
  Proof. intros X. apply in_flat_map in X. destruct X as (r & _ & X). cbn in X. repeat destruct X as [X|X]; try discriminate; try contradiction. now injection X. Qed.
  Lemma build_ok rp vmax L : forall todo done q s, hold s (flat_map (runner_res rp) q ++ L) ->
    match build orc todo rp vmax done q s with
    | (Built q', s') => hold s' (flat_map (runner_res rp) q' ++ L) /\ length q' = length q + todo
    | (Failed q', s') => hold s' (flat_map (runner_res rp) q' ++ L)
    | (Threw, s') => (vmax < Z.of_nat (done + todo))%Z
    end.
  Proof.
    induction todo as [|n IH]; intros done q s (L' & H & P); cbn [build].
    - split; [exists L'; auto|lia].
    - pose proof (holds_acquire orc (KBlock rp) s L' H) as H1. destruct (acquire orc (KBlock rp) s) as [[p|] s1]; [|exists L'; auto]. destruct H1 as (H1 & _).
      pose proof (holds_acquire orc KEvent s1 _ H1) as H2. destruct (acquire orc KEvent s1) as [[e|] s2].
      2:{ eapply hold_perm; [|exact P]. eapply hold_release; [apply hold_of; exact H2|reflexivity|nopool]. }
      destruct H2 as (H2 & _). pose proof (holds_acquire orc KThread s2 _ H2) as H3. destruct (acquire orc KThread s2) as [[t|] s3].
      2:{ eapply hold_perm; [|exact P]. eapply hold_release; [eapply hold_release; [apply hold_of; exact H3|reflexivity|nopool]|reflexivity|nopool]. }
      destruct H3 as (H3 & _). destruct (Z.ltb_spec (Z.of_nat done) vmax); [|lia].
      specialize (IH (S done) (q ++ [mkRn p e t]) s3).
      assert (X : hold s3 (flat_map (runner_res rp) (q ++ [mkRn p e t]) ++ L)).
      { eapply hold_perm; [apply hold_of; exact H3|]. rewrite flat_map_app. cbn. rewrite <- app_assoc. cbn.
        etransitivity; [do 3 apply perm_skip; exact P|].
        change ((KThread, t) :: (KEvent, e) :: (KBlock rp, p) :: flat_map (runner_res rp) q ++ L) with ([(KThread, t); (KEvent, e); (KBlock rp, p)] ++ flat_map (runner_res rp) q ++ L).
        rewrite (app_assoc [(KThread, t); (KEvent, e); (KBlock rp, p)]), (Permutation_app_comm [(KThread, t); (KEvent, e); (KBlock rp, p)]), <- app_assoc. reflexivity. }
      specialize (IH X). destruct (build orc n rp vmax (S done) (q ++ [mkRn p e t]) s3) as [[q'|q'|] s']; [|exact IH|].
      + destruct IH as (A & B). split; [exact A|]. rewrite app_length in B. cbn in B. lia.
      + now replace (done + S n) with (S done + n) by lia.
  Qed.

  (** what a pool owns besides the object itself *)
  Definition owned (n : nat) (h : tph) (q : list runner) : list res :=
    match t_rpool h with Some rp => flat_map (runner_res rp) q ++ [(KPool sTR, rp)] | None => [] end ++
    match t_tpool h, t_tmem h with Some tp, Some m => [(KBlock tp, m)] | _, _ => [] end ++
    match t_tpool h with Some tp => [(KPool (thread_mem_size n), tp)] | None => [] end ++
    match t_mq h with Some mq => part mq | None => [] end.
  Definition object (h : tph) : list res := [(KBlock (t_pool h), t_blk h); (KPool sTP, t_pool h)].
  (** the pools are different; construction goes from left to right *)
  Definition proper (h : tph) : Prop :=
    (t_mq h = None -> t_rpool h = None) /\ (t_tpool h = None -> t_tmem h = None) /\
    (forall mq, t_mq h = Some mq -> h_pool mq <> t_pool h) /\
    (forall tp, t_tpool h = Some tp -> tp <> t_pool h /\ forall mq, t_mq h = Some mq -> tp <> h_pool mq) /\
    (forall rp, t_rpool h = Some rp -> rp <> t_pool h /\ (forall mq, t_mq h = Some mq -> rp <> h_pool mq) /\ forall tp, t_tpool h = Some tp -> rp <> tp).
  Lemma part_blocks h p n : In (KBlock p, n) (part h) -> p = h_pool h.
  Proof.
    destruct h as [pool size blk a b c d]. unfold part. cbn. rewrite !in_app_iff. cbn.
    destruct a, b, c, d; cbn; intros X; repeat destruct X as [X|X]; try discriminate; try contradiction; now injection X.
  Qed.
  Lemma hold_destroy n h q s : proper h -> hold s (owned n h q ++ object h) -> live (rs_tr (destroy n h q s)) [].
  Proof.
    intros (O1 & O2 & D1 & D2 & D3) H. apply hold_nil. destruct h as [p0 b0 mq tp m rp]. unfold tp_destroy, drop_object, destroy_members, destroy_runners, destroy_threads, owned, object in *.
    cbn [t_pool t_blk t_mq t_tpool t_tmem t_rpool] in *.
    assert (OBJ : forall p k, In (KBlock p, k) [(KBlock p0, b0); (KPool sTP, p0)] -> p = p0) by (intros p k [X|[X|[]]]; [now injection X|discriminate]).
    set (O := [(KBlock p0, b0); (KPool sTP, p0)]) in *.
    set (M := match mq with Some mq => part mq | None => [] end) in *.
    assert (MB : forall p k, In (KBlock p, k) (M ++ O) -> p = p0 \/ exists q, mq = Some q /\ p = h_pool q).
    { intros p k X. apply in_app_iff in X. destruct X as [X|X]; [|left; now apply (OBJ p k)]. right. destruct mq as [q'|]; [|destruct X]. exists q'. split; [reflexivity|]. eapply part_blocks; exact X. }
    (* runners *)
    assert (H1 : hold (match mq, rp with Some _, Some r => fold_left (destroy_runner r) q s | _, _ => s end)
       (match rp with Some r => [(KPool sTR, r)] | None => [] end ++ match tp, m with Some t, Some x => [(KBlock t, x)] | _, _ => [] end ++
        match tp with Some t => [(KPool (thread_mem_size n), t)] | None => [] end ++ M ++ O)).
    { rewrite <- !app_assoc in H. destruct rp as [r|].
      - destruct mq as [mq|]; [|now specialize (O1 eq_refl)]. apply hold_runners. rewrite <- app_assoc in H. exact H.
      - destruct mq; exact H. }
    clear H. set (s1 := match mq, rp with Some _, Some r => fold_left (destroy_runner r) q s | _, _ => s end) in *. clearbody s1.
    (* thread memory *)
    assert (H2 : hold (match tp, m with Some t, Some x => release (KBlock t) x s1 | _, _ => s1 end)
       (match rp with Some r => [(KPool sTR, r)] | None => [] end ++ match tp with Some t => [(KPool (thread_mem_size n), t)] | None => [] end ++ M ++ O)).
    { destruct tp as [t|], m as [x|]; try exact H1. eapply hold_release; [exact H1| |nopool].
      destruct rp as [r|]; cbn; [apply perm_swap|reflexivity]. }
    clear H1. set (s2 := match tp, m with Some t, Some x => release (KBlock t) x s1 | _, _ => s1 end) in *. clearbody s2.
    (* pool of runners *)
    assert (H3 : hold (release_opt (KPool sTR) rp s2) (match tp with Some t => [(KPool (thread_mem_size n), t)] | None => [] end ++ M ++ O)).
    { destruct rp as [r|]; [|exact H2]. destruct (D3 r eq_refl) as (E1 & E2 & E3). eapply hold_release; [exact H2|reflexivity|]. intros bk k _ X.
      apply in_app_iff in X. destruct X as [X|X]; [destruct tp; [destruct X as [X|[]]; discriminate|destruct X]|].
      destruct (MB _ _ X) as [Y|(q' & -> & Y)]; [now apply E1|]. now apply (E2 q'). }
    assert (H4 : hold (release_opt (KPool (thread_mem_size n)) tp (release_opt (KPool sTR) rp s2)) (M ++ O)).
    { destruct tp as [t|]; [|exact H3]. destruct (D2 t eq_refl) as (E1 & E2). eapply hold_release; [exact H3|reflexivity|]. intros bk k _ X.
      destruct (MB _ _ X) as [Y|(q' & -> & Y)]; [now apply E1|]. now apply (E2 q'). }
    assert (H5 : hold (mq_destroy mq (release_opt (KPool (thread_mem_size n)) tp (release_opt (KPool sTR) rp s2))) O).
    { destruct mq as [mq|]; [|exact H4]. apply hold_mq_destroy; [|exact H4]. intros k X. apply OBJ in X. now apply (D1 mq). }
    unfold O in H5. eapply hold_release; [eapply hold_release; [exact H5|reflexivity|nopool]|reflexivity|]. intros bk k _ [].
  Qed.
  Lemma owned_perm n h q q' : Permutation q q' -> Permutation (owned n h q) (owned n h q').
  Proof. intros P. unfold owned. apply Permutation_app_tail. destruct (t_rpool h) as [r|]; [|reflexivity]. apply Permutation_app_tail. now apply Permutation_flat_map. Qed.
End P.

Section Q.
  Variable orc : nat -> bool.
  Variables sTP sTR sMQ : Z.
  Notation create := (tp_create orc sTP sTR sMQ).
  Notation destroy := (tp_destroy sTP sTR).
  Notation owned := (owned sTR).
  Notation object := (object sTP).

  Local Ltac prop := unfold proper; cbn [t_pool t_blk t_mq t_tpool t_tmem t_rpool]; repeat split; intros; cbn [t_pool t_blk t_mq t_tpool t_tmem t_rpool] in *; congruence.
  Lemma vmax_ok n : (Z.of_nat n < 2 ^ 61)%Z -> (thread_mem_size n / 8 = Z.of_nat n)%Z.
  Proof. intros H. unfold thread_mem_size. rewrite u64_small by lia. rewrite Z.mul_comm. apply Z.div_mul. lia. Qed.

  Theorem create_ok n :
    match create n rs_init with
    | (TNull, s) => live (rs_tr s) []
    | (TPool h q, s) => proper h /\ hold s (owned n h q ++ object h) /\ length q = n /\ t_rpool h <> None /\ t_tmem h <> None /\
        exists mq, t_mq h = Some mq /\ part mq = mq_resources mq /\ length (part mq) = 6 /\ h_size mq = pool_buf_size sMQ 8 (Z.of_nat n)
    | (TThrew, s) => (thread_mem_size n / 8 < Z.of_nat n)%Z
    end.
  Proof.
    unfold tp_create.
    pose proof (holds_acquire orc (KPool sTP) rs_init [] holds_init) as H1. destruct (acquire orc (KPool sTP) rs_init) as [[p0|] s1]; [|exact (proj1 H1)].
    destruct H1 as (H1 & _).
    pose proof (holds_acquire orc (KBlock p0) s1 _ H1) as H2. destruct (acquire orc (KBlock p0) s1) as [[b0|] s2].
    2:{ apply hold_nil. eapply hold_release; [apply hold_of; exact H2|reflexivity|intros b k _ []]. }
    destruct H2 as (H2 & N2).
    pose proof (mq_create_ok orc sMQ 8 (Z.of_nat n) s2 _ H2) as H3.
    specialize (H3 ltac:(intros p k [X|[X|[]]]; [injection X as <- <-; cbn; auto|discriminate])).
    destruct (mq_create orc sMQ 8 (Z.of_nat n) s2) as [[mq|] s3].
    2:{ apply hold_destroy; [prop|]. apply hold_of. exact H3. }
    destruct H3 as (H3 & PM & LM & SM & NM). cbn [map snd] in NM.
    assert (NM0 : h_pool mq <> p0) by (intros E; apply NM; rewrite E; cbn; auto).
    assert (MI : In (h_pool mq) (map snd (mq_resources mq))). { rewrite <- PM. destruct mq. unfold part. cbn. rewrite !map_app, !in_app_iff. cbn. tauto. }
    pose proof (holds_acquire orc (KPool (thread_mem_size n)) s3 _ H3) as H4. destruct (acquire orc (KPool (thread_mem_size n)) s3) as [[tp|] s4].
    2:{ apply hold_destroy; [prop|]. apply hold_of. cbn. unfold ThreadPoolCreateProofs.owned; cbn. rewrite PM. exact H4. }
    destruct H4 as (H4 & N4). rewrite map_app, in_app_iff in N4. cbn in N4.
    assert (TP : tp <> p0 /\ tp <> h_pool mq) by (split; intros ->; tauto). destruct TP as (TP1 & TP2).
    pose proof (holds_acquire orc (KBlock tp) s4 _ H4) as H5. destruct (acquire orc (KBlock tp) s4) as [[m|] s5].
    2:{ apply hold_destroy; [prop|]. apply hold_of. cbn. unfold ThreadPoolCreateProofs.owned; cbn. rewrite PM. exact H5. }
    destruct H5 as (H5 & _).
    pose proof (holds_acquire orc (KPool sTR) s5 _ H5) as H6. destruct (acquire orc (KPool sTR) s5) as [[rp|] s6].
    2:{ apply hold_destroy; [prop|]. apply hold_of. cbn. unfold ThreadPoolCreateProofs.owned; cbn. rewrite PM. exact H6. }
    destruct H6 as (H6 & N6). cbn [map snd] in N6. rewrite map_app in N6. cbn in N6.
    assert (RP : rp <> p0 /\ rp <> h_pool mq /\ rp <> tp) by (repeat split; intros ->; apply N6; rewrite ?in_app_iff; cbn; auto 6).
    destruct RP as (RP1 & RP2 & RP3).
    assert (PR : proper (mkTp p0 b0 (Some mq) (Some tp) (Some m) (Some rp))) by prop.
    pose proof (build_ok orc rp (thread_mem_size n / 8)%Z ((KPool sTR, rp) :: (KBlock tp, m) :: (KPool (thread_mem_size n), tp) :: mq_resources mq ++ [(KBlock p0, b0); (KPool sTP, p0)]) n 0 [] s6 (hold_of _ _ H6)) as B.
    assert (OW : forall q, flat_map (runner_res rp) q ++ ((KPool sTR, rp) :: (KBlock tp, m) :: (KPool (thread_mem_size n), tp) :: mq_resources mq ++ [(KBlock p0, b0); (KPool sTP, p0)])
      = owned n (mkTp p0 b0 (Some mq) (Some tp) (Some m) (Some rp)) q ++ object (mkTp p0 b0 (Some mq) (Some tp) (Some m) (Some rp))).
    { intros q. unfold ThreadPoolCreateProofs.owned, ThreadPoolCreateProofs.object. cbn. rewrite <- !app_assoc. cbn. rewrite PM. reflexivity. }
    destruct (build orc n rp (thread_mem_size n / 8) 0 [] s6) as [[q|q|] s7].
    - rewrite OW in B. destruct B as (B1 & B2). split; [exact PR|]. split; [exact B1|]. split; [exact B2|]. split; [discriminate|]. split; [discriminate|].
      exists mq. split; [reflexivity|]. split; [exact PM|]. split; [now rewrite PM|exact SM].
    - apply hold_destroy; [exact PR|]. rewrite <- OW. exact B.
    - exact B.
  Qed.
  (** the resources of a complete pool: the object, the queue (6), the thread array (2), the pool of runners, and 3 for each thread *)
  Definition tp_resources (n : nat) (h : tph) (q : list runner) : list res := owned n h q ++ object h.
  Lemma flat_map_len rp (q : list runner) : length (flat_map (runner_res rp) q) = 3 * length q.
  Proof. induction q; cbn in *; lia. Qed.
  Theorem create_clean n : (Z.of_nat n < 2 ^ 61)%Z ->
    match create n rs_init with
    | (TNull, s) => live (rs_tr s) []
    | (TPool h q, s) => (exists L, live (rs_tr s) L /\ Permutation L (tp_resources n h q)) /\ length (tp_resources n h q) = 11 + 3 * n /\ length q = n /\
        forall q', Permutation q q' -> live (rs_tr (destroy n h q' s)) []
    | (TThrew, _) => False
    end.
  Proof.
    intros Hn. pose proof (create_ok n) as C. destruct (create n rs_init) as [[|h q|] s]; [exact C| |rewrite vmax_ok in C by exact Hn; lia].
    destruct C as (PR & H & LQ & RP & TM & mq & EM & _ & LP & _). split; [|split; [|split]].
    - destruct H as (L & H & P). exists L. split; [exact (proj1 H)|exact P].
    - unfold tp_resources, ThreadPoolCreateProofs.owned, ThreadPoolCreateProofs.object. rewrite !app_length. destruct (t_rpool h) as [rp|]; [|now elim RP]. unfold res in *. rewrite EM, app_length, flat_map_len, LP.
      destruct PR as (_ & O2 & _). destruct (t_tpool h); [|now elim (TM (O2 eq_refl))]. destruct (t_tmem h); [|now elim TM]. cbn. lia.
    - exact LQ.
    - intros q' P. apply hold_destroy; [exact PR|]. eapply hold_perm; [exact H|]. apply Permutation_app_tail. now apply owned_perm.
  Qed.
  (** create fails only when a request fails *)
  Lemma build_success rp vmax : forall todo done q s, (Z.of_nat (done + todo) <= vmax)%Z ->
    (forall k, rs_req s <= k < rs_req s + 3 * todo -> orc k = true) -> exists q', fst (build orc todo rp vmax done q s) = Built q'.
  Proof.
    induction todo as [|n IH]; intros done q s V A; cbn [build]; [eexists; reflexivity|]. unfold acquire at 1. rewrite A by lia. unfold acquire at 1. cbn [rs_req]. rewrite A by lia.
    unfold acquire at 1. cbn [rs_req]. rewrite A by lia. destruct (Z.ltb_spec (Z.of_nat done) vmax); [|lia]. apply IH; [now replace (S done + n) with (done + S n) by lia|].
    cbn [rs_req]. intros k Hk. apply A. lia.
  Qed.
  Theorem create_success n : (Z.of_nat n < 2 ^ 61)%Z -> (forall k, k < 11 + 3 * n -> orc k = true) -> exists h q, fst (create n rs_init) = TPool h q.
  Proof.
    intros Hn A. set (yes := fun s m => forall k, rs_req s <= k < rs_req s + m -> orc k = true).
    assert (Y : forall k s m, yes s (S m) -> exists id s', acquire orc k s = (Some id, s') /\ yes s' m).
    { intros k s m Ys. unfold acquire. rewrite (Ys (rs_req s)) by lia. eexists. eexists. split; [reflexivity|]. intros i Hi. cbn in Hi. apply Ys. lia. }
    assert (Y0 : yes rs_init (11 + 3 * n)) by (intros k Hk; apply A; cbn in Hk; lia). clear A. cbn [plus] in Y0.
    unfold tp_create, mq_create, create_os.
    do 11 (match goal with |- context [acquire orc ?k ?s] => match goal with Ys : yes s (S ?m) |- _ =>
      let id := fresh "id" in let s' := fresh "s" in let E := fresh "E" in let Y' := fresh "Y" in destruct (Y k s m Ys) as (id & s' & E & Y'); rewrite E; clear E end end).
    match goal with |- context [build orc n ?rp ?v 0 [] ?s] => destruct (build_success rp v n 0 [] s) as (q & E) end.
    - rewrite vmax_ok by exact Hn. cbn [plus]. lia.
    - assumption.
    - match goal with |- context [build orc n ?rp ?v 0 [] ?s] => destruct (build orc n rp v 0 [] s) as [o s']; cbn in E; subst o end. cbn. eauto.
  Qed.
  (** the thread array has room for all threads *)
  Theorem sizes_ok n : (Z.of_nat n < 2 ^ 61)%Z -> thread_mem_size n = (8 * Z.of_nat n)%Z.
  Proof. intros H. unfold thread_mem_size. apply u64_small. lia. Qed.
End Q.

(** huge maxThreads: the size wraps, push_back throws and everything is leaked *)
Lemma build_throws orc rp : forall todo q s, 2 <= todo -> (forall k, orc k = true) -> fst (build orc todo rp 1 0 q s) = Threw.
Proof.
  intros [|[|n]] q s H A; try lia. cbn [build]. unfold acquire at 1. rewrite A. unfold acquire at 1. cbn [rs_req]. rewrite A. unfold acquire at 1. cbn [rs_req]. rewrite A.
  cbn [Z.of_nat Z.ltb Z.compare]. unfold acquire at 1. rewrite A. unfold acquire at 1. cbn [rs_req]. rewrite A. unfold acquire at 1. cbn [rs_req]. rewrite A.
  reflexivity.
Qed.
Lemma create_throws sTP sTR sMQ n : 2 <= n -> (thread_mem_size n / 8)%Z = 1%Z -> fst (tp_create (fun _ => true) sTP sTR sMQ n rs_init) = TThrew.
Proof.
  intros G V. set (orc := fun _ : nat => true). unfold tp_create, mq_create, create_os. rewrite V.
  assert (Y : forall k s, exists id s', acquire orc k s = (Some id, s')) by (intros k s; unfold acquire; cbn; eauto).
  do 11 (match goal with |- context [acquire orc ?k ?s] =>
      let id := fresh "id" in let s' := fresh "s" in let E := fresh "E" in destruct (Y k s) as (id & s' & E); rewrite E; clear E end).
  match goal with |- context [build ?o n ?rp ?v 0 [] ?s] => pose proof (build_throws o rp n [] s G (fun _ => eq_refl)) as B; destruct (build o n rp v 0 [] s) as [x s'] end.
  cbn in B. subst x. reflexivity.
Qed.
Lemma huge_size n : Z.of_nat n = (2 ^ 61 + 1)%Z -> (thread_mem_size n / 8)%Z = 1%Z.
Proof. intros E. unfold thread_mem_size. rewrite E. vm_compute. reflexivity. Qed.
Theorem huge_pool_leaks : forall sTP sTR sMQ : Z,
  ~ (forall orc n, (Z.of_nat n < 2 ^ 64)%Z -> fst (tp_create orc sTP sTR sMQ n rs_init) <> TThrew).
Proof.
  intros sTP sTR sMQ H. assert (X : exists n, Z.of_nat n = (2 ^ 61 + 1)%Z) by (exists (Z.to_nat (2 ^ 61 + 1)); apply Z2Nat.id; discriminate).
  destruct X as (n & E). apply (H (fun _ => true) n); [rewrite E; reflexivity|]. apply create_throws; [|now apply huge_size].
  apply Nat2Z.inj_le. rewrite E. discriminate.
Qed.

(** * Destroying a used pool *)
From Verif Require Import Spec.OSError Spec.Linear Spec.ThreadPoolSpec OS.Sched OS.ThreadPoolModel OS.ThreadPoolProofs OS.ThreadPoolLiveness.
Definition no_runner : runner := mkRn 0 0 0.
(** the content of the queue of the used pool, whose runners are numbered in the order of their creation *)
Definition in_queue (q : list runner) (s : pst) : list runner := map (fun i => nth i q no_runner) (p_q s).
Lemma nth_seq_all {A} (d : A) (q : list A) : map (fun i => nth i q d) (seq 0 (length q)) = q.
Proof.
  induction q as [|x q IH] using List.rev_ind; [reflexivity|]. rewrite app_length. cbn [length]. rewrite Nat.add_1_r, seq_S, map_app. cbn.
  rewrite app_nth2, Nat.sub_diag by lia. cbn. f_equal. rewrite <- IH at 2. apply map_ext_in. intros i Hi. apply in_seq in Hi. rewrite app_nth1 by lia. reflexivity.
Qed.
Theorem destroy_used orc sTP sTR sMQ n h q s dflt ext_prio ls ps es : (Z.of_nat n < 2 ^ 61)%Z ->
  tp_create orc sTP sTR sMQ n rs_init = (TPool h q, s) ->
  exec (p_step n dflt ext_prio) (p_init n dflt) ls = Some (ps, es) -> no_start_timed_out es -> at_rest n ps -> (forall t g, p_guard ps t g = None) ->
  live (rs_tr (tp_destroy sTP sTR n h (in_queue q ps) s)) [].
Proof.
  intros Hn C E T R G. pose proof (create_clean orc sTP sTR sMQ n Hn) as H. rewrite C in H. destruct H as (_ & _ & LQ & D). apply D.
  unfold in_queue. rewrite <- (nth_seq_all no_runner q) at 1. apply Permutation_map. rewrite LQ. symmetry. exact (rest_all_back n dflt ext_prio ls ps es E T R G).
Qed.
(** a pool destroyed while a block of it is out is no proper trace *)
Definition kind_dec (a b : kind) : {a = b} + {a <> b}.
Proof. repeat decide equality. Defined.
Arguments kind_dec : simpl never.
Definition acqs (k : kind) (tr : list rev) : nat := length (filter (fun e => match e with Acq k' _ => if kind_dec k k' then true else false | _ => false end) tr).
Definition rels (k : kind) (tr : list rev) : nat := length (filter (fun e => match e with Rel k' _ => if kind_dec k k' then true else false | _ => false end) tr).
Definition nkind (k : kind) (L : list res) : nat := length (filter (fun e => if kind_dec k (fst e) then true else false) L).
Lemma nkind_perm k L M : Permutation L M -> nkind k L = nkind k M.
Proof. intros P. unfold nkind. apply Permutation_length. induction P; cbn; repeat destruct (kind_dec _ _); auto; [constructor|etransitivity; eassumption]. Qed.
Lemma live_balance k tr L : live tr L -> acqs k tr = rels k tr + nkind k L.
Proof.
  intros H. induction H as [|tr L k' id H IH N|tr L k' id L' H IH P N]; [reflexivity| |].
  - unfold acqs, rels in *. rewrite !filter_app, !app_length. cbn. unfold nkind in *. cbn. destruct (kind_dec k k'); cbn; lia.
  - unfold acqs, rels in *. rewrite !filter_app, !app_length. cbn. rewrite (nkind_perm k _ _ P) in IH. unfold nkind in *. cbn in IH. destruct (kind_dec k k'); cbn in *; lia.
Qed.
Lemma live_prefix : forall tr2 tr1 L, live (tr1 ++ tr2) L -> exists L1, live tr1 L1.
Proof.
  induction tr2 as [|x tr2 IH] using List.rev_ind; intros tr1 L H; [rewrite app_nil_r in H; eauto|]. rewrite app_assoc in H. inversion H as [E|tr L0 k id H0 N E EL|tr L0 k id L' H0 P N E].
  - destruct (tr1 ++ tr2); discriminate.
  - apply app_inj_tail in E. destruct E as (-> & _). eauto.
  - apply app_inj_tail in E. destruct E as (-> & _). eauto.
Qed.
Lemma live_pool_empty tr1 b p tr2 L : live (tr1 ++ Rel (KPool b) p :: tr2) L -> acqs (KBlock p) tr1 = rels (KBlock p) tr1.
Proof.
  intros H. replace (tr1 ++ Rel (KPool b) p :: tr2) with ((tr1 ++ [Rel (KPool b) p]) ++ tr2) in H by now rewrite <- app_assoc.
  apply live_prefix in H. destruct H as (L1 & H). inversion H as [E|tr L0 k id H0 N E EL|tr L0 k id L' H0 P N E EL].
  - destruct tr1; discriminate.
  - apply app_inj_tail in E. destruct E as (_ & E). discriminate.
  - apply app_inj_tail in E. destruct E as (-> & E). injection E as -> ->. rewrite (live_balance (KBlock p) _ _ H0), (nkind_perm _ _ _ P).
    subst L'. specialize (fun n => N b n eq_refl). unfold nkind. cbn. destruct (kind_dec (KBlock p) (KPool b)) as [X|_]; [discriminate|].
    enough (X : filter (fun e : kind * nat => if kind_dec (KBlock p) (fst e) then true else false) L1 = []) by (setoid_rewrite X; cbn; lia).
    clear - N. induction L1 as [|[k n] L1 IH]; [reflexivity|]. cbn. destruct (kind_dec (KBlock p) k) as [<-|_]; [elim (N n); now left|]. apply IH. intros m X. apply (N m). now right.
Qed.
Theorem destroy_used_can_leak :
  ~ (forall orc sTP sTR sMQ n h q s dflt ext_prio ls ps es, (Z.of_nat n < 2 ^ 61)%Z ->
      tp_create orc sTP sTR sMQ n rs_init = (TPool h q, s) ->
      exec (p_step n dflt ext_prio) (p_init n dflt) ls = Some (ps, es) -> at_rest n ps -> (forall t g, p_guard ps t g = None) ->
      exists L, live (rs_tr (tp_destroy sTP sTR n h (in_queue q ps) s)) L).
Proof.
  intros H.
  destruct (tp_create (fun _ => true) 100 40 100 1 rs_init) as [[|h q|] s] eqn:C; try (vm_compute in C; discriminate).
  destruct (exec (p_step 1 0 (fun _ => 0%Z)) (p_init 1 0) loss) as [[ps es]|] eqn:E; [|vm_compute in E; discriminate].
  specialize (H (fun _ => true) 100%Z 40%Z 100%Z 1 _ _ _ 0%Z (fun _ => 0%Z) loss ps es ltac:(cbn; lia) C E).
  vm_compute in C. injection C as <- <- <-. vm_compute in E. injection E as <- <-.
  destruct H as (L & H).
  - split; [intros t; unfold p_idle; cbn; destruct t as [|[|t]]; reflexivity|]. intros r Hr. assert (r = 0) as -> by lia. reflexivity.
  - reflexivity.
  - cbn in H. match type of H with live ?tr _ => 
      assert (X : exists t1 b t2, tr = t1 ++ Rel (KPool b) 10 :: t2 /\ acqs (KBlock 10) t1 = 1 /\ rels (KBlock 10) t1 = 0) end.
    + match goal with |- context [?tr = _] => exists (firstn 15 tr), 40%Z, (skipn 16 tr) end. vm_compute. auto.
    + destruct X as (t1 & b & t2 & X & A & R). rewrite X in H. apply live_pool_empty in H. lia.
Qed.
