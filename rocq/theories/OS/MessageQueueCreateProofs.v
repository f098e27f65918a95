(** Proofs about MessageQueue<T>::create and destroy. *)
From Coq Require Import List Permutation ZArith Lia Arith Bool.
Import ListNotations.
From Verif Require Import Spec.Resource OS.Resources OS.MessageQueueModel OS.MessageQueueProofs OS.MessageQueueCreate.
Open Scope Z_scope.

Lemma align8 x : 0 <= x < 2 ^ 64 -> Z.land x (2 ^ 64 - 8) = 8 * (x / 8).
Proof.
  intros H. replace (2 ^ 64 - 8) with (Z.shiftl (Z.ones 61) 3) by reflexivity.
  replace (8 * (x / 8)) with (Z.shiftl (Z.shiftr x 3) 3) by (rewrite Z.shiftl_mul_pow2, Z.shiftr_div_pow2 by lia; change (2 ^ 3) with 8; lia).
  apply Z.bits_inj'. intros n Hn. rewrite Z.land_spec. destruct (Z_lt_le_dec n 3).
  - rewrite !Z.shiftl_spec_low by lia. apply andb_false_r.
  - rewrite !Z.shiftl_spec by lia. rewrite Z.shiftr_spec by lia. replace (n - 3 + 3) with n by lia.
    destruct (Z_lt_le_dec n 64).
    + rewrite Z.ones_spec_low by lia. apply andb_true_r.
    + rewrite Z.ones_spec_high by lia. rewrite andb_false_r. symmetry. destruct (Z.eq_dec x 0) as [->|]; [apply Z.bits_0|].
      apply Z.bits_above_log2; [lia|]. assert (Z.log2 x < 64) by (apply Z.log2_lt_pow2; lia). lia.
Qed.
(** the block is big enough when the true size fits in size_t *)
Theorem mq_layout sMQ sT maxSize : 0 < sMQ -> sMQ + 7 < 2 ^ 64 -> 0 < sT -> 0 <= maxSize < 2 ^ 64 - 1 ->
  aligned_mq sMQ + sT * (maxSize + 1) < 2 ^ 64 ->
  sMQ <= aligned_mq sMQ < sMQ + 8 /\ aligned_mq sMQ mod 8 = 0 /\ pool_buf_size sMQ sT maxSize = aligned_mq sMQ + sT * (maxSize + 1) /\
  forall i, 0 <= i < rbBufSize maxSize -> aligned_mq sMQ <= aligned_mq sMQ + i * sT /\ aligned_mq sMQ + i * sT + sT <= pool_buf_size sMQ sT maxSize.
Proof.
  intros A1 A2 A3 A4 A5.
  assert (AL : aligned_mq sMQ = 8 * ((sMQ + 7) / 8)).
  { unfold aligned_mq. rewrite (u64_small (sMQ + 7)) by lia. apply align8. lia. }
  pose proof (Z.div_mod (sMQ + 7) 8 ltac:(lia)) as DM. pose proof (Z.mod_pos_bound (sMQ + 7) 8 ltac:(lia)) as DB.
  assert (BZ : rbBufSize maxSize = maxSize + 1) by (unfold rbBufSize; apply u64_small; lia).
  assert (PB : pool_buf_size sMQ sT maxSize = aligned_mq sMQ + sT * (maxSize + 1)).
  { unfold pool_buf_size. rewrite BZ. rewrite (u64_small (sT * (maxSize + 1))) by nia. apply u64_small. nia. }
  split; [lia|]. split; [rewrite AL; rewrite Z.mul_comm; apply Z.mod_mul; lia|]. split; [exact PB|].
  intros i Hi. rewrite BZ in Hi. rewrite PB. nia.
Qed.
(** ... and too small otherwise *)
Lemma mq_layout_wrap sMQ sT : 0 < sMQ -> sMQ + 7 < 2 ^ 64 -> 0 < sT ->
  rbBufSize (2 ^ 64 - 1) = 0 /\ pool_buf_size sMQ sT (2 ^ 64 - 1) = aligned_mq sMQ /\ ring_max (rbBufSize (2 ^ 64 - 1)) = 2 ^ 64 - 1.
Proof.
  intros A1 A2 A3. split; [reflexivity|]. split; [|reflexivity]. unfold pool_buf_size. change (rbBufSize (2 ^ 64 - 1)) with 0.
  rewrite Z.mul_0_r. change (u64 0) with 0. rewrite Z.add_0_r. apply u64_small. unfold aligned_mq. rewrite (u64_small (sMQ + 7)) by lia.
  rewrite align8 by lia. pose proof (Z.div_mod (sMQ + 7) 8 ltac:(lia)). pose proof (Z.mod_pos_bound (sMQ + 7) 8 ltac:(lia)). lia.
Qed.

Section P.
  Variable orc : nat -> bool.
  Local Ltac nopool := let b := fresh in let n := fresh in let X := fresh in intros b n X; discriminate X.

  (** what a partly built queue holds *)
  Definition part (h : mqh) : list res :=
    (match h_ev h with Some d => [(KEvent, d)] | None => [] end) ++ (match h_recv h with Some d => [(KMutex, d)] | None => [] end) ++
    (match h_send h with Some d => [(KMutex, d)] | None => [] end) ++ (match h_rb h with Some d => [(KMutex, d)] | None => [] end) ++
    [(KBlock (h_pool h), h_blk h); (KPool (h_size h), h_pool h)].
  Lemma mq_destroy_part h s L : (forall n, ~ In (KBlock (h_pool h), n) L) -> holds s (part h ++ L) -> holds (mq_destroy (Some h) s) L.
  Proof.
    intros NB H. destruct h as [pool size blk a b c d]. unfold part, mq_destroy in *. cbn [h_pool h_size h_blk h_rb h_send h_recv h_ev] in *.
    assert (R : forall k o s L0, (forall blk, k <> KPool blk) -> holds s ((match o with Some x => [(k, x)] | None => [] end) ++ L0) -> holds (release_opt k o s) L0).
    { intros k [x|] s0 L0 NK X; cbn in *; [|exact X]. eapply holds_release; [exact X|reflexivity|]. intros bk n E. now elim (NK bk). }
    rewrite <- !app_assoc in H.
    apply R in H; [|discriminate]. apply R in H; [|discriminate]. apply R in H; [|discriminate]. apply R in H; [|discriminate].
    cbn in H. eapply holds_release; [eapply holds_release; [exact H|reflexivity|nopool]|reflexivity|]. intros bk n _. apply NB.
  Qed.
  (** the six requests of create, from any proper state *)
  Theorem mq_create_ok sMQ sT maxSize s L : holds s L -> (forall p n, In (KBlock p, n) L -> In p (map snd L)) ->
    match mq_create orc sMQ sT maxSize s with
    | (None, s') => holds s' L
    | (Some h, s') => holds s' (mq_resources h ++ L) /\ part h = mq_resources h /\ length (mq_resources h) = 6%nat /\
                      h_size h = pool_buf_size sMQ sT maxSize /\ ~ In (h_pool h) (map snd L)
    end.
  Proof.
    intros H WF. unfold mq_create. set (size := pool_buf_size sMQ sT maxSize).
    pose proof (holds_acquire orc (KPool size) s L H) as H1. destruct (acquire orc (KPool size) s) as [[pool|] s1]; [|exact H1]. destruct H1 as (H1 & N1).
    assert (NB : forall n, ~ In (KBlock pool, n) L) by (intros n X; apply N1; now apply (WF pool n)).
    pose proof (holds_acquire orc (KBlock pool) s1 _ H1) as H2. destruct (acquire orc (KBlock pool) s1) as [[blk|] s2].
    2:{ eapply holds_release; [exact H2|reflexivity|]. intros bk n _. apply NB. }
    destruct H2 as (H2 & N2).
    unfold create_os.
    pose proof (holds_acquire orc KMutex s2 _ H2) as H3. destruct (acquire orc KMutex s2) as [[a|] s3].
    2:{ now apply mq_destroy_part. }
    destruct H3 as (H3 & _).
    pose proof (holds_acquire orc KMutex s3 _ H3) as H4. destruct (acquire orc KMutex s3) as [[b|] s4].
    2:{ now apply mq_destroy_part. }
    destruct H4 as (H4 & _).
    pose proof (holds_acquire orc KMutex s4 _ H4) as H5. destruct (acquire orc KMutex s4) as [[c|] s5].
    2:{ now apply mq_destroy_part. }
    destruct H5 as (H5 & _).
    pose proof (holds_acquire orc KEvent s5 _ H5) as H6. destruct (acquire orc KEvent s5) as [[d|] s6].
    2:{ now apply mq_destroy_part. }
    destruct H6 as (H6 & _). cbn. split; [exact H6|]. repeat split. exact N1.
  Qed.
  Theorem mq_create_clean sMQ sT maxSize :
    match mq_create orc sMQ sT maxSize rs_init with
    | (None, s) => live (rs_tr s) []
    | (Some h, s) => live (rs_tr s) (mq_resources h) /\ length (mq_resources h) = 6%nat /\ h_size h = pool_buf_size sMQ sT maxSize /\
                     live (rs_tr (mq_destroy (Some h) s)) []
    end.
  Proof.
    pose proof (mq_create_ok sMQ sT maxSize rs_init [] holds_init ltac:(intros p n [])) as H.
    destruct (mq_create orc sMQ sT maxSize rs_init) as [[h|] s]; [|exact (proj1 H)].
    destruct H as (H & P & L & S & _). rewrite app_nil_r in H. split; [exact (proj1 H)|]. split; [exact L|]. split; [exact S|].
    refine (proj1 (mq_destroy_part h s [] _ _)); [intros n []|]. rewrite P, app_nil_r. exact H.
  Qed.
  (** it fails only when a request fails *)
  Theorem mq_create_success sMQ sT maxSize : (forall n, (n < 6)%nat -> orc n = true) -> fst (mq_create orc sMQ sT maxSize rs_init) <> None.
  Proof.
    intros A. unfold mq_create, create_os, acquire. cbn.
    rewrite (A 0%nat) by lia. cbn. rewrite (A 1%nat) by lia. cbn. rewrite (A 2%nat) by lia. cbn. rewrite (A 3%nat) by lia. cbn.
    rewrite (A 4%nat) by lia. cbn. rewrite (A 5%nat) by lia. discriminate.
  Qed.
End P.
