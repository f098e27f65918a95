(** ThreadPool over the whole Itron stack: once everything is at rest every thread is in the queue of free threads again. *)
From Coq Require Import List ZArith Bool Lia Arith Permutation.
Import ListNotations.
From Verif Require Import Spec.OSError Spec.Linear Spec.EventFlagSpec Spec.MessageQueueSpec Spec.ThreadSpec Spec.ItronThreadSpec OS.Sched OS.MessageQueueModel OS.MessageQueueProofs
  OS.EventFlagModel OS.ItronEventFlagModel OS.ItronMutexModel OS.ItronMutexProofs OS.QueueStackModel OS.QueueStackProofs OS.QueueStackInst Spec.ThreadPoolSpec OS.ThreadPoolModel OS.ThreadPoolProofs
  OS.ThreadPoolLiveness OS.PoolStackModel OS.PoolStackProofs OS.PoolWholeModel OS.PoolWholeProofs OS.PoolBack OS.ItronThreadModel OS.ItronThreadProofs OS.PoolItronModel OS.PoolObjects OS.PoolItronProofs.
Local Open Scope nat_scope.

Section B.
  Variable N : nat.
  Hypothesis HN : (Z.of_nat N < 2 ^ 64 - 1)%Z.
  Variable dflt : Z.
  Variable ext_prio : nat -> Z.
  Notation B := (rbBufSize (Z.of_nat N)).
  Variable w : Z.
  Hypothesis Hw : (2 <= w)%Z.
  Variable dbg : bool.
  Variables minp maxp wf : Z.
  Hypothesis Hwf : (w <= wf)%Z.
  Lemma itron_all_back_gen c0 ls s o : z_filled N w wf dbg c0 -> (forall l, In l ls -> z_calm l) -> exec (z_step N dflt ext_prio minp maxp w wf dbg) (z_init dflt c0) ls = Some (s, o) ->
    exists ew f sg, explains N ext_prio o ew f sg /\ ((forall t x ms g p, ~ In (t, PStart x ms g p, PErr TimedOut) (effects ew)) \/ (forall t x ms g p, In (Call t (PStart x ms g p)) o -> ms = (-1)%Z) ->
      (forall t, z_idle s t) -> (forall r, r < N -> n_dormant (z_thread s r) = true /\ n_fin (z_thread s r) = true) -> (forall t g, p_guard (z_pool s) t g = None) ->
      Permutation (ring_contents B (c_ring (z_queue s))) (map Some (seq 0 N)) /\ (0 < N -> Z.testbit (f_ptn (c_ev (z_queue s))) 0 = true)).
  Proof.
    intros F CA EX. destruct (itron_pool_explained N HN dflt ext_prio minp maxp w wf Hw Hwf dbg c0 ls s o F CA EX) as (ew & f & sg & A & Q & es & Ls & q0 & a & ls' & EE & WS & LA & F0 & X & EA & _).
    exists ew, f, sg. split; [exact EE|]. rewrite (late_effects _ _ _ _ LA). intros NT' ID OFF0 GD.
    assert (OFF : forall r, r < N -> h_st (z_th s r) = HOff).
    { intros r Hr. destruct (OFF0 r Hr) as (A1 & A2). unfold z_th, absI, abs_st. cbn. revert A1. unfold n_dormant. rewrite A2. destruct (n_task (z_thread s r)); congruence. }
    assert (NT : forall t x ms g p, ~ In (t, PStart x ms g p, PErr TimedOut) (effects es)).
    { destruct NT' as [NT|PA]; [exact NT|]. intros t x ms g p X'. apply effects_in in X'. revert X'. apply (patient_never_times_out N dflt ext_prio ls' a es EA).
      intros t' x' ms' g' p' C. apply (PA t' x' ms' g' p'). rewrite <- (proj1 EE). apply filter_In. split; [|reflexivity]. now apply (late_calls _ _ _ _ LA). }
    pose proof (s_r _ _ _ _ _ _ _ _ _ _ _ _ _ (zs_s _ _ _ _ _ _ _ WS)) as SR. rewrite <- (r_ring _ _ _ _ _ _ _ _ _ SR), <- (r_ne _ _ _ _ _ _ _ _ _ SR).
    apply (stack_back N HN dflt ext_prio q0 Ls _ es F0 X NT); cbn [t_pool t_queue].
    - intros t. unfold PoolStackModel.t_idle. cbn. rewrite (rl_thr _ _ _ _ (zs_rel _ _ _ _ _ _ _ WS)). unfold abs_thr. now rewrite (ID t : p_thr _ _ = _).
    - intros t. apply (inq_idle N _ _ _ (zs_inq _ _ _ _ _ _ _ WS)). unfold wants. rewrite (ID t : p_thr _ _ = _). destruct (Nat.ltb_spec t N) as [L|]; [|reflexivity].
      pose proof (iv_nat _ _ _ _ _ (zs_inv _ _ _ _ _ _ _ WS) t) as NK. unfold nat_ok in NK. rewrite (OFF t L) in NK. now rewrite NK.
    - intros r Hr. apply (off_off _ _ _ _ _ _ r (zs_inv _ _ _ _ _ _ _ WS) (zs_rel _ _ _ _ _ _ _ WS)). now apply OFF.
    - intros t g. rewrite (rl_guard _ _ _ _ (zs_rel _ _ _ _ _ _ _ WS)). unfold abs_guard. rewrite (ID t : p_thr _ _ = _). apply GD.
  Qed.
  Theorem itron_all_back c0 ls s o : z_filled N w wf dbg c0 -> (forall l, In l ls -> z_calm l) -> exec (z_step N dflt ext_prio minp maxp w wf dbg) (z_init dflt c0) ls = Some (s, o) ->
    exists ew f sg, explains N ext_prio o ew f sg /\ ((forall t x ms g p, ~ In (t, PStart x ms g p, PErr TimedOut) (effects ew)) ->
    (forall t, z_idle s t) -> (forall r, r < N -> n_dormant (z_thread s r) = true /\ n_fin (z_thread s r) = true) -> (forall t g, p_guard (z_pool s) t g = None) ->
    Permutation (ring_contents B (c_ring (z_queue s))) (map Some (seq 0 N)) /\ (0 < N -> Z.testbit (f_ptn (c_ev (z_queue s))) 0 = true)).
  Proof. intros F CA EX. destruct (itron_all_back_gen c0 ls s o F CA EX) as (ew & f & sg & EE & H). exists ew, f, sg. split; [exact EE|]. intros NT. apply H. now left. Qed.
  Theorem itron_all_back_patient c0 ls s o : z_filled N w wf dbg c0 -> (forall l, In l ls -> z_calm l) -> exec (z_step N dflt ext_prio minp maxp w wf dbg) (z_init dflt c0) ls = Some (s, o) ->
    (forall t x ms g p, In (Call t (PStart x ms g p)) o -> ms = (-1)%Z) ->
    (forall t, z_idle s t) -> (forall r, r < N -> n_dormant (z_thread s r) = true /\ n_fin (z_thread s r) = true) -> (forall t g, p_guard (z_pool s) t g = None) ->
    Permutation (ring_contents B (c_ring (z_queue s))) (map Some (seq 0 N)) /\ (0 < N -> Z.testbit (f_ptn (c_ev (z_queue s))) 0 = true).
  Proof. intros F CA EX PA. destruct (itron_all_back_gen c0 ls s o F CA EX) as (ew & f & sg & EE & H). apply H. now right. Qed.
End B.
Theorem itron_all_back_x N (HN : (Z.of_nat N < 2 ^ 64 - 1)%Z) dflt ext_prio minp maxp w wf (Hw : (2 <= w)%Z) (Hwf : (w <= wf)%Z) dbg c0 ls s o :
  z_filled N w wf dbg c0 -> (forall l, In l ls -> z_calm l) -> exec (z_step N dflt ext_prio minp maxp w wf dbg) (z_init dflt c0) ls = Some (s, o) ->
  exists ew f sg, explains N ext_prio o ew f sg /\ ((forall t x ms g p, ~ In (t, PStart x ms g p, PErr TimedOut) (effects ew)) ->
    (forall t, z_idle s t) -> (forall r, r < N -> n_dormant (z_thread s r) = true /\ n_fin (z_thread s r) = true) -> (forall t g, p_guard (z_pool s) t g = None) ->
    Permutation (ring_contents (rbBufSize (Z.of_nat N)) (c_ring (z_queue s))) (map Some (seq 0 N)) /\ (0 < N -> Z.testbit (f_ptn (c_ev (z_queue s))) 0 = true)).
Proof. exact (itron_all_back N HN dflt ext_prio w Hw dbg minp maxp wf Hwf c0 ls s o). Qed.
Theorem itron_all_back_patient_x N (HN : (Z.of_nat N < 2 ^ 64 - 1)%Z) dflt ext_prio minp maxp w wf (Hw : (2 <= w)%Z) (Hwf : (w <= wf)%Z) dbg c0 ls s o :
  z_filled N w wf dbg c0 -> (forall l, In l ls -> z_calm l) -> exec (z_step N dflt ext_prio minp maxp w wf dbg) (z_init dflt c0) ls = Some (s, o) ->
  (forall t x ms g p, In (Call t (PStart x ms g p)) o -> ms = (-1)%Z) ->
  (forall t, z_idle s t) -> (forall r, r < N -> n_dormant (z_thread s r) = true /\ n_fin (z_thread s r) = true) -> (forall t g, p_guard (z_pool s) t g = None) ->
  Permutation (ring_contents (rbBufSize (Z.of_nat N)) (c_ring (z_queue s))) (map Some (seq 0 N)) /\ (0 < N -> Z.testbit (f_ptn (c_ev (z_queue s))) 0 = true).
Proof. exact (itron_all_back_patient N HN dflt ext_prio w Hw dbg minp maxp wf Hwf c0 ls s o). Qed.
