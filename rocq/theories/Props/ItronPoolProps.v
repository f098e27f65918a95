(** C60: memory pools.  Specification: Spec/MemPoolSpec.v; model: OS/ItronPoolModel.v. *)
From Coq Require Import List NArith Bool Arith.
Import ListNotations.
From Verif Require Import Spec.Linear Spec.MemPoolSpec OS.Sched OS.ItronPoolModel OS.ItronPoolProofs.

(** every history of creates, destroys, allocations and releases of any number of tasks is one of a bounded set of pools, each of them
    with the promised blocks: no two pools in use are the same, no block is handed out twice, allocate fails only if the blocks are all out,
    create fails for lack of a slot only if the pools are all in use; whatever ids the kernel gives, and whenever it fails *)
Theorem c60_itron_pools_linearizable :
  forall (max : nat) (tsz : N -> N -> N) (ls : list qlab) (s : qst) (es : pevents),
    exec (q_step max tsz true) q_init ls = Some (s, es) -> linearizable (pspec max (q_count tsz)) p_new (history es).
Proof. exact q_linearizable. Qed.
Print Assumptions c60_itron_pools_linearizable.
(** when no call is running, the kernel's memory pools are exactly those of the pools that exist, one each *)
Theorem c60_itron_pools_no_leak :
  forall (max : nat) (tsz : N -> N -> N) (ls : list qlab) (s : qst) (es : pevents),
    exec (q_step max tsz true) q_init ls = Some (s, es) -> (forall t, q_idle s t) ->
    exists a, sp_run (pspec max (q_count tsz)) p_new (effects es) a /\
      (forall id, q_kern s id <> None -> exists i, i < max /\ a i <> None /\ q_id s i = id) /\
      (forall i, a i <> None -> q_kern s (q_id s i) <> None) /\
      (forall i j, a i <> None -> a j <> None -> q_id s i = q_id s j -> i = j).
Proof. exact q_no_leak. Qed.
Print Assumptions c60_itron_pools_no_leak.
(** nobody is blocked for ever: if nothing can move then no call is running; and [n] tasks make a bounded number of steps *)
Theorem c60_itron_pools_no_deadlock :
  forall (max : nat) (tsz : N -> N -> N) (ls : list qlab) (s : qst) (es : pevents),
    exec (q_step max tsz true) q_init ls = Some (s, es) -> q_stuck max tsz true s -> forall t, q_idle s t.
Proof. exact q_progress. Qed.
Print Assumptions c60_itron_pools_no_deadlock.
Theorem c60_itron_pools_bounded :
  forall (max : nat) (tsz : N -> N -> N) (n : nat) (ls0 : list qlab) (s : qst) (es0 : pevents) (ls : list qlab) (s' : qst) (es : pevents),
    exec (q_step max tsz true) q_init ls0 = Some (s, es0) -> (forall t, n <= t -> q_idle s t) -> (forall l, In l ls -> q_own_step l) ->
    exec (q_step max tsz true) s ls = Some (s', es) -> length ls <= n * (max + 8).
Proof. exact q_bounded. Qed.
Print Assumptions c60_itron_pools_bounded.
(** the statement without the factory's mutex (its constructor ignores that acre_mtx failed) is false: two creates get the same pool *)
Theorem c60_itron_pools_without_mutex_refuted :
  ~ (forall (max : nat) (tsz : N -> N -> N) (ls : list qlab) (s : qst) (es : pevents),
       exec (q_step max tsz false) q_init ls = Some (s, es) -> linearizable (pspec max (q_count tsz)) p_new (history es)).
Proof. exact q_race. Qed.
Print Assumptions c60_itron_pools_without_mutex_refuted.

(** sizes: the blocks of a pool fit in its memory; a pool too small for one block is not created *)
Theorem c60_itron_blocks_fit : forall (tsz : N -> N -> N) (bs size : N), (q_count tsz bs size * tsz 1 bs <= size)%N.
Proof. exact q_fits. Qed.
Print Assumptions c60_itron_blocks_fit.
Theorem c60_itron_too_small :
  forall (max : nat) (tsz : N -> N -> N) (ls : list qlab) (s : qst) (es : pevents) (t : nat) (bs size : N) (i : nat),
    exec (q_step max tsz true) q_init ls = Some (s, es) -> (size < tsz 1 bs)%N -> ~ In (Eff t (PCreate bs size) (QPool i)) es.
Proof. exact q_too_small. Qed.
Print Assumptions c60_itron_too_small.
(** a pool created with getRequiredMemorySize(blockSize, n) bytes has n blocks: always for n = 1; for larger n exactly if the kernel's macro
    gives n blocks at least n times what it gives one; if it gives exactly that, the pool has exactly n blocks *)
Theorem c60_itron_required_one : forall (tsz : N -> N -> N) (bs : N), (0 < tsz 1 bs)%N -> q_count tsz bs (q_required tsz bs 1) = 1%N.
Proof. exact q_required_one. Qed.
Print Assumptions c60_itron_required_one.
Theorem c60_itron_required_iff :
  forall (tsz : N -> N -> N) (bs n : N), (0 < tsz 1 bs)%N -> ((n <= q_count tsz bs (q_required tsz bs n))%N <-> (n * tsz 1 bs <= tsz n bs)%N).
Proof. exact q_required_enough. Qed.
Print Assumptions c60_itron_required_iff.
Theorem c60_itron_required_exact :
  forall (tsz : N -> N -> N) (bs n : N), (0 < tsz 1 bs)%N -> tsz n bs = (n * tsz 1 bs)%N -> q_count tsz bs (q_required tsz bs n) = n.
Proof. exact q_required_exact. Qed.
Print Assumptions c60_itron_required_exact.
Theorem c60_itron_required_refuted :
  ~ (forall (tsz : N -> N -> N) (bs n : N), (forall m b, tsz m b >= m * b)%N -> (0 < bs)%N -> (n <= q_count tsz bs (q_required tsz bs n))%N).
Proof. exact q_required_short. Qed.
Print Assumptions c60_itron_required_refuted.
(** StdCpp: getRequiredMemorySize is the product, and create accepts it, unless the product does not fit in size_t; then it may even be zero
    and create refuses it *)
Theorem c60_std_required_partial :
  forall w bs n : N, (0 < bs)%N -> (0 < n)%N -> (bs * n < 2 ^ w)%N -> std_required w bs n = (bs * n)%N /\ std_create_null bs (std_required w bs n) = false.
Proof. exact std_required_fits. Qed.
Print Assumptions c60_std_required_partial.
Theorem c60_std_required_refuted :
  ~ (forall w bs n : N, (bs < 2 ^ w)%N -> (n < 2 ^ w)%N -> (0 < bs)%N -> (0 < n)%N -> std_create_null bs (std_required w bs n) = false).
Proof. exact std_required_wraps. Qed.
Print Assumptions c60_std_required_refuted.

(** two slots; tasks 1 and 2 create at once, a third create finds no slot; blocks are handed out until none is left, one comes back; the first
    pool is destroyed, its kernel id and its slot are used again *)
Definition c60_schedule : list qlab :=
  [ZCall 1 (PCreate 4 10); ZCall 2 (PCreate 8 16); ZCall 3 (PCreate 0 16); ZStep 3; ZStep 1; ZStep 1; ZAcre 1 7; ZStep 1; ZStep 1; ZStep 2; ZStep 1] ++
  [ZStep 2; ZStep 2; ZCall 1 (PAlloc 0); ZGet 1 1; ZAcre 2 9; ZStep 2; ZStep 2; ZStep 2; ZStep 1; ZCall 1 (PAlloc 0); ZGet 1 0; ZStep 1; ZCall 1 (PAlloc 0); ZStep 1; ZStep 1] ++
  [ZCall 2 (PFree 0 1); ZStep 2; ZStep 2; ZCall 1 (PAlloc 0); ZGet 1 1; ZStep 1; ZCall 3 (PCreate 4 4); ZStep 3; ZStep 3; ZStep 3; ZStep 3; ZStep 3; ZStep 3] ++
  [ZCall 1 (PDestroy 0); ZStep 1; ZStep 1; ZStep 1; ZStep 1; ZStep 1; ZCall 3 (PCreate 2 8); ZStep 3; ZStep 3; ZAcre 3 7; ZStep 3; ZStep 3; ZStep 3] ++
  [ZCall 1 (PBlockSize 0); ZStep 1; ZStep 1].
Example c60_case :
  match exec (q_step 2 lin_tsz true) q_init c60_schedule with
  | Some (s, es) =>
      map (fun e => snd e) (effects es) =
        [QBad; QPool 0; QBlock 1; QPool 1; QBlock 0; QNull; QVoid; QBlock 1; QNoSlot; QVoid; QPool 0; QSize 2] /\
      q_kern s 7 = Some (4%N, []) /\ q_kern s 9 = Some (2%N, []) /\ forall t, q_idle s t
  | None => False
  end.
Proof.
  destruct (exec (q_step 2 lin_tsz true) q_init c60_schedule) as [[s es]|] eqn:E; [|vm_compute in E; discriminate].
  vm_compute in E. injection E as <- <-. split; [reflexivity|]. split; [reflexivity|]. split; [reflexivity|].
  intros t. unfold q_idle. do 4 (destruct t as [|t]; [reflexivity|]). reflexivity.
Qed.
(** a state in which task 1 holds the lock and task 2 waits for it: not stuck, and the hypotheses of c60_itron_pools_bounded hold with n = 3 *)
Example c60_bounded_case :
  match exec (q_step 2 lin_tsz true) q_init [ZCall 1 (PCreate 4 10); ZCall 2 (PDestroy 1); ZStep 1] with
  | Some (s, es) =>
      (forall t, 3 <= t -> q_idle s t) /\ q_step 2 lin_tsz true s (ZStep 2) = None /\
      match exec (q_step 2 lin_tsz true) s [ZStep 1; ZAcre 1 5; ZStep 1; ZStep 1; ZStep 1; ZStep 2; ZStep 2; ZStep 2; ZStep 2; ZStep 2] with
      | Some (s', es') => forall t, t < 3 -> q_idle s' t
      | None => False
      end
  | None => False
  end.
Proof.
  cbn. split; [|split; [reflexivity|]].
  - intros t H. unfold q_idle. cbn. do 3 (destruct t as [|t]; [repeat apply le_S_n in H; now inversion H|]). reflexivity.
  - intros t H. unfold q_idle. cbn. do 3 (destruct t as [|t]; [reflexivity|]). reflexivity.
Qed.
(** sizes: 12 bytes per block of 10, rounded up *)
Example c60_sizes :
  let tsz := fun n b : N => (n * ((b + 3) / 4 * 4))%N in
  q_required tsz 10 5 = 60%N /\ q_count tsz 10 60 = 5%N /\ q_count tsz 10 59 = 4%N /\ (11 < tsz 1 10)%N /\ std_required 64 10 5 = 50%N.
Proof. vm_compute. repeat split. Qed.
