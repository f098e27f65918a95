(** C68: variable-size memory pools.  Specification: Spec/VarPoolSpec.v; model: OS/VarPoolModel.v. *)
From Coq Require Import List NArith Bool Arith.
Import ListNotations.
From Verif Require Import Spec.Linear Spec.VarPoolSpec OS.Sched OS.VarPoolModel OS.VarPoolProofs OS.VarPoolMore.

(** Itron: every history of creates, destroys, allocations and releases of any number of tasks is one of a bounded set of pools, each of
    them with its own memory, of which it hands out pieces that are free; whatever ids and places the kernel chooses and whenever it fails *)
Theorem c68_itron_pools_linearizable :
  forall (max nids : nat) (usable : vpool -> N -> N -> bool) (ls : list ylab) (s : yst) (es : vevents),
    exec (y_step max nids usable true) y_init ls = Some (s, es) -> linearizable (vspec max usable) v_new (history es).
Proof. exact y_linearizable. Qed.
Print Assumptions c68_itron_pools_linearizable.
(** what a pool has handed out and not got back never overlaps, lies in the pool's memory (the memory given, if one was given) and is
    in total no more than the pool's size *)
Theorem c68_itron_blocks :
  forall (max nids : nat) (usable : vpool -> N -> N -> bool) (ls : list ylab) (s : yst) (es : vevents) (i : nat) (size addr : N) (held : list (N * N)),
    exec (y_step max nids usable true) y_init ls = Some (s, es) -> pool_view i (effects es) = Some (size, addr, held) ->
    all_apart held /\ (total held <= size)%N /\
    exists base, base <> 0%N /\ (addr <> 0%N -> base = addr) /\ forall a n, In (a, n) held -> n <> 0%N /\ inside base size a n.
Proof. exact y_blocks. Qed.
Print Assumptions c68_itron_blocks.
(** pieces of different pools never overlap either, if the system provides the memory *)
Theorem c68_itron_pools_apart :
  forall (max nids : nat) (usable : vpool -> N -> N -> bool) (ls : list ylab) (s : yst) (es : vevents),
    exec (y_step max nids usable true) y_init ls = Some (s, es) -> (forall t size addr r, In (t, VCreate size addr, r) (effects es) -> addr = 0%N) ->
    forall i j si ai hi sj aj hj a n b m, i <> j -> pool_view i (effects es) = Some (si, ai, hi) -> pool_view j (effects es) = Some (sj, aj, hj) ->
      In (a, n) hi -> In (b, m) hj -> apart a n b m.
Proof. exact y_pools_apart. Qed.
Print Assumptions c68_itron_pools_apart.
(** with a kernel that can use every free place, allocate gives null only if the pool has no free piece of that length *)
Theorem c68_itron_null_only_if_full :
  forall (max nids : nat) (ls : list ylab) (s : yst) (es : vevents) (l1 : list (nat * vcall * vres)) (t i : nat) (n : N) (l2 : list (nat * vcall * vres)) (size addr : N) (held : list (N * N)),
    exec (y_step max nids (fun _ _ _ => true) true) y_init ls = Some (s, es) ->
    effects es = l1 ++ (t, VAlloc i n, VNull) :: l2 -> pool_view i l1 = Some (size, addr, held) -> n <> 0%N ->
    exists base, base <> 0%N /\ (addr <> 0%N -> base = addr) /\ forall a, inside base size a n -> exists b m, In (b, m) held /\ ~ apart a n b m.
Proof. exact y_null_full. Qed.
Print Assumptions c68_itron_null_only_if_full.
(** when no call is running, the kernel's memory pools are exactly those of the pools that exist, one each, with the same pieces out *)
Theorem c68_itron_no_leak :
  forall (max nids : nat) (usable : vpool -> N -> N -> bool) (ls : list ylab) (s : yst) (es : vevents),
    exec (y_step max nids usable true) y_init ls = Some (s, es) -> (forall t, y_idle s t) ->
    exists a, sp_run (vspec max usable) v_new (effects es) a /\
      (forall id, y_kern s id <> None -> exists i, i < max /\ a i = y_kern s id /\ y_id s i = id) /\
      (forall i, a i <> None -> y_kern s (y_id s i) = a i) /\
      (forall i j, a i <> None -> a j <> None -> y_id s i = y_id s j -> i = j).
Proof. exact y_no_leak. Qed.
Print Assumptions c68_itron_no_leak.
(** nobody is blocked for ever: if nothing can move then no call is running; and [n] tasks make a bounded number of steps *)
Theorem c68_itron_no_deadlock :
  forall (max nids : nat) (usable : vpool -> N -> N -> bool) (ls : list ylab) (s : yst) (es : vevents),
    exec (y_step max nids usable true) y_init ls = Some (s, es) -> y_stuck max nids usable true s -> forall t, y_idle s t.
Proof. exact y_progress. Qed.
Print Assumptions c68_itron_no_deadlock.
Theorem c68_itron_bounded :
  forall (max nids : nat) (usable : vpool -> N -> N -> bool) (n : nat) (ls0 : list ylab) (s : yst) (es0 : vevents) (ls : list ylab) (s' : yst) (es : vevents),
    exec (y_step max nids usable true) y_init ls0 = Some (s, es0) -> (forall t, n <= t -> y_idle s t) -> (forall l, In l ls -> y_own_step l) ->
    exec (y_step max nids usable true) s ls = Some (s', es) -> length ls <= n * (max + 8).
Proof. exact y_bounded. Qed.
Print Assumptions c68_itron_bounded.
(** the statement without the factory's mutex (its constructor ignores that acre_mtx failed) is false: two creates get the same pool *)
Theorem c68_itron_without_mutex_refuted :
  ~ (forall (max nids : nat) (usable : vpool -> N -> N -> bool) (ls : list ylab) (s : yst) (es : vevents),
       exec (y_step max nids usable false) y_init ls = Some (s, es) -> linearizable (vspec max usable) v_new (history es)).
Proof. exact y_race. Qed.
Print Assumptions c68_itron_without_mutex_refuted.

(** StdCpp (also Posix and Windows): the pieces handed out by all pools together never overlap *)
Theorem c68_std_linearizable :
  forall (ls : list glab) (s : gst) (es : vevents), exec g_step g_init ls = Some (s, es) -> linearizable hspec h_new (history es).
Proof. exact g_linearizable. Qed.
Print Assumptions c68_std_linearizable.
Theorem c68_std_blocks_partial :
  forall (ls : list glab) (s : gst) (es : vevents), exec g_step g_init ls = Some (s, es) -> g_heap s = heap_view (effects es) /\ all_apart (heap_view (effects es)).
Proof. exact g_blocks. Qed.
Print Assumptions c68_std_blocks_partial.
Theorem c68_std_no_deadlock :
  forall (ls : list glab) (s : gst) (es : vevents), exec g_step g_init ls = Some (s, es) -> g_stuck s -> forall t, g_idle s t.
Proof. exact g_progress. Qed.
Print Assumptions c68_std_no_deadlock.
(** but the size of the pool does not limit what it hands out, *)
Theorem c68_std_size_refuted :
  ~ (forall (ls : list glab) (s : gst) (es : vevents) (i : nat) (size addr : N) (held : list (N * N)),
       exec g_step g_init ls = Some (s, es) -> pool_view i (effects es) = Some (size, addr, held) -> (total held <= size)%N).
Proof. exact g_size_ignored. Qed.
Print Assumptions c68_std_size_refuted.
(** the memory given is not used, *)
Theorem c68_std_memory_refuted :
  ~ (forall (ls : list glab) (s : gst) (es : vevents) (i : nat) (size addr : N) (held : list (N * N)) (a n : N),
       exec g_step g_init ls = Some (s, es) -> pool_view i (effects es) = Some (size, addr, held) ->
       addr <> 0%N -> (n <= size)%N -> In (a, n) held -> inside addr size a n).
Proof. exact g_memory_ignored. Qed.
Print Assumptions c68_std_memory_refuted.
(** and destroy does not give back what was not released *)
Theorem c68_std_destroy_refuted :
  ~ (forall (ls : list glab) (s : gst) (es : vevents),
       exec g_step g_init ls = Some (s, es) -> (forall t, g_idle s t) -> (forall i, pool_view i (effects es) = None) -> g_heap s = []).
Proof. exact g_destroy_leaks. Qed.
Print Assumptions c68_std_destroy_refuted.

(** two slots, places at multiples of 8; tasks 1 and 2 create at once, one with memory at 1000 and one with memory of the system, a third
    finds no slot; pieces of 5 and 10 bytes of 24, then no place for 8 although 9 bytes are left; one comes back and there is; deallocate of null
    does nothing; the pool is destroyed, and its slot and its kernel id are used again *)
Definition c68_schedule : list ylab :=
  [UCall 1 (VCreate 24 1000); UCall 2 (VCreate 64 0); UCall 3 (VCreate 0 0); UStep 3; UStep 1; UStep 1; UAcre 1 7 1000; UStep 1; UStep 1; UStep 2; UStep 1] ++
  [UStep 2; UStep 2; UCall 1 (VAlloc 0 5); UGet 1 1000; UAcre 2 9 2000; UStep 2; UStep 2; UStep 2; UStep 1; UCall 1 (VAlloc 0 10); UGet 1 1008; UStep 1; UCall 2 (VAlloc 1 30); UGet 2 2024; UStep 2] ++
  [UCall 1 (VAlloc 0 8); UStep 1; UStep 1; UCall 3 (VFree 0 1000); UStep 3; UStep 3; UCall 1 (VAlloc 0 8); UGet 1 1000; UStep 1; UCall 1 (VFree 0 0); UStep 1; UStep 1] ++
  [UCall 3 (VCreate 4 0); UStep 3; UStep 3; UStep 3; UStep 3; UStep 3; UStep 3].
Definition c68_again : list ylab :=
  [UCall 1 (VDestroy 0); UStep 1; UStep 1; UStep 1; UStep 1; UStep 1; UCall 3 (VCreate 80 0); UStep 3; UStep 3; UAcre 3 7 3000; UStep 3; UStep 3; UStep 3].
Definition by8 (p : vpool) (a n : N) : bool := N.eqb (a mod 8) 0.
Example c68_case :
  match exec (y_step 2 10 by8 true) y_init c68_schedule with
  | Some (s, es) =>
      map (fun e => snd e) (effects es) =
        [VBad; VPool 0; VAddr 1000; VPool 1; VAddr 1008; VAddr 2024; VNull; VVoid; VAddr 1000; VVoid; VNoSlot] /\
      pool_view 0 (effects es) = Some (24%N, 1000%N, [(1000, 8); (1008, 10)]%N) /\ pool_view 1 (effects es) = Some (64%N, 0%N, [(2024, 30)]%N) /\
      y_kern s 9 = Some (mkV 2000 64 [(2024, 30)]%N) /\ (forall t, y_idle s t) /\
      match exec (y_step 2 10 by8 true) s c68_again with
      | Some (s', es') => map (fun e => snd e) (effects es') = [VVoid; VPool 0] /\ y_kern s' 7 = Some (mkV 3000 80 [])
      | None => False
      end
  | None => False
  end.
Proof.
  destruct (exec (y_step 2 10 by8 true) y_init c68_schedule) as [[s es]|] eqn:E; [|vm_compute in E; discriminate].
  vm_compute in E. injection E as <- <-. split; [reflexivity|]. split; [reflexivity|]. split; [reflexivity|]. split; [reflexivity|]. split.
  - intros t. unfold y_idle. do 4 (destruct t as [|t]; [reflexivity|]). reflexivity.
  - vm_compute. split; reflexivity.
Qed.
(** the hypotheses of c68_itron_null_only_if_full and c68_itron_pools_apart: two pools of the system's own, 16 bytes asked of a pool of 24 with 10 in the middle *)
Example c68_full_case :
  match exec (y_step 2 10 (fun _ _ _ => true) true) y_init
    ([UCall 1 (VCreate 24 0); UStep 1; UStep 1; UAcre 1 3 100; UStep 1; UStep 1; UStep 1; UCall 2 (VCreate 24 0); UStep 2; UStep 2; UStep 2; UAcre 2 4 124; UStep 2; UStep 2; UStep 2] ++
     [UCall 1 (VAlloc 0 10); UGet 1 107; UStep 1; UCall 1 (VAlloc 1 24); UGet 1 124; UStep 1; UCall 1 (VAlloc 0 16); UStep 1; UStep 1]) with
  | Some (s, es) =>
      (forall t size addr r, In (t, VCreate size addr, r) (effects es) -> addr = 0%N) /\
      pool_view 0 (effects es) = Some (24%N, 0%N, [(107, 10)]%N) /\ pool_view 1 (effects es) = Some (24%N, 0%N, [(124, 24)]%N) /\
      exists l1, effects es = l1 ++ [(1, VAlloc 0 16, VNull)] /\ pool_view 0 l1 = Some (24%N, 0%N, [(107, 10)]%N)
  | None => False
  end.
Proof.
  vm_compute. split; [|split; [reflexivity|split; [reflexivity|]]].
  - intros t size addr r H. repeat (destruct H as [H|H]; [injection H; congruence|]). destruct H.
  - exists [(1, VCreate 24 0, VPool 0); (2, VCreate 24 0, VPool 1); (1, VAlloc 0 10, VAddr 107%N); (1, VAlloc 1 24, VAddr 124%N)]. split; reflexivity.
Qed.
(** task 1 holds the lock and task 2 waits for it: not stuck, and the hypotheses of c68_itron_bounded hold with n = 3 *)
Example c68_bounded_case :
  match exec (y_step 2 10 by8 true) y_init [UCall 1 (VCreate 24 0); UCall 2 (VDestroy 1); UStep 1] with
  | Some (s, es) =>
      (forall t, 3 <= t -> y_idle s t) /\ y_step 2 10 by8 true s (UStep 2) = None /\
      match exec (y_step 2 10 by8 true) s [UStep 1; UAcre 1 5 8; UStep 1; UStep 1; UStep 1; UStep 2; UStep 2; UStep 2; UStep 2; UStep 2] with
      | Some (s', es') => forall t, t < 3 -> y_idle s' t
      | None => False
      end
  | None => False
  end.
Proof.
  cbn. split; [|split; [reflexivity|]].
  - intros t H. unfold y_idle. cbn. do 3 (destruct t as [|t]; [repeat apply le_S_n in H; now inversion H|]). reflexivity.
  - intros t H. unfold y_idle. cbn. do 3 (destruct t as [|t]; [reflexivity|]). reflexivity.
Qed.
(** StdCpp: two pools, blocks of both on one heap, one released *)
Example c68_std_case :
  match exec g_step g_init
    ([WCall 1 (VCreate 16 0); WCall 2 (VCreate 16 0); WStep 1; WNew 1 (Some 0); WStep 1; WStep 2; WNew 2 (Some 1); WStep 2; WStep 1; WStep 2] ++
     [WCall 1 (VAlloc 0 8); WMalloc 1 500; WStep 1; WCall 2 (VAlloc 1 8); WMalloc 2 508; WStep 2; WCall 2 (VAlloc 1 4); WMalloc 2 0; WStep 2; WCall 1 (VFree 0 500); WStep 1; WStep 1]) with
  | Some (s, es) =>
      map (fun e => snd e) (effects es) = [VPool 0; VPool 1; VAddr 500; VAddr 508; VNull; VVoid] /\ heap_view (effects es) = [(508, 8)]%N /\
      pool_view 1 (effects es) = Some (16%N, 0%N, [(508, 8)]%N)
  | None => False
  end.
Proof. vm_compute. repeat split. Qed.
