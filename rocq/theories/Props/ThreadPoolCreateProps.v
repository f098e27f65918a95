(** Properties of ThreadPool::create and destroy (C48).  [orc] answers the requests to the platform one by one; sTP, sTR and sMQ are the sizes
    of the objects; a resource trace is [live tr L] when it is proper and ends with exactly the resources [L] held (Spec/Resource). *)
From Coq Require Import List Permutation ZArith Lia Arith.
Import ListNotations.
From Verif Require Import Spec.Resource Spec.Linear Spec.ThreadPoolSpec OS.Sched OS.Resources OS.MessageQueueCreate OS.ThreadPoolModel
  OS.ThreadPoolLiveness OS.ThreadPoolCreate OS.ThreadPoolCreateProofs.
Open Scope nat_scope.

(** whichever requests fail: either null is returned and nothing is held, or a pool is returned that owns 11 + 3 * maxThreads resources,
    and destroying it with all its runners in the queue, in any order, releases them all *)
Theorem c48_create_cleans_up :
  forall (orc : nat -> bool) (sTP sTR sMQ : Z) (n : nat), (Z.of_nat n < 2 ^ 61)%Z ->
    match tp_create orc sTP sTR sMQ n rs_init with
    | (TNull, s) => live (rs_tr s) []
    | (TPool h q, s) => (exists L, live (rs_tr s) L /\ Permutation L (tp_resources sTP sTR n h q)) /\
        length (tp_resources sTP sTR n h q) = 11 + 3 * n /\ length q = n /\
        forall q', Permutation q q' -> live (rs_tr (tp_destroy sTP sTR n h q' s)) []
    | (TThrew, _) => False
    end.
Proof. exact create_clean. Qed.
Print Assumptions c48_create_cleans_up.
(** null is returned only if one of the first 11 + 3 * maxThreads requests fails *)
Theorem c48_create_succeeds :
  forall (orc : nat -> bool) (sTP sTR sMQ : Z) (n : nat), (Z.of_nat n < 2 ^ 61)%Z -> (forall k, k < 11 + 3 * n -> orc k = true) ->
    exists h q, fst (tp_create orc sTP sTR sMQ n rs_init) = TPool h q.
Proof. exact create_success. Qed.
Print Assumptions c48_create_succeeds.
(** a pool that has been used (by any schedule), is at rest with no valid guard, and in which no start has timed out: destroy releases all *)
Theorem c48_destroy_after_use_partial :
  forall (orc : nat -> bool) (sTP sTR sMQ : Z) (n : nat) (h : tph) (q : list runner) (s : rst)
         (dflt : Z) (ext_prio : nat -> Z) (ls : list plab) (ps : pst) (es : list (event pcall pres)), (Z.of_nat n < 2 ^ 61)%Z ->
    tp_create orc sTP sTR sMQ n rs_init = (TPool h q, s) ->
    exec (p_step n dflt ext_prio) (p_init n dflt) ls = Some (ps, es) -> no_start_timed_out es -> at_rest n ps -> (forall t g, p_guard ps t g = None) ->
    live (rs_tr (tp_destroy sTP sTR n h (in_queue q ps) s)) [].
Proof. exact destroy_used. Qed.
Print Assumptions c48_destroy_after_use_partial.
(** without the condition on time-outs this fails (the thread lost in c46): the pool of runners is even destroyed with a block of it out *)
Theorem c48_destroy_after_use_refuted :
  ~ (forall orc sTP sTR sMQ n h q s dflt ext_prio ls ps es, (Z.of_nat n < 2 ^ 61)%Z ->
      tp_create orc sTP sTR sMQ n rs_init = (TPool h q, s) ->
      exec (p_step n dflt ext_prio) (p_init n dflt) ls = Some (ps, es) -> at_rest n ps -> (forall t g, p_guard ps t g = None) ->
      exists L, live (rs_tr (tp_destroy sTP sTR n h (in_queue q ps) s)) L).
Proof. exact destroy_used_can_leak. Qed.
Print Assumptions c48_destroy_after_use_refuted.
(** for 2^61 + 1 threads the size of the array of threads wraps, and an exception leaves create, with everything held *)
Theorem c48_huge_maxThreads_refuted : forall sTP sTR sMQ : Z,
  ~ (forall orc n, (Z.of_nat n < 2 ^ 64)%Z -> fst (tp_create orc sTP sTR sMQ n rs_init) <> TThrew).
Proof. exact huge_pool_leaks. Qed.
Print Assumptions c48_huge_maxThreads_refuted.
(** two threads; the 16th request (the second thread) fails *)
Example c48_second_thread_fails :
  match tp_create (fun k => negb (Nat.eqb k 16)) 100 40 100 2 rs_init with
  | (TNull, s) => length (rs_tr s) = 32 /\ rs_req s = 17
  | _ => False end.
Proof. vm_compute. auto. Qed.
Example c48_two_threads :
  match tp_create (fun _ => true) 100 40 100 2 rs_init with
  | (TPool h q, s) => length q = 2 /\ length (rs_tr s) = 17 /\ length (rs_tr (tp_destroy 100 40 2 h (List.rev q) s)) = 34
  | _ => False end.
Proof. vm_compute. auto. Qed.
(** no threads at all, if the platform grants an empty pool *)
Example c48_no_threads : fst (tp_create (fun k => negb (Nat.eqb k 8)) 100 40 100 0 rs_init) = TNull.
Proof. reflexivity. Qed.
