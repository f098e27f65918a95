(** Property C81: ThreadPool over the library's own MessageQueue, Mutex, EventFlag and Thread on the Itron platform, all running at once.
    [ls] ranges over all schedules of the kernel calls of all these objects and tasks, with time-outs wherever the kernel allows them, and
    every choice of the place in a wait queue where a task is put (TA_TFIFO, TA_TPRI); [c0] over all states of a queue the creating task
    has just filled; [w] is the number of bits of unsigned int, [wf] that of FLGPTN, [minp] to [maxp] the kernel's priorities.  [o] is
    what is seen: the calls and returns of the clients, and the beginnings and ends of tasks of the pool.
    Hypotheses of [z_calm]: the kernel refuses no mutex call, copying a pointer does not throw, time limits are at least -1. *)
From Coq Require Import List ZArith Bool Lia Arith Permutation.
Import ListNotations.
From Verif Require Import Spec.OSError Spec.Linear Spec.MessageQueueSpec Spec.EventFlagSpec Spec.ThreadSpec Spec.ItronThreadSpec OS.Sched OS.MessageQueueModel OS.EventFlagModel
  OS.ItronEventFlagModel OS.ItronMutexModel OS.QueueStackModel Spec.ThreadPoolSpec OS.ThreadPoolModel OS.PoolStackModel OS.PoolWholeModel OS.ItronThreadModel OS.PoolItronModel OS.PoolItronProofs
  OS.PoolItronLive OS.PoolItronBound OS.PoolBack OS.PoolItronBack OS.PoolItronRuns.
From Verif Require Import OS.PoolWholeProofs.
Local Open Scope nat_scope.

(** the whole is one atomic pool (a free thread may vanish when a start times out, as in C46) *)
Theorem c81_atomic :
  forall (N : nat), (Z.of_nat N < 2 ^ 64 - 1)%Z ->
  forall (dflt : Z) (ext_prio : nat -> Z) (minp maxp w wf : Z), (2 <= w)%Z -> (w <= wf)%Z ->
  forall (dbg : bool) (c0 : itr_st nat) (ls : list zlab) (s : zst) (o : list (event pcall pres)),
    z_filled N w wf dbg c0 -> (forall l, In l ls -> z_calm l) -> exec (z_step N dflt ext_prio minp maxp w wf dbg) (z_init dflt c0) ls = Some (s, o) ->
    linearizable (pspec_lossy N ext_prio) all_free o.
Proof. exact itron_pool_atomic. Qed.
Print Assumptions c81_atomic.
(** ... and nothing vanishes when no start has a time limit *)
Theorem c81_atomic_patient :
  forall (N : nat), (Z.of_nat N < 2 ^ 64 - 1)%Z ->
  forall (dflt : Z) (ext_prio : nat -> Z) (minp maxp w wf : Z), (2 <= w)%Z -> (w <= wf)%Z ->
  forall (dbg : bool) (c0 : itr_st nat) (ls : list zlab) (s : zst) (o : list (event pcall pres)),
    z_filled N w wf dbg c0 -> (forall l, In l ls -> z_calm l) -> exec (z_step N dflt ext_prio minp maxp w wf dbg) (z_init dflt c0) ls = Some (s, o) ->
    (forall t x ms g p, In (Call t (PStart x ms g p)) o -> ms = (-1)%Z) -> linearizable (pspec N ext_prio) all_free o.
Proof. exact itron_pool_atomic_strict. Qed.
Print Assumptions c81_atomic_patient.
(** a task is never begun more often than accepted, and exactly as often when all tasks are dormant and have set EV_FINISHED *)
Theorem c81_each_task_once :
  forall (N : nat), (Z.of_nat N < 2 ^ 64 - 1)%Z ->
  forall (dflt : Z) (ext_prio : nat -> Z) (minp maxp w wf : Z), (2 <= w)%Z -> (w <= wf)%Z ->
  forall (dbg : bool) (c0 : itr_st nat) (ls : list zlab) (s : zst) (o : list (event pcall pres)),
    z_filled N w wf dbg c0 -> (forall l, In l ls -> z_calm l) -> exec (z_step N dflt ext_prio minp maxp w wf dbg) (z_init dflt c0) ls = Some (s, o) ->
    exists ew f sg, explains N ext_prio o ew f sg /\ forall x,
      count_eff (ended x) (effects ew) <= count_eff (begun x) (effects ew) <= count_eff (accepted x) (effects ew) /\
      ((forall r, r < N -> n_dormant (z_thread s r) = true /\ n_fin (z_thread s r) = true) ->
        count_eff (begun x) (effects ew) = count_eff (accepted x) (effects ew) /\ count_eff (ended x) (effects ew) = count_eff (accepted x) (effects ew)).
Proof. exact itron_pool_tasks. Qed.
Print Assumptions c81_each_task_once.
(** WaitGuard::wait returns OK, and release returns, only after the task started with that guard has begun and ended since *)
Theorem c81_guard_waits :
  forall (N : nat), (Z.of_nat N < 2 ^ 64 - 1)%Z ->
  forall (dflt : Z) (ext_prio : nat -> Z) (minp maxp w wf : Z), (2 <= w)%Z -> (w <= wf)%Z ->
  forall (dbg : bool) (c0 : itr_st nat) (ls : list zlab) (s : zst) (o : list (event pcall pres)),
    z_filled N w wf dbg c0 -> (forall l, In l ls -> z_calm l) -> exec (z_step N dflt ext_prio minp maxp w wf dbg) (z_init dflt c0) ls = Some (s, o) ->
    exists ew f sg, explains N ext_prio o ew f sg /\ forall l1 l2 l3 t x ms g p c res,
      effects ew = l1 ++ (t, PStart x ms (Some g) p, PErr OK) :: l2 ++ (t, c, res) :: l3 ->
      (exists ms', c = PWait g ms' /\ res = PErr OK) \/ c = PRelease g -> ~ In (t, PRelease g, PVoid) l2 ->
      exists r q th m1 m2 m3, r < N /\ l2 = m1 ++ (r, PBegin x q, PVoid) :: m2 ++ (r, PEnd x th, PVoid) :: m3 /\ forall v, p = Some v -> q = v.
Proof. exact itron_pool_guard_waits. Qed.
Print Assumptions c81_guard_waits.
(** the queue of free threads never writes over a live slot, reads a raw one or leaves its buffer *)
Theorem c81_queue_memory :
  forall (N : nat), (Z.of_nat N < 2 ^ 64 - 1)%Z ->
  forall (dflt : Z) (ext_prio : nat -> Z) (minp maxp w wf : Z), (2 <= w)%Z -> (w <= wf)%Z ->
  forall (dbg : bool) (c0 : itr_st nat) (ls : list zlab) (s : zst) (o : list (event pcall pres)),
    z_filled N w wf dbg c0 -> (forall l, In l ls -> z_calm l) -> exec (z_step N dflt ext_prio minp maxp w wf dbg) (z_init dflt c0) ls = Some (s, o) ->
    c_ub (z_queue s) = false.
Proof. exact itron_pool_memory. Qed.
Print Assumptions c81_queue_memory.
(** no deadlock anywhere in the stack: when no object can move but by a time-out, a new call, the end of a task or another round of polling a task that is not dormant, then
    a call of the pool in progress is a start, and every thread is running a task, held by a guard, or lost to a start that timed out; or a
    wait or release on a guard whose task is running *)
Theorem c81_who_waits :
  forall (N : nat), (Z.of_nat N < 2 ^ 64 - 1)%Z ->
  forall (dflt : Z) (ext_prio : nat -> Z) (minp maxp w wf : Z), (2 <= w)%Z -> (w <= wf)%Z ->
  forall (dbg : bool) (c0 : itr_st nat) (ls : list zlab) (s : zst) (o : list (event pcall pres)),
    z_filled N w wf dbg c0 -> (forall l, In l ls -> z_calm l) -> exec (z_step N dflt ext_prio minp maxp w wf dbg) (z_init dflt c0) ls = Some (s, o) ->
    (forall l, z_moves l -> z_step N dflt ext_prio minp maxp w wf dbg s l = None) ->
    exists ew f sg lost, explains N ext_prio o ew f sg /\ length lost <= count_eff timed_out (effects ew) /\ forall t,
    z_idle s t \/
    (exists x ms g p, p_thr (z_pool s) t = PAt (PStart x ms g p) /\
       forall r, r < N -> In r lost \/ p_run (z_pool s) r = WIn \/ exists t' g', p_guard (z_pool s) t' g' = Some r) \/
    (exists g r, ((exists ms, p_thr (z_pool s) t = PAt (PWait g ms)) \/ p_thr (z_pool s) t = PAt (PRelease g)) /\ r < N /\
                 p_guard (z_pool s) t g = Some r /\ p_run (z_pool s) r = WIn).
Proof. exact itron_waits. Qed.
Print Assumptions c81_who_waits.

(** no livelock either: from any state the stack reaches with only callers below [n] in calls, at most so many steps follow without a new call of
    the pool, the end of a task, or another round of polling a task that is not dormant; [ls] ranges over all schedules of such steps, time-outs
    and all choices of the kernel included *)
Theorem c81_bounded_work :
  forall (N : nat), (Z.of_nat N < 2 ^ 64 - 1)%Z ->
  forall (dflt : Z) (ext_prio : nat -> Z) (minp maxp w wf : Z), (2 <= w)%Z -> (w <= wf)%Z ->
  forall (dbg : bool) (n : nat) (c0 : itr_st nat) (ls0 : list zlab) (s : zst) (o0 : list (event pcall pres)) (ls : list zlab) (s' : zst) (o : list (event pcall pres)),
    z_filled N w wf dbg c0 -> (forall l, In l ls0 -> z_calm l) -> exec (z_step N dflt ext_prio minp maxp w wf dbg) (z_init dflt c0) ls0 = Some (s, o0) ->
    (forall t, n <= t -> z_idle s t) ->
    (forall l, In l ls -> z_calm l /\ z_own l) -> exec (z_step N dflt ext_prio minp maxp w wf dbg) s ls = Some (s', o) ->
    length ls <= (108 * (n + N) + 19 * (n + N) * N + 20 * N + 1) * (293 * n + 111 * N + 1).
Proof. exact itron_bounded_work. Qed.
Print Assumptions c81_bounded_work.

(** once nothing runs any more - no call in progress, all tasks are dormant and have set EV_FINISHED, all guards released - every thread is back: the slots of
    the ring buffer hold each of the N threads exactly once and, if there are any, EV_NOT_EMPTY is set; provided no start has timed out *)
Theorem c81_all_back :
  forall (N : nat), (Z.of_nat N < 2 ^ 64 - 1)%Z ->
  forall (dflt : Z) (ext_prio : nat -> Z) (minp maxp w wf : Z), (2 <= w)%Z -> (w <= wf)%Z ->
  forall (dbg : bool) (c0 : itr_st nat) (ls : list zlab) (s : zst) (o : list (event pcall pres)),
    z_filled N w wf dbg c0 -> (forall l, In l ls -> z_calm l) -> exec (z_step N dflt ext_prio minp maxp w wf dbg) (z_init dflt c0) ls = Some (s, o) ->
    exists ew f sg, explains N ext_prio o ew f sg /\ ((forall t x ms g p, ~ In (t, PStart x ms g p, PErr TimedOut) (effects ew)) ->
      (forall t, z_idle s t) -> (forall r, r < N -> n_dormant (z_thread s r) = true /\ n_fin (z_thread s r) = true) -> (forall t g, p_guard (z_pool s) t g = None) ->
      Permutation (ring_contents (rbBufSize (Z.of_nat N)) (c_ring (z_queue s))) (map Some (seq 0 N)) /\ (0 < N -> Z.testbit (f_ptn (c_ev (z_queue s))) 0 = true)).
Proof. exact itron_all_back_x. Qed.
Print Assumptions c81_all_back.
(** ... in particular when no start has a time limit *)
Theorem c81_all_back_patient :
  forall (N : nat), (Z.of_nat N < 2 ^ 64 - 1)%Z ->
  forall (dflt : Z) (ext_prio : nat -> Z) (minp maxp w wf : Z), (2 <= w)%Z -> (w <= wf)%Z ->
  forall (dbg : bool) (c0 : itr_st nat) (ls : list zlab) (s : zst) (o : list (event pcall pres)),
    z_filled N w wf dbg c0 -> (forall l, In l ls -> z_calm l) -> exec (z_step N dflt ext_prio minp maxp w wf dbg) (z_init dflt c0) ls = Some (s, o) ->
    (forall t x ms g p, In (Call t (PStart x ms g p)) o -> ms = (-1)%Z) ->
    (forall t, z_idle s t) -> (forall r, r < N -> n_dormant (z_thread s r) = true /\ n_fin (z_thread s r) = true) -> (forall t g, p_guard (z_pool s) t g = None) ->
    Permutation (ring_contents (rbBufSize (Z.of_nat N)) (c_ring (z_queue s))) (map Some (seq 0 N)) /\ (0 < N -> Z.testbit (f_ptn (c_ev (z_queue s))) 0 = true).
Proof. exact itron_all_back_patient_x. Qed.
Print Assumptions c81_all_back_patient.

(** a queue just filled with one or two threads *)
Example c81_filled : z_filled 1 32%Z 32%Z true (z_full 1) /\ z_filled 2 32%Z 32%Z true (z_full 2).
Proof. exact (conj z_full_one z_full_two). Qed.
Notation step2 := (z_step 2 1%Z (fun t => Z.of_nat t) 1%Z 10%Z 32%Z 32%Z true).
Definition z_two_end : zst := match exec step2 (z_init 1%Z (z_full 2)) z_two with Some (s, _) => s | None => z_init 1%Z (z_full 2) end.
(** two threads: client 2 starts task 5 with a guard and waits for it; task 5 starts task 6; both end, client 2 wakes up and releases *)
Example c81_two_tasks :
  (forall l, In l z_two -> z_calm l) /\ length z_two > 200 /\
  exec step2 (z_init 1%Z (z_full 2)) z_two = Some (z_two_end,
[Call 2 (PStart 5 (-1) (Some 9) (Some 3%Z)); Ret 2 (PErr OK); Call 0 (PBegin 5 3); Ret 0 PVoid; Call 2 (PWait 9 (-1)); Call 0 (PStart 6 (-1) None None); Ret 0 (PErr OK);
           Call 1 (PBegin 6 3); Ret 1 PVoid; Call 0 (PEnd 5 false); Call 1 (PEnd 6 true); Ret 0 PVoid; Ret 2 (PErr OK); Call 2 (PRelease 9); Ret 2 PVoid; Ret 1 PVoid]) /\
  (forall r, r < 2 -> n_dormant (z_thread z_two_end r) = true /\ n_fin (z_thread z_two_end r) = true) /\ (forall t, z_idle z_two_end t).
Proof.
  split; [apply z_calmb_calm; vm_compute; reflexivity|]. split; [vm_compute; lia|]. split.
  { unfold z_two_end. destruct (exec step2 (z_init 1%Z (z_full 2)) z_two) as [[s o]|] eqn:E.
    - assert (X : match exec step2 (z_init 1%Z (z_full 2)) z_two with Some (_, o) => o | None => [] end = o) by (now rewrite E). vm_compute in X. now subst o.
    - exfalso. assert (X : match exec step2 (z_init 1%Z (z_full 2)) z_two with Some _ => true | None => false end = true) by (vm_compute; reflexivity). rewrite E in X. discriminate. }
  split.
  - intros r Hr. do 2 (destruct r as [|r]; [vm_compute; split; reflexivity|]). exfalso. lia.
  - intros t. do 10 (destruct t as [|t]; [vm_compute; reflexivity|]). vm_compute; reflexivity.
Qed.
(** ... and then both threads are back in the queue *)
Example c81_two_back :
  (forall t x ms g p, In (Call t (PStart x ms g p)) (match exec step2 (z_init 1%Z (z_full 2)) z_two with Some (_, o) => o | None => [] end) -> ms = (-1)%Z) /\
  (forall t g, p_guard (z_pool z_two_end) t g = None) /\ ring_contents 3 (c_ring (z_queue z_two_end)) = [Some 1; Some 0] /\ Z.testbit (f_ptn (c_ev (z_queue z_two_end))) 0 = true.
Proof.
  split; [|split; [|split; vm_compute; reflexivity]].
  - match goal with |- context[match ?x with Some _ => _ | None => _ end] => assert (X : exists l, match x with Some (_, o) => o | None => [] end = l /\ forallb (fun e => match e with Call _ (PStart _ ms _ _) => (ms =? -1)%Z | _ => true end) l = true) by (eexists; split; [reflexivity|vm_compute; reflexivity]) end.
    destruct X as (l & -> & F). intros t x ms g p H. rewrite forallb_forall in F. specialize (F _ H). cbn in F. lia.
  - intros t g. do 10 (destruct t as [|t]; [do 11 (destruct g as [|g]; [vm_compute; reflexivity|]); vm_compute; reflexivity|]). vm_compute; reflexivity.
Qed.
Notation step1 := (z_step 1 1%Z (fun t => Z.of_nat t) 1%Z 10%Z 32%Z 32%Z true).
(** nothing moves: the only thread runs task 5, client 1 waits for it with a time limit, client 2 waits inside the queue *)
Definition z_busy_end : zst := match exec step1 (z_init 1%Z (z_full 1)) z_busy with Some (s, _) => s | None => z_init 1%Z (z_full 1) end.
Example c81_waiting :
  (forall l, In l z_busy -> z_calm l) /\ (exists o, exec step1 (z_init 1%Z (z_full 1)) z_busy = Some (z_busy_end, o)) /\
  (forall l, z_moves l -> step1 z_busy_end l = None) /\
  p_thr (z_pool z_busy_end) 1 = PAt (PWait 4 20) /\ p_thr (z_pool z_busy_end) 2 = PAt (PStart 6 50 None None) /\ p_run (z_pool z_busy_end) 0 = WIn.
Proof.
  split; [apply z_calmb_calm; vm_compute; reflexivity|]. split.
  { unfold z_busy_end. destruct (exec step1 (z_init 1%Z (z_full 1)) z_busy) as [[s o]|] eqn:E; [eauto|]. exfalso.
    assert (X : match exec step1 (z_init 1%Z (z_full 1)) z_busy with Some _ => true | None => false end = true) by (vm_compute; reflexivity). rewrite E in X. discriminate. }
  split; [|repeat split; vm_compute; reflexivity].
  intros l Hl. destruct l as [l|l|r l|r l].
  - destruct l as [t c|t|t o|r|r b]; try contradiction.
    + do 4 (destruct t as [|t]; [vm_compute; reflexivity|]). vm_compute; reflexivity.
    + destruct r as [|r]; vm_compute; reflexivity.
  - destruct l as [t c|t|[] [t m|t|t|t]|[t e|t k|t]|t b]; try contradiction; do 11 (destruct t as [|t]; [vm_compute; reflexivity|]); vm_compute; reflexivity.
  - destruct r as [|r]; [|vm_compute; reflexivity]. destruct l as [t c|t|t|t|]; try contradiction; try (vm_compute; reflexivity).
    + do 11 (destruct t as [|t]; [destruct c as [[]| |]; vm_compute; reflexivity|]). destruct c as [[]| |]; vm_compute; reflexivity.
    + do 11 (destruct t as [|t]; [vm_compute; reflexivity|]). vm_compute; reflexivity.
  - destruct r as [|r]; destruct l as [t c|t k|t]; try contradiction; do 11 (destruct t as [|t]; [vm_compute; reflexivity|]); vm_compute; reflexivity.
Qed.
(** client 2 has called start and client 3 another start: their steps and those of both threads go on until both tasks run *)
Definition z_two_starts : list zlab := [ZPool (XCall 2 (PStart 5 (-1) (Some 9) (Some 3%Z))); ZPool (XCall 3 (PStart 6 20 None None))].
Definition z_mid : zst := match exec step2 (z_init 1%Z (z_full 2)) z_two_starts with Some (s, _) => s | None => z_init 1%Z (z_full 2) end.
Definition z_rest : list zlab := z_plan 2 [inr (2, 10); inr (3, 10); inr (2, 100); inr (3, 100); inr (0, 100); inr (1, 100); inr (3, 100)] z_mid.
Example c81_bounded_met :
  (forall l, In l z_two_starts -> z_calm l) /\ (exists o, exec step2 (z_init 1%Z (z_full 2)) z_two_starts = Some (z_mid, o)) /\ (forall t, 4 <= t -> z_idle z_mid t) /\
  (forall l, In l z_rest -> z_calm l /\ z_own l) /\ length z_rest > 100 /\
  match exec step2 z_mid z_rest with
  | Some (s, o) => p_run (z_pool s) 0 = WIn /\ p_run (z_pool s) 1 = WIn /\ p_thr (z_pool s) 2 = PIdle /\ p_thr (z_pool s) 3 = PIdle /\
      o = [Ret 2 (PErr OK); Ret 3 (PErr OK); Call 0 (PBegin 5 3); Ret 0 PVoid; Call 1 (PBegin 6 3); Ret 1 PVoid]
  | None => False
  end.
Proof.
  split; [apply z_calmb_calm; vm_compute; reflexivity|]. split.
  { unfold z_mid. destruct (exec step2 (z_init 1%Z (z_full 2)) z_two_starts) as [[s o]|] eqn:E; [eauto|]. exfalso.
    assert (X : match exec step2 (z_init 1%Z (z_full 2)) z_two_starts with Some _ => true | None => false end = true) by (vm_compute; reflexivity). rewrite E in X. discriminate. }
  split. { intros t Ht. do 4 (destruct t as [|t]; [exfalso; lia|]). do 10 (destruct t as [|t]; [vm_compute; reflexivity|]). vm_compute; reflexivity. }
  split. { intros l Hl. assert (F : forallb (fun l => z_calmb l && z_ownb l) z_rest = true) by (vm_compute; reflexivity). rewrite forallb_forall in F.
    specialize (F l Hl). clear Hl. apply andb_true_iff in F as [F1 F2]. split; [|exact (z_ownb_own l F2)]. apply (z_calmb_calm [l]); [cbn [forallb]; rewrite F1; reflexivity|left; reflexivity]. }
  split; [vm_compute; lia|]. vm_compute. repeat split.
Qed.
