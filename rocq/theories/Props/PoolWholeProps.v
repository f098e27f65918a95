(** Property C79: ThreadPool over the library's own MessageQueue, Mutex, EventFlag and Thread on the StdCpp platform, all running at once.
    [ls] ranges over all schedules of the critical sections of all these objects, with time-outs and spurious wake-ups wherever the
    standard library allows them, [c0] over all states of a queue the creating thread has just filled, [w] is the number of bits of
    unsigned int, [M] the deepest nesting a std::recursive_timed_mutex allows.  [o] is what is seen: the calls and returns of the clients,
    and the beginnings and ends of tasks. *)
From Coq Require Import List ZArith Bool Lia Arith Permutation.
Import ListNotations.
From Verif Require Import Spec.OSError Spec.Linear Spec.MessageQueueSpec Spec.EventFlagSpec Spec.ThreadSpec OS.Sched OS.MessageQueueModel OS.EventFlagModel OS.MutexModel OS.QueueStackModel
  Spec.ThreadPoolSpec OS.ThreadPoolModel OS.PoolStackModel OS.ThreadModel OS.PoolWholeModel OS.PoolWholeProofs OS.PoolWholeLive OS.PoolWholeBound OS.PoolBack OS.PoolWholeRuns.
Local Open Scope nat_scope.

(** the whole is one atomic pool (a free thread may vanish when a start times out, as in C46) *)
Theorem c79_atomic :
  forall (N : nat), (Z.of_nat N < 2 ^ 64 - 1)%Z ->
  forall (dflt : Z) (ext_prio : nat -> Z) (M : nat), 1 <= M -> forall (w : Z), (2 <= w)%Z ->
  forall (dbg : bool) (c0 : std_st nat) (ls : list wlab) (s : wst) (o : list (event pcall pres)),
    w_filled N M w dbg c0 -> (forall l, In l ls -> w_calm l) -> exec (w_step N dflt ext_prio M w dbg) (w_init dflt c0) ls = Some (s, o) ->
    linearizable (pspec_lossy N ext_prio) all_free o.
Proof. exact whole_atomic. Qed.
Print Assumptions c79_atomic.
(** ... and nothing vanishes when no start has a time limit *)
Theorem c79_atomic_patient :
  forall (N : nat), (Z.of_nat N < 2 ^ 64 - 1)%Z ->
  forall (dflt : Z) (ext_prio : nat -> Z) (M : nat), 1 <= M -> forall (w : Z), (2 <= w)%Z ->
  forall (dbg : bool) (c0 : std_st nat) (ls : list wlab) (s : wst) (o : list (event pcall pres)),
    w_filled N M w dbg c0 -> (forall l, In l ls -> w_calm l) -> exec (w_step N dflt ext_prio M w dbg) (w_init dflt c0) ls = Some (s, o) ->
    (forall t x ms g p, In (Call t (PStart x ms g p)) o -> ms = (-1)%Z) -> linearizable (pspec N ext_prio) all_free o.
Proof. exact whole_atomic_strict. Qed.
Print Assumptions c79_atomic_patient.
(** a task is never begun more often than accepted, and exactly as often when all Thread objects are finished *)
Theorem c79_each_task_once :
  forall (N : nat), (Z.of_nat N < 2 ^ 64 - 1)%Z ->
  forall (dflt : Z) (ext_prio : nat -> Z) (M : nat), 1 <= M -> forall (w : Z), (2 <= w)%Z ->
  forall (dbg : bool) (c0 : std_st nat) (ls : list wlab) (s : wst) (o : list (event pcall pres)),
    w_filled N M w dbg c0 -> (forall l, In l ls -> w_calm l) -> exec (w_step N dflt ext_prio M w dbg) (w_init dflt c0) ls = Some (s, o) ->
    exists ew f sg, explains N ext_prio o ew f sg /\ forall x,
      count_eff (ended x) (effects ew) <= count_eff (begun x) (effects ew) <= count_eff (accepted x) (effects ew) /\
      ((forall r, r < N -> t_active (w_thread s r) = false) ->
        count_eff (begun x) (effects ew) = count_eff (accepted x) (effects ew) /\ count_eff (ended x) (effects ew) = count_eff (accepted x) (effects ew)).
Proof. exact whole_tasks. Qed.
Print Assumptions c79_each_task_once.
(** WaitGuard::wait returns OK, and release returns, only after the task started with that guard has begun and ended since *)
Theorem c79_guard_waits :
  forall (N : nat), (Z.of_nat N < 2 ^ 64 - 1)%Z ->
  forall (dflt : Z) (ext_prio : nat -> Z) (M : nat), 1 <= M -> forall (w : Z), (2 <= w)%Z ->
  forall (dbg : bool) (c0 : std_st nat) (ls : list wlab) (s : wst) (o : list (event pcall pres)),
    w_filled N M w dbg c0 -> (forall l, In l ls -> w_calm l) -> exec (w_step N dflt ext_prio M w dbg) (w_init dflt c0) ls = Some (s, o) ->
    exists ew f sg, explains N ext_prio o ew f sg /\ forall l1 l2 l3 t x ms g p c res,
      effects ew = l1 ++ (t, PStart x ms (Some g) p, PErr OK) :: l2 ++ (t, c, res) :: l3 ->
      (exists ms', c = PWait g ms' /\ res = PErr OK) \/ c = PRelease g -> ~ In (t, PRelease g, PVoid) l2 ->
      exists r q th m1 m2 m3, r < N /\ l2 = m1 ++ (r, PBegin x q, PVoid) :: m2 ++ (r, PEnd x th, PVoid) :: m3 /\ forall v, p = Some v -> q = v.
Proof. exact whole_guard_waits. Qed.
Print Assumptions c79_guard_waits.
(** the queue of free threads never writes over a live slot, reads a raw one or leaves its buffer *)
Theorem c79_queue_memory :
  forall (N : nat), (Z.of_nat N < 2 ^ 64 - 1)%Z ->
  forall (dflt : Z) (ext_prio : nat -> Z) (M : nat), 1 <= M -> forall (w : Z), (2 <= w)%Z ->
  forall (dbg : bool) (c0 : std_st nat) (ls : list wlab) (s : wst) (o : list (event pcall pres)),
    w_filled N M w dbg c0 -> (forall l, In l ls -> w_calm l) -> exec (w_step N dflt ext_prio M w dbg) (w_init dflt c0) ls = Some (s, o) ->
    c_ub (w_queue s) = false.
Proof. exact whole_memory. Qed.
Print Assumptions c79_queue_memory.
(** no deadlock anywhere in the stack: when no object can move but by a time-out, a spurious wake-up, a new call or the end of a task, then
    a call of the pool in progress is a start, and every thread is running a task, held by a guard, or lost to a start that timed out; or a
    wait or release on a guard whose task is running *)
Theorem c79_who_waits :
  forall (N : nat), (Z.of_nat N < 2 ^ 64 - 1)%Z ->
  forall (dflt : Z) (ext_prio : nat -> Z) (M : nat), 1 <= M -> forall (w : Z), (2 <= w)%Z ->
  forall (dbg : bool) (c0 : std_st nat) (ls : list wlab) (s : wst) (o : list (event pcall pres)),
    w_filled N M w dbg c0 -> (forall l, In l ls -> w_calm l) -> exec (w_step N dflt ext_prio M w dbg) (w_init dflt c0) ls = Some (s, o) ->
    (forall l, w_moves l -> w_step N dflt ext_prio M w dbg s l = None) ->
    exists ew f sg lost, explains N ext_prio o ew f sg /\ length lost <= count_eff timed_out (effects ew) /\ forall t,
    w_idle s t \/
    (exists x ms g p, p_thr (w_pool s) t = PAt (PStart x ms g p) /\
       forall r, r < N -> In r lost \/ p_run (w_pool s) r = WIn \/ exists t' g', p_guard (w_pool s) t' g' = Some r) \/
    (exists g r, ((exists ms, p_thr (w_pool s) t = PAt (PWait g ms)) \/ p_thr (w_pool s) t = PAt (PRelease g)) /\ r < N /\
                 p_guard (w_pool s) t g = Some r /\ p_run (w_pool s) r = WIn).
Proof. exact whole_waits. Qed.
Print Assumptions c79_who_waits.

(** no livelock either: from any state the stack reaches with only callers below [n] in calls, at most so many steps follow without a new call of
    the pool, the end of a task or a spurious wake-up; [ls] ranges over all schedules of such steps, time-outs included *)
Theorem c79_bounded_work :
  forall (N : nat), (Z.of_nat N < 2 ^ 64 - 1)%Z ->
  forall (dflt : Z) (ext_prio : nat -> Z) (M : nat), 1 <= M -> forall (w : Z), (2 <= w)%Z ->
  forall (dbg : bool) (n : nat) (c0 : std_st nat) (ls0 : list wlab) (s : wst) (o0 : list (event pcall pres)) (ls : list wlab) (s' : wst) (o : list (event pcall pres)),
    w_filled N M w dbg c0 -> (forall l, In l ls0 -> w_calm l) -> exec (w_step N dflt ext_prio M w dbg) (w_init dflt c0) ls0 = Some (s, o0) ->
    (forall t, n <= t -> w_idle s t) ->
    (forall l, In l ls -> w_calm l /\ w_own l) -> exec (w_step N dflt ext_prio M w dbg) s ls = Some (s', o) ->
    length ls <= (30 * (n + N) * (n + N) + 160 * (n + N) + N * (4 * (n + N) * (n + N) + 22 * (n + N) + 18) + 1) * (293 * n + 111 * N + 1).
Proof. exact whole_bounded_work. Qed.
Print Assumptions c79_bounded_work.

(** once nothing runs any more - no call in progress, all Thread objects are finished, all guards released - every thread is back: the slots of
    the ring buffer hold each of the N threads exactly once and, if there are any, EV_NOT_EMPTY is set; provided no start has timed out *)
Theorem c79_all_back :
  forall (N : nat), (Z.of_nat N < 2 ^ 64 - 1)%Z ->
  forall (dflt : Z) (ext_prio : nat -> Z) (M : nat), 1 <= M -> forall (w : Z), (2 <= w)%Z ->
  forall (dbg : bool) (c0 : std_st nat) (ls : list wlab) (s : wst) (o : list (event pcall pres)),
    w_filled N M w dbg c0 -> (forall l, In l ls -> w_calm l) -> exec (w_step N dflt ext_prio M w dbg) (w_init dflt c0) ls = Some (s, o) ->
    exists ew f sg, explains N ext_prio o ew f sg /\ ((forall t x ms g p, ~ In (t, PStart x ms g p, PErr TimedOut) (effects ew)) ->
      (forall t, w_idle s t) -> (forall r, r < N -> t_active (w_thread s r) = false) -> (forall t g, p_guard (w_pool s) t g = None) ->
      Permutation (ring_contents (rbBufSize (Z.of_nat N)) (c_ring (w_queue s))) (map Some (seq 0 N)) /\ (0 < N -> Z.testbit (e_pat (c_ev (w_queue s))) 0 = true)).
Proof. exact whole_all_back_x. Qed.
Print Assumptions c79_all_back.
(** ... in particular when no start has a time limit *)
Theorem c79_all_back_patient :
  forall (N : nat), (Z.of_nat N < 2 ^ 64 - 1)%Z ->
  forall (dflt : Z) (ext_prio : nat -> Z) (M : nat), 1 <= M -> forall (w : Z), (2 <= w)%Z ->
  forall (dbg : bool) (c0 : std_st nat) (ls : list wlab) (s : wst) (o : list (event pcall pres)),
    w_filled N M w dbg c0 -> (forall l, In l ls -> w_calm l) -> exec (w_step N dflt ext_prio M w dbg) (w_init dflt c0) ls = Some (s, o) ->
    (forall t x ms g p, In (Call t (PStart x ms g p)) o -> ms = (-1)%Z) ->
    (forall t, w_idle s t) -> (forall r, r < N -> t_active (w_thread s r) = false) -> (forall t g, p_guard (w_pool s) t g = None) ->
    Permutation (ring_contents (rbBufSize (Z.of_nat N)) (c_ring (w_queue s))) (map Some (seq 0 N)) /\ (0 < N -> Z.testbit (e_pat (c_ev (w_queue s))) 0 = true).
Proof. exact whole_all_back_patient_x. Qed.
Print Assumptions c79_all_back_patient.

(** a queue just filled with one or two threads *)
Example c79_filled : w_filled 1 1 32%Z true (w_full 1) /\ w_filled 2 1 32%Z true (w_full 2).
Proof. exact (conj w_full_one w_full_two). Qed.
Notation step2 := (w_step 2 1%Z (fun t => Z.of_nat t) 1 32%Z true).
Definition w_two_end : wst := match exec step2 (w_init 1%Z (w_full 2)) w_two with Some (s, _) => s | None => w_init 1%Z (w_full 2) end.
(** two threads: client 2 starts task 5 with a guard and waits for it; task 5 starts task 6; both end, client 2 wakes up and releases *)
Example c79_two_tasks :
  (forall l, In l w_two -> w_calm l) /\ length w_two > 200 /\
  exec step2 (w_init 1%Z (w_full 2)) w_two = Some (w_two_end,
[Call 2 (PStart 5 (-1) (Some 9) (Some 3%Z)); Ret 2 (PErr OK); Call 0 (PBegin 5 3); Ret 0 PVoid; Call 2 (PWait 9 (-1)); Call 0 (PStart 6 (-1) None None); Ret 0 (PErr OK);
           Call 1 (PBegin 6 3); Ret 1 PVoid; Call 0 (PEnd 5 false); Call 1 (PEnd 6 true); Ret 0 PVoid; Ret 2 (PErr OK); Call 2 (PRelease 9); Ret 1 PVoid; Ret 2 PVoid]) /\
  (forall r, r < 2 -> t_active (w_thread w_two_end r) = false) /\ (forall t, w_idle w_two_end t).
Proof.
  split; [apply w_calmb_calm; vm_compute; reflexivity|]. split; [vm_compute; lia|]. split.
  { unfold w_two_end. destruct (exec step2 (w_init 1%Z (w_full 2)) w_two) as [[s o]|] eqn:E.
    - assert (X : match exec step2 (w_init 1%Z (w_full 2)) w_two with Some (_, o) => o | None => [] end = o) by (now rewrite E). vm_compute in X. now subst o.
    - exfalso. assert (X : match exec step2 (w_init 1%Z (w_full 2)) w_two with Some _ => true | None => false end = true) by (vm_compute; reflexivity). rewrite E in X. discriminate. }
  split.
  - intros r Hr. do 2 (destruct r as [|r]; [vm_compute; reflexivity|]). exfalso. lia.
  - intros t. do 10 (destruct t as [|t]; [vm_compute; reflexivity|]). vm_compute; reflexivity.
Qed.
(** ... and then both threads are back in the queue *)
Example c79_two_back :
  (forall t x ms g p, In (Call t (PStart x ms g p)) (match exec step2 (w_init 1%Z (w_full 2)) w_two with Some (_, o) => o | None => [] end) -> ms = (-1)%Z) /\
  (forall t g, p_guard (w_pool w_two_end) t g = None) /\ ring_contents 3 (c_ring (w_queue w_two_end)) = [Some 1; Some 0] /\ Z.testbit (e_pat (c_ev (w_queue w_two_end))) 0 = true.
Proof.
  split; [|split; [|split; vm_compute; reflexivity]].
  - match goal with |- context[match ?x with Some _ => _ | None => _ end] => assert (X : exists l, match x with Some (_, o) => o | None => [] end = l /\ forallb (fun e => match e with Call _ (PStart _ ms _ _) => (ms =? -1)%Z | _ => true end) l = true) by (eexists; split; [reflexivity|vm_compute; reflexivity]) end.
    destruct X as (l & -> & F). intros t x ms g p H. rewrite forallb_forall in F. specialize (F _ H). cbn in F. lia.
  - intros t g. do 10 (destruct t as [|t]; [do 11 (destruct g as [|g]; [vm_compute; reflexivity|]); vm_compute; reflexivity|]). vm_compute; reflexivity.
Qed.
Notation step1 := (w_step 1 1%Z (fun t => Z.of_nat t) 1 32%Z true).
(** nothing moves: the only thread runs task 5, client 1 waits for it with a time limit, client 2 waits inside the queue *)
Definition w_busy_end : wst := match exec step1 (w_init 1%Z (w_full 1)) w_busy with Some (s, _) => s | None => w_init 1%Z (w_full 1) end.
Example c79_waiting :
  (forall l, In l w_busy -> w_calm l) /\ (exists o, exec step1 (w_init 1%Z (w_full 1)) w_busy = Some (w_busy_end, o)) /\
  (forall l, w_moves l -> step1 w_busy_end l = None) /\
  p_thr (w_pool w_busy_end) 1 = PAt (PWait 4 20) /\ p_thr (w_pool w_busy_end) 2 = PAt (PStart 6 50 None None) /\ p_run (w_pool w_busy_end) 0 = WIn.
Proof.
  split; [apply w_calmb_calm; vm_compute; reflexivity|]. split.
  { unfold w_busy_end. destruct (exec step1 (w_init 1%Z (w_full 1)) w_busy) as [[s o]|] eqn:E; [eauto|]. exfalso.
    assert (X : match exec step1 (w_init 1%Z (w_full 1)) w_busy with Some _ => true | None => false end = true) by (vm_compute; reflexivity). rewrite E in X. discriminate. }
  split; [|repeat split; vm_compute; reflexivity].
  intros l Hl. destruct l as [l|l|r l|r l].
  - destruct l as [t c|t|t o|r|r b]; try contradiction.
    + do 4 (destruct t as [|t]; [vm_compute; reflexivity|]). vm_compute; reflexivity.
    + destruct r as [|r]; vm_compute; reflexivity.
  - destruct l as [t c|t|[] [t m|t|t|t]|[t e|t|t|t]|t b]; try contradiction; do 11 (destruct t as [|t]; [vm_compute; reflexivity|]); vm_compute; reflexivity.
  - destruct r as [|r]; [|vm_compute; reflexivity]. destruct l as [t c|t|t|t| |]; try contradiction; try (vm_compute; reflexivity).
    + do 11 (destruct t as [|t]; [destruct c; vm_compute; reflexivity|]). destruct c; vm_compute; reflexivity.
    + do 11 (destruct t as [|t]; [vm_compute; reflexivity|]). vm_compute; reflexivity.
  - destruct r as [|r]; destruct l as [t c|t|t|t]; try contradiction; do 11 (destruct t as [|t]; [vm_compute; reflexivity|]); vm_compute; reflexivity.
Qed.
(** client 2 has called start and client 3 another start: their steps and those of both threads go on until both tasks run *)
Definition w_two_starts : list wlab := [WPool (XCall 2 (PStart 5 (-1) (Some 9) (Some 3%Z))); WPool (XCall 3 (PStart 6 20 None None))].
Definition w_mid : wst := match exec step2 (w_init 1%Z (w_full 2)) w_two_starts with Some (s, _) => s | None => w_init 1%Z (w_full 2) end.
Definition w_rest : list wlab := w_plan 2 [inr (2, 10); inr (3, 10); inr (2, 100); inr (3, 100); inr (0, 100); inr (1, 100); inr (3, 100)] w_mid.
Example c79_bounded_met :
  (forall l, In l w_two_starts -> w_calm l) /\ (exists o, exec step2 (w_init 1%Z (w_full 2)) w_two_starts = Some (w_mid, o)) /\ (forall t, 4 <= t -> w_idle w_mid t) /\
  (forall l, In l w_rest -> w_calm l /\ w_own l) /\ length w_rest > 80 /\
  match exec step2 w_mid w_rest with
  | Some (s, o) => p_run (w_pool s) 0 = WIn /\ p_run (w_pool s) 1 = WIn /\ p_thr (w_pool s) 2 = PIdle /\ p_thr (w_pool s) 3 = PIdle /\
      o = [Ret 2 (PErr OK); Ret 3 (PErr OK); Call 0 (PBegin 5 3); Ret 0 PVoid; Call 1 (PBegin 6 3); Ret 1 PVoid]
  | None => False
  end.
Proof.
  split; [apply w_calmb_calm; vm_compute; reflexivity|]. split.
  { unfold w_mid. destruct (exec step2 (w_init 1%Z (w_full 2)) w_two_starts) as [[s o]|] eqn:E; [eauto|]. exfalso.
    assert (X : match exec step2 (w_init 1%Z (w_full 2)) w_two_starts with Some _ => true | None => false end = true) by (vm_compute; reflexivity). rewrite E in X. discriminate. }
  split. { intros t Ht. do 4 (destruct t as [|t]; [exfalso; lia|]). do 10 (destruct t as [|t]; [vm_compute; reflexivity|]). vm_compute; reflexivity. }
  split. { intros l Hl. assert (F : forallb (fun l => w_calmb l && w_ownb l) w_rest = true) by (vm_compute; reflexivity). rewrite forallb_forall in F.
    specialize (F l Hl). clear Hl. apply andb_true_iff in F as [F1 F2]. split; [|exact (w_ownb_own l F2)]. apply (w_calmb_calm [l]); [cbn [forallb]; rewrite F1; reflexivity|left; reflexivity]. }
  split; [vm_compute; lia|]. vm_compute. repeat split.
Qed.
