(** Properties of ThreadPool (C46, C47, C55).  Agents 0 .. N-1 are the pool's own threads (which may call the pool from inside their
    tasks), agents N, N+1, ... are the other callers; [ls] ranges over all schedules.  See Spec/ThreadPoolSpec for the words used. *)
From Coq Require Import List ZArith Bool Lia Arith Permutation.
Import ListNotations.
From Verif Require Import Spec.OSError Spec.Linear Spec.ThreadPoolSpec OS.Sched OS.ThreadPoolModel OS.ThreadPoolProofs OS.ThreadPoolLiveness.

(** * C46: threads are not lost?  They can be. *)
(** all calls have returned, all threads are finished, no guard is valid, and yet a thread is missing from the queue *)
Theorem c46_threads_all_come_back_refuted :
  ~ (forall (N : nat) (dflt : Z) (ext_prio : nat -> Z) (ls : list plab) (s : pst) (es : list (event pcall pres)),
       exec (p_step N dflt ext_prio) (p_init N dflt) ls = Some (s, es) ->
       at_rest N s -> (forall t g, p_guard s t g = None) -> length (p_q s) = N).
Proof. exact thread_can_be_lost. Qed.
Print Assumptions c46_threads_all_come_back_refuted.
(** the consequence: start() waits forever although every thread is finished and no guard is valid *)
Theorem c46_start_returns_refuted :
  ~ (forall (N : nat) (dflt : Z) (ext_prio : nat -> Z) (ls : list plab) (s : pst) (es : list (event pcall pres)),
       exec (p_step N dflt ext_prio) (p_init N dflt) ls = Some (s, es) ->
       0 < N -> p_stuck N dflt ext_prio s -> (forall r, r < N -> p_run s r = WOff) -> (forall t g, p_guard s t g = None) -> forall t, p_idle s t).
Proof. exact start_can_wait_forever. Qed.
Print Assumptions c46_start_returns_refuted.
(** this needs a start that returned TimedOut, and each such return loses one thread at most *)
Theorem c46_lost_at_most_partial :
  forall (N : nat) (dflt : Z) (ext_prio : nat -> Z) (ls : list plab) (s : pst) (es : list (event pcall pres)),
    exec (p_step N dflt ext_prio) (p_init N dflt) ls = Some (s, es) -> at_rest N s ->
    exists lost, length lost <= count_eff timed_out (effects es) /\
      forall r, r < N -> In r lost \/ In r (p_q s) \/ exists t g, p_guard s t g = Some r.
Proof. exact lost_at_most. Qed.
Print Assumptions c46_lost_at_most_partial.
(** start() without a time limit never returns TimedOut *)
Theorem c46_patient_callers :
  forall (N : nat) (dflt : Z) (ext_prio : nat -> Z) (ls : list plab) (s : pst) (es : list (event pcall pres)),
    exec (p_step N dflt ext_prio) (p_init N dflt) ls = Some (s, es) ->
    (forall t x ms g p, In (Call t (PStart x ms g p)) es -> ms = (-1)%Z) -> no_start_timed_out es.
Proof. exact patient_never_times_out. Qed.
Print Assumptions c46_patient_callers.
(** as long as no start has returned TimedOut: each thread is in the queue, being handed to a task, running one, or held by a guard *)
Theorem c46_where_partial :
  forall (N : nat) (dflt : Z) (ext_prio : nat -> Z) (ls : list plab) (s : pst) (es : list (event pcall pres)),
    exec (p_step N dflt ext_prio) (p_init N dflt) ls = Some (s, es) -> no_start_timed_out es -> forall r, r < N ->
    In r (p_q s) \/ (exists t k x ms g p, p_thr s t = PHold k r x ms g p) \/ working (p_run s r) \/ exists t g, p_guard s t g = Some r.
Proof. exact where_is. Qed.
Print Assumptions c46_where_partial.
(** in every schedule: all threads but as many as starts have timed out *)
Theorem c46_where_all_but_lost_partial :
  forall (N : nat) (dflt : Z) (ext_prio : nat -> Z) (ls : list plab) (s : pst) (es : list (event pcall pres)),
    exec (p_step N dflt ext_prio) (p_init N dflt) ls = Some (s, es) ->
    exists lost, length lost <= count_eff timed_out (effects es) /\ forall r, r < N ->
    In r lost \/ In r (p_q s) \/ (exists t k x ms g p, p_thr s t = PHold k r x ms g p) \/ working (p_run s r) \/ exists t g, p_guard s t g = Some r.
Proof. exact where_is_all. Qed.
Print Assumptions c46_where_all_but_lost_partial.
(** at rest it is in the queue, or held by exactly one guard *)
Theorem c46_at_rest_partial :
  forall (N : nat) (dflt : Z) (ext_prio : nat -> Z) (ls : list plab) (s : pst) (es : list (event pcall pres)),
    exec (p_step N dflt ext_prio) (p_init N dflt) ls = Some (s, es) -> no_start_timed_out es -> at_rest N s ->
    forall r, r < N -> (In r (p_q s) <-> forall t g, p_guard s t g <> Some r).
Proof. exact rest_partition. Qed.
Print Assumptions c46_at_rest_partial.
Theorem c46_all_back_partial :
  forall (N : nat) (dflt : Z) (ext_prio : nat -> Z) (ls : list plab) (s : pst) (es : list (event pcall pres)),
    exec (p_step N dflt ext_prio) (p_init N dflt) ls = Some (s, es) -> no_start_timed_out es -> at_rest N s ->
    (forall t g, p_guard s t g = None) -> Permutation (p_q s) (seq 0 N).
Proof. exact rest_all_back. Qed.
Print Assumptions c46_all_back_partial.
(** as long as no start has returned TimedOut, the pool is an atomic object whose start leaves all as it was unless it returns OK *)
Theorem c46_atomic_partial :
  forall (N : nat) (dflt : Z) (ext_prio : nat -> Z) (ls : list plab) (s : pst) (es : list (event pcall pres)),
    exec (p_step N dflt ext_prio) (p_init N dflt) ls = Some (s, es) -> no_start_timed_out es ->
    linearizable (pspec N ext_prio) all_free (history es).
Proof. exact pool_atomic_strict. Qed.
Print Assumptions c46_atomic_partial.
(** a thread in the queue is in one place only, idle, with the default priority; two guards never hold the same thread *)
Theorem c46_one_place :
  forall (N : nat) (dflt : Z) (ext_prio : nat -> Z) (ls : list plab) (s : pst) (es : list (event pcall pres)),
    exec (p_step N dflt ext_prio) (p_init N dflt) ls = Some (s, es) ->
    NoDup (p_q s) /\
    (forall r, In r (p_q s) -> r < N /\ p_prio s r = dflt /\ ~ working (p_run s r) /\ (forall t g, p_guard s t g <> Some r) /\
                               forall t k x ms g p, p_thr s t <> PHold k r x ms g p) /\
    (forall r t g t' g', p_guard s t g = Some r -> p_guard s t' g' = Some r -> t = t' /\ g = g').
Proof. exact one_place. Qed.
Print Assumptions c46_one_place.
(** start, tryStart and timedStart return OK if the pool is at rest with a free thread and no other call interferes *)
Theorem c46_start_at_rest :
  forall (N : nat) (dflt : Z) (ext_prio : nat -> Z) (ls0 : list plab) (s : pst) (es0 : list (event pcall pres))
         (t : nat) (x : task) (ms : Z) (g : option nat) (p : option Z) (ls : list plab) (s' : pst) (es : list (event pcall pres)),
    exec (p_step N dflt ext_prio) (p_init N dflt) ls0 = Some (s, es0) -> at_rest N s -> p_q s <> [] -> x <> 0 ->
    (forall l, In l ls -> agent_step t l) -> exec (p_step N dflt ext_prio) s (XCall t (PStart x ms g p) :: ls) = Some (s', es) ->
    forall r, In (Ret t r) es -> r = PErr OK.
Proof. exact rest_start_succeeds. Qed.
Print Assumptions c46_start_at_rest.

(** two threads (0 and 1), clients 2 and 3: client 2 starts task 5 with a guard, task 5 starts task 6 from inside (without a guard),
    client 3 polls with a start and is refused, the tasks end, client 2 waits and releases *)
Definition two_tasks : list plab :=
  [XCall 2 (PStart 5 (-1) (Some 9) (Some 3%Z))] ++ repeat (XStep 2) 7 ++ [XRun 0; XRun 0] ++
  [XCall 0 (PStart 6 (-1) None None)] ++ repeat (XStep 0) 7 ++ [XRun 1; XRun 1; XTaskEnd 0 false; XTaskEnd 1 true] ++
  repeat (XRun 1) 5 ++ repeat (XRun 0) 4 ++ [XCall 2 (PWait 9 (-1)); XStep 2; XStep 2; XCall 2 (PRelease 9)] ++ repeat (XStep 2) 4.
Definition effs_of N (ls : list plab) := match exec (p_step N 1%Z (fun t => Z.of_nat t)) (p_init N 1%Z) ls with Some (s, es) => Some (effects es, p_q s) | None => None end.
Example c46_two_tasks :
  effs_of 2 two_tasks =
  Some ([(2, PStart 5 (-1) (Some 9) (Some 3%Z), PErr OK); (0, PBegin 5 3, PVoid); (0, PStart 6 (-1) None None, PErr OK); (1, PBegin 6 3, PVoid);
         (1, PEnd 6 true, PVoid); (0, PEnd 5 false, PVoid); (2, PWait 9 (-1), PErr OK); (2, PRelease 9, PVoid)], [1; 0]).
Proof. reflexivity. Qed.
Example c46_two_tasks_at_rest :
  match exec (p_step 2 1%Z (fun t => Z.of_nat t)) (p_init 2 1%Z) two_tasks with
  | Some (s, es) => at_rest 2 s /\ (forall t g, p_guard s t g = None) /\ p_q s <> [] | None => False end.
Proof.
  vm_compute. split; [|split; [|discriminate]].
  - split; [intros t; do 3 (destruct t as [|t]; [reflexivity|]); reflexivity|]. intros r Hr. do 2 (destruct r as [|r]; [reflexivity|]). exfalso. lia.
  - intros t g. do 3 (destruct t as [|t]; [repeat (destruct g as [|g]; [reflexivity|]); reflexivity|]). reflexivity.
Qed.
(** client 3 then polls: OK *)
Example c46_poll_ok :
  match exec (p_step 2 1%Z (fun t => Z.of_nat t)) (p_init 2 1%Z) two_tasks with
  | Some (s, _) => match exec (p_step 2 1%Z (fun t => Z.of_nat t)) s (XCall 3 (PStart 7 0 None None) :: repeat (XStep 3) 7) with
                   | Some (s', es) => In (Ret 3 (PErr OK)) es /\ p_q s' = [0] | None => False end
  | None => False end.
Proof. vm_compute. split; [|reflexivity]. auto. Qed.

(** * C47: each accepted task runs exactly once, WaitGuard waits for it *)
(** the pool is an atomic object (one of its free threads may vanish when a start times out) *)
Theorem c47_atomic :
  forall (N : nat) (dflt : Z) (ext_prio : nat -> Z) (ls : list plab) (s : pst) (es : list (event pcall pres)),
    exec (p_step N dflt ext_prio) (p_init N dflt) ls = Some (s, es) ->
    linearizable (pspec_lossy N ext_prio) all_free (history es) /\ exists sg, sp_run (pspec_lossy N ext_prio) all_free (effects es) sg.
Proof. exact pool_atomic. Qed.
Print Assumptions c47_atomic.
(** a task is never begun more often than accepted, and exactly as often when the threads are finished *)
Theorem c47_each_task_once :
  forall (N : nat) (dflt : Z) (ext_prio : nat -> Z) (ls : list plab) (s : pst) (es : list (event pcall pres)) (x : task),
    exec (p_step N dflt ext_prio) (p_init N dflt) ls = Some (s, es) ->
    count_eff (ended x) (effects es) <= count_eff (begun x) (effects es) <= count_eff (accepted x) (effects es) /\
    ((forall r, r < N -> p_run s r = WOff) ->
      count_eff (begun x) (effects es) = count_eff (accepted x) (effects es) /\ count_eff (ended x) (effects es) = count_eff (accepted x) (effects es)).
Proof. exact each_task_once. Qed.
Print Assumptions c47_each_task_once.
(** tasks run on the N threads of the pool only, and between two beginnings on one thread the first task ends *)
Theorem c47_one_task_per_thread :
  forall (N : nat) (dflt : Z) (ext_prio : nat -> Z) (ls : list plab) (s : pst) (es : list (event pcall pres)) l1 l2 l3 r x q y q' a b,
    exec (p_step N dflt ext_prio) (p_init N dflt) ls = Some (s, es) ->
    effects es = l1 ++ (r, PBegin x q, a) :: l2 ++ (r, PBegin y q', b) :: l3 -> r < N /\ exists th, In (r, PEnd x th, PVoid) l2.
Proof. exact one_task_per_thread. Qed.
Print Assumptions c47_one_task_per_thread.
(** WaitGuard::wait returns OK, and release returns, only after the task started with that guard has begun and ended since *)
Theorem c47_guard_waits :
  forall (N : nat) (dflt : Z) (ext_prio : nat -> Z) (ls : list plab) (s : pst) (es : list (event pcall pres)) l1 l2 l3 t x ms g p c res,
    exec (p_step N dflt ext_prio) (p_init N dflt) ls = Some (s, es) ->
    effects es = l1 ++ (t, PStart x ms (Some g) p, PErr OK) :: l2 ++ (t, c, res) :: l3 ->
    (exists ms', c = PWait g ms' /\ res = PErr OK) \/ c = PRelease g -> ~ In (t, PRelease g, PVoid) l2 ->
    exists r q th m1 m2 m3, r < N /\ l2 = m1 ++ (r, PBegin x q, PVoid) :: m2 ++ (r, PEnd x th, PVoid) :: m3 /\ forall v, p = Some v -> q = v.
Proof. exact guard_waits. Qed.
Print Assumptions c47_guard_waits.
(** when nothing moves until a task ends, a start in progress has no time limit and every thread is running a task, held by a guard, or
    one of those lost to a start that timed out (C46); a wait or release in progress waits for a running task *)
Theorem c47_who_waits :
  forall (N : nat) (dflt : Z) (ext_prio : nat -> Z) (ls : list plab) (s : pst) (es : list (event pcall pres)),
    exec (p_step N dflt ext_prio) (p_init N dflt) ls = Some (s, es) -> p_stuck N dflt ext_prio s ->
    exists lost, length lost <= count_eff timed_out (effects es) /\ forall t,
    p_idle s t \/
    (exists x g p, p_thr s t = PAt (PStart x (-1)%Z g p) /\ forall r, r < N -> In r lost \/ p_run s r = WIn \/ exists t' g', p_guard s t' g' = Some r) \/
    (exists g r, (p_thr s t = PAt (PWait g (-1)%Z) \/ p_thr s t = PAt (PRelease g)) /\ r < N /\ p_guard s t g = Some r /\ p_run s r = WIn).
Proof. exact who_waits_all. Qed.
Print Assumptions c47_who_waits.
(** when nothing moves until a task ends (and no start has timed out), a start in progress has no time limit and every thread is
    running a task or held by a guard, and a wait or release in progress waits for a running task *)
Theorem c46_who_waits_partial :
  forall (N : nat) (dflt : Z) (ext_prio : nat -> Z) (ls : list plab) (s : pst) (es : list (event pcall pres)),
    exec (p_step N dflt ext_prio) (p_init N dflt) ls = Some (s, es) -> no_start_timed_out es -> p_stuck N dflt ext_prio s -> forall t,
    p_idle s t \/
    (exists x g p, p_thr s t = PAt (PStart x (-1)%Z g p) /\ forall r, r < N -> p_run s r = WIn \/ exists t' g', p_guard s t' g' = Some r) \/
    (exists g r, (p_thr s t = PAt (PWait g (-1)%Z) \/ p_thr s t = PAt (PRelease g)) /\ r < N /\ p_guard s t g = Some r /\ p_run s r = WIn).
Proof. exact who_waits. Qed.
Print Assumptions c46_who_waits_partial.
(** and that point is reached in a bounded number of steps *)
Theorem c47_bounded_work :
  forall (N : nat) (dflt : Z) (ext_prio : nat -> Z) (n : nat) (ls0 : list plab) (s : pst) (es0 : list (event pcall pres))
         (ls : list plab) (s' : pst) (es : list (event pcall pres)),
    exec (p_step N dflt ext_prio) (p_init N dflt) ls0 = Some (s, es0) -> (forall t, n <= t -> p_idle s t) ->
    (forall l, In l ls -> p_own_step l) -> exec (p_step N dflt ext_prio) s ls = Some (s', es) -> length ls <= 20 * n + 7 * N.
Proof. exact bounded_work. Qed.
Print Assumptions c47_bounded_work.
(** in [two_tasks] the guard of client 2 waited for task 5: the hypotheses of c47_guard_waits are met *)
Example c47_guard_case :
  effs_of 2 two_tasks = Some ([] ++ (2, PStart 5 (-1)%Z (Some 9) (Some 3%Z), PErr OK) ::
    [(0, PBegin 5 3, PVoid); (0, PStart 6 (-1) None None, PErr OK); (1, PBegin 6 3, PVoid); (1, PEnd 6 true, PVoid); (0, PEnd 5 false, PVoid)] ++
    (2, PWait 9 (-1)%Z, PErr OK) :: [(2, PRelease 9, PVoid)], [1; 0]).
Proof. reflexivity. Qed.
(** stuck: one thread, its task runs on; client 1 waits for it with its guard, client 2 for a free thread *)
Example c47_waiting :
  match exec (p_step 1 1%Z (fun _ => 2%Z)) (p_init 1 1%Z)
    ([XCall 1 (PStart 5 (-1) (Some 0) None)] ++ repeat (XStep 1) 7 ++ [XRun 0; XRun 0; XCall 1 (PWait 0 (-1)); XCall 2 (PStart 6 (-1) None None)]) with
  | Some (s, es) => p_stuck 1 1%Z (fun _ => 2%Z) s /\ no_start_timed_out es /\ ~ p_idle s 1 /\ ~ p_idle s 2
  | None => False end.
Proof.
  vm_compute. split; [|split; [|split; discriminate]].
  - intros l Hl. destruct l as [t c|t|t o|r|r b]; try contradiction.
    + destruct t as [|[|[|t]]]; reflexivity.
    + destruct t as [|[|[|t]]]; reflexivity.
    + destruct r as [|r]; reflexivity.
  - intros t x ms g p X. repeat (destruct X as [X|X]; [discriminate X|]). exact X.
Qed.

(** * C55: priorities of tasks *)
(** a task whose starts all ask for priority v, explicitly or by INHERIT_PRIORITY from a caller of that priority outside the pool, runs at
    priority v; for a start from inside a task see [wanted_prio] of the specification in c47_atomic: the priority of that task *)
Theorem c55_task_priority :
  forall (N : nat) (dflt : Z) (ext_prio : nat -> Z) (ls : list plab) (s : pst) (es : list (event pcall pres)) (x : task) (v : Z),
    exec (p_step N dflt ext_prio) (p_init N dflt) ls = Some (s, es) ->
    (forall t ms g p, In (Eff t (PStart x ms g p) (PErr OK)) es -> p = Some v \/ (p = None /\ N <= t /\ ext_prio t = v)) -> forall r q a, In (Eff r (PBegin x q) a) es -> q = v.
Proof. exact task_priority. Qed.
Print Assumptions c55_task_priority.
(** a thread that is available again has the default priority *)
Theorem c55_default_restored :
  forall (N : nat) (dflt : Z) (ext_prio : nat -> Z) (ls : list plab) (s : pst) (es : list (event pcall pres)),
    exec (p_step N dflt ext_prio) (p_init N dflt) ls = Some (s, es) -> forall r, In r (p_q s) -> p_prio s r = dflt.
Proof. exact default_restored. Qed.
Print Assumptions c55_default_restored.
Example c55_two_priorities :
  match effs_of 2 two_tasks with Some (es, _) => In (0, PBegin 5 3%Z, PVoid) es /\ In (1, PBegin 6 3%Z, PVoid) es | None => False end.
Proof. vm_compute. auto 8. Qed.
