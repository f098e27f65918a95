(** Property C74: ThreadPool over the real MessageQueue.  The queue of free threads is MessageQueue's own code (three mutexes, an event
    flag, a ring buffer), entered by starts, releases and ending tasks at the same time; [ls] ranges over all schedules of the two
    together, [q0] over all states of a queue the creating thread has just filled with the N threads (constructMembers). *)
From Coq Require Import List ZArith Bool Lia Arith.
Import ListNotations.
From Verif Require Import Spec.OSError Spec.Linear Spec.MessageQueueSpec OS.Sched OS.MessageQueueModel Spec.ThreadPoolSpec OS.ThreadPoolModel OS.ThreadPoolLiveness
  OS.PoolStackModel OS.PoolStackProofs OS.PoolStill.
Local Open Scope nat_scope.

(** all that can be seen of the pool over the real queue can be seen of the pool over an atomic queue: the trace theorems of C46, C47, C55 hold *)
Theorem c74_same_traces :
  forall (N : nat), (Z.of_nat N < 2 ^ 64 - 1)%Z ->
  forall (dflt : Z) (ext_prio : nat -> Z) (q0 : qst nat) (ls : list tlab) (s : tst) (es : list (event pcall pres)),
    filled N q0 -> exec (t_step N dflt ext_prio) (t_init dflt q0) ls = Some (s, es) ->
    exists ls' a, exec (p_step N dflt ext_prio) (p_init N dflt) ls' = Some (a, es).
Proof. exact stack_trace. Qed.
Print Assumptions c74_same_traces.
(** the pool is an atomic object (one of its free threads may vanish when a start times out, as in C46) *)
Theorem c74_atomic :
  forall (N : nat), (Z.of_nat N < 2 ^ 64 - 1)%Z ->
  forall (dflt : Z) (ext_prio : nat -> Z) (q0 : qst nat) (ls : list tlab) (s : tst) (es : list (event pcall pres)),
    filled N q0 -> exec (t_step N dflt ext_prio) (t_init dflt q0) ls = Some (s, es) ->
    linearizable (pspec_lossy N ext_prio) all_free (history es) /\ exists sg, sp_run (pspec_lossy N ext_prio) all_free (effects es) sg.
Proof. exact stack_atomic. Qed.
Print Assumptions c74_atomic.
(** ... and nothing vanishes as long as no start has returned TimedOut, which takes a start with a time limit *)
Theorem c74_atomic_strict :
  forall (N : nat), (Z.of_nat N < 2 ^ 64 - 1)%Z ->
  forall (dflt : Z) (ext_prio : nat -> Z) (q0 : qst nat) (ls : list tlab) (s : tst) (es : list (event pcall pres)),
    filled N q0 -> exec (t_step N dflt ext_prio) (t_init dflt q0) ls = Some (s, es) -> no_start_timed_out es ->
    linearizable (pspec N ext_prio) all_free (history es).
Proof. exact stack_atomic_strict. Qed.
Print Assumptions c74_atomic_strict.
Theorem c74_patient_callers :
  forall (N : nat), (Z.of_nat N < 2 ^ 64 - 1)%Z ->
  forall (dflt : Z) (ext_prio : nat -> Z) (q0 : qst nat) (ls : list tlab) (s : tst) (es : list (event pcall pres)),
    filled N q0 -> exec (t_step N dflt ext_prio) (t_init dflt q0) ls = Some (s, es) ->
    (forall t x ms g p, In (Call t (PStart x ms g p)) es -> ms = (-1)%Z) -> no_start_timed_out es.
Proof. exact stack_patient. Qed.
Print Assumptions c74_patient_callers.
(** a task is never begun more often than accepted, and exactly as often when the threads are finished *)
Theorem c74_each_task_once :
  forall (N : nat), (Z.of_nat N < 2 ^ 64 - 1)%Z ->
  forall (dflt : Z) (ext_prio : nat -> Z) (q0 : qst nat) (ls : list tlab) (s : tst) (es : list (event pcall pres)) (x : task),
    filled N q0 -> exec (t_step N dflt ext_prio) (t_init dflt q0) ls = Some (s, es) ->
    count_eff (ended x) (effects es) <= count_eff (begun x) (effects es) <= count_eff (accepted x) (effects es) /\
    ((forall r, r < N -> p_run (t_pool s) r = WOff) ->
      count_eff (begun x) (effects es) = count_eff (accepted x) (effects es) /\ count_eff (ended x) (effects es) = count_eff (accepted x) (effects es)).
Proof. exact stack_each_task_once. Qed.
Print Assumptions c74_each_task_once.
(** WaitGuard::wait returns OK, and release returns, only after the task started with that guard has begun and ended since *)
Theorem c74_guard_waits :
  forall (N : nat), (Z.of_nat N < 2 ^ 64 - 1)%Z ->
  forall (dflt : Z) (ext_prio : nat -> Z) (q0 : qst nat) (ls : list tlab) (s : tst) (es : list (event pcall pres)) l1 l2 l3 t x ms g p c res,
    filled N q0 -> exec (t_step N dflt ext_prio) (t_init dflt q0) ls = Some (s, es) ->
    effects es = l1 ++ (t, PStart x ms (Some g) p, PErr OK) :: l2 ++ (t, c, res) :: l3 ->
    (exists ms', c = PWait g ms' /\ res = PErr OK) \/ c = PRelease g -> ~ In (t, PRelease g, PVoid) l2 ->
    exists r q th m1 m2 m3, r < N /\ l2 = m1 ++ (r, PBegin x q, PVoid) :: m2 ++ (r, PEnd x th, PVoid) :: m3 /\ forall v, p = Some v -> q = v.
Proof. exact stack_guard_waits. Qed.
Print Assumptions c74_guard_waits.
(** the pool never makes the queue write over a live slot, read a raw one or leave its buffer *)
Theorem c74_queue_memory :
  forall (N : nat), (Z.of_nat N < 2 ^ 64 - 1)%Z ->
  forall (dflt : Z) (ext_prio : nat -> Z) (q0 : qst nat) (ls : list tlab) (s : tst) (es : list (event pcall pres)),
    filled N q0 -> exec (t_step N dflt ext_prio) (t_init dflt q0) ls = Some (s, es) -> q_ub (t_queue s) = false.
Proof. exact stack_memory. Qed.
Print Assumptions c74_queue_memory.
(** when nothing moves until a task ends - neither in the pool nor in the queue -, a start in progress has no time limit and every thread
    is running a task, held by a guard, or lost to a start that timed out; a wait or release in progress waits for a running task; in
    particular nobody is stuck while giving a thread back *)
Theorem c74_who_waits :
  forall (N : nat), (Z.of_nat N < 2 ^ 64 - 1)%Z ->
  forall (dflt : Z) (ext_prio : nat -> Z) (q0 : qst nat) (ls : list tlab) (s : tst) (es : list (event pcall pres)),
    filled N q0 -> exec (t_step N dflt ext_prio) (t_init dflt q0) ls = Some (s, es) -> t_stuck N dflt ext_prio s ->
    exists lost, length lost <= count_eff timed_out (effects es) /\ forall t,
    t_idle s t \/
    (exists x g p, p_thr (t_pool s) t = PAt (PStart x (-1)%Z g p) /\
       forall r, r < N -> In r lost \/ p_run (t_pool s) r = WIn \/ exists t' g', p_guard (t_pool s) t' g' = Some r) \/
    (exists g r, (p_thr (t_pool s) t = PAt (PWait g (-1)%Z) \/ p_thr (t_pool s) t = PAt (PRelease g)) /\ r < N /\
                 p_guard (t_pool s) t g = Some r /\ p_run (t_pool s) r = WIn).
Proof. exact stack_who_waits. Qed.
Print Assumptions c74_who_waits.
(** the same without counting time-outs as moves: what calls wait for, whatever their time limits *)
Theorem c74_what_calls_wait_for :
  forall (N : nat), (Z.of_nat N < 2 ^ 64 - 1)%Z ->
  forall (dflt : Z) (ext_prio : nat -> Z) (q0 : qst nat) (ls : list tlab) (s : tst) (es : list (event pcall pres)),
    filled N q0 -> exec (t_step N dflt ext_prio) (t_init dflt q0) ls = Some (s, es) -> (forall l, t_moves l -> t_step N dflt ext_prio s l = None) ->
    exists lost, length lost <= count_eff timed_out (effects es) /\ forall t,
    t_idle s t \/
    (exists x ms g p, p_thr (t_pool s) t = PAt (PStart x ms g p) /\
       forall r, r < N -> In r lost \/ p_run (t_pool s) r = WIn \/ exists t' g', p_guard (t_pool s) t' g' = Some r) \/
    (exists g r, ((exists ms, p_thr (t_pool s) t = PAt (PWait g ms)) \/ p_thr (t_pool s) t = PAt (PRelease g)) /\ r < N /\
                 p_guard (t_pool s) t g = Some r /\ p_run (t_pool s) r = WIn).
Proof. exact stack_waits_for. Qed.
Print Assumptions c74_what_calls_wait_for.
(** at rest, with no guard valid and no start timed out, the queue is full again, and says that it is not empty *)
Theorem c74_all_back :
  forall (N : nat), (Z.of_nat N < 2 ^ 64 - 1)%Z ->
  forall (dflt : Z) (ext_prio : nat -> Z) (q0 : qst nat) (ls : list tlab) (s : tst) (es : list (event pcall pres)),
    filled N q0 -> exec (t_step N dflt ext_prio) (t_init dflt q0) ls = Some (s, es) -> no_start_timed_out es ->
    (forall t, t_idle s t) -> (forall r, r < N -> p_run (t_pool s) r = WOff) -> (forall t g, p_guard (t_pool s) t g = None) ->
    ring_size nat (rbBufSize (Z.of_nat N)) (q_ring (t_queue s)) = Z.of_nat N /\ (0 < N -> q_ne (t_queue s) = true).
Proof. exact stack_all_back. Qed.
Print Assumptions c74_all_back.
(** the calls of n callers and the N threads make a bounded number of steps, in the pool and in the queue, until a task ends or a new call is made *)
Theorem c74_bounded_work :
  forall (N : nat), (Z.of_nat N < 2 ^ 64 - 1)%Z ->
  forall (dflt : Z) (ext_prio : nat -> Z) (q0 : qst nat) (n : nat) (ls0 : list tlab) (s : tst) (es0 : list (event pcall pres)) (ls : list tlab) (s' : tst)
         (es : list (event pcall pres)),
    filled N q0 -> exec (t_step N dflt ext_prio) (t_init dflt q0) ls0 = Some (s, es0) -> (forall t, n <= t -> t_idle s t) ->
    (forall l, In l ls -> t_own_step l) -> exec (t_step N dflt ext_prio) s ls = Some (s', es) -> length ls <= 293 * n + 111 * N.
Proof. exact stack_bounded_work. Qed.
Print Assumptions c74_bounded_work.

(** the creating thread is number 9 *)
Definition fill (N : nat) : list (qlab nat) := flat_map (fun r => QCall 9 (QSend r (-1)%Z) :: repeat (QStep 9) 10) (seq 0 N).
Definition full (N : nat) : qst nat := match exec (q_step nat (Z.of_nat N)) (q_init nat) (fill N) with Some (q, _) => q | None => q_init nat end.
Lemma full_two : filled 2 (full 2).
Proof.
  destruct (exec (q_step nat 2) (q_init nat) (fill 2)) as [[q es]|] eqn:E; [|vm_compute in E; discriminate].
  exists 9, (fill 2), es. replace (full 2) with q by (unfold full; change (Z.of_nat 2) with 2%Z; now rewrite E). split; [exact E|].
  vm_compute in E. injection E as <- <-. split; [reflexivity|]. intros t. do 10 (destruct t as [|t]; [reflexivity|]). reflexivity.
Qed.
Lemma full_one : filled 1 (full 1).
Proof.
  destruct (exec (q_step nat 1) (q_init nat) (fill 1)) as [[q es]|] eqn:E; [|vm_compute in E; discriminate].
  exists 9, (fill 1), es. replace (full 1) with q by (unfold full; change (Z.of_nat 1) with 1%Z; now rewrite E). split; [exact E|].
  vm_compute in E. injection E as <- <-. split; [reflexivity|]. intros t. do 10 (destruct t as [|t]; [reflexivity|]). reflexivity.
Qed.
(** a call of the queue that need not wait; a start up to its return *)
Definition through (t : nat) : list tlab := TEnter t :: repeat (TQueue t) 10.
Definition started (t x : nat) (ms : Z) (g : option nat) (p : option Z) : list tlab := [TPool (XCall t (PStart x ms g p))] ++ through t ++ repeat (TPool (XStep t)) 6.
(** two threads: client 2 starts task 5 with a guard, task 5 starts task 6 from inside, both end - thread 1 giving itself back -, client 2
    waits and releases *)
Definition two : list tlab :=
  started 2 5 (-1) (Some 9) (Some 3%Z) ++ [TPool (XRun 0); TPool (XRun 0)] ++ started 0 6 (-1) None None ++ [TPool (XRun 1); TPool (XRun 1); TPool (XTaskEnd 0 false); TPool (XTaskEnd 1 true)] ++
  repeat (TPool (XRun 1)) 3 ++ through 1 ++ [TPool (XRun 1)] ++ repeat (TPool (XRun 0)) 4 ++
  [TPool (XCall 2 (PWait 9 (-1))); TPool (XStep 2); TPool (XStep 2); TPool (XCall 2 (PRelease 9)); TPool (XStep 2); TPool (XStep 2)] ++ through 2 ++ [TPool (XStep 2)].
Example c74_two_tasks :
  match exec (t_step 2 1%Z (fun t => Z.of_nat t)) (t_init 1%Z (full 2)) two with
  | Some (s, es) =>
      effects es = [(2, PStart 5 (-1) (Some 9) (Some 3%Z), PErr OK); (0, PBegin 5 3, PVoid); (0, PStart 6 (-1) None None, PErr OK); (1, PBegin 6 3, PVoid);
                    (1, PEnd 6 true, PVoid); (0, PEnd 5 false, PVoid); (2, PWait 9 (-1), PErr OK); (2, PRelease 9, PVoid)] /\
      no_start_timed_out es /\ (forall t, t_idle s t) /\ (forall r, r < 2 -> p_run (t_pool s) r = WOff) /\ (forall t g, p_guard (t_pool s) t g = None)
  | None => False end.
Proof.
  vm_compute. split; [reflexivity|]. split; [|split; [|split]].
  - intros t x ms g p X. repeat (destruct X as [X|X]; [discriminate X|]). exact X.
  - intros t. do 10 (destruct t as [|t]; [reflexivity|]). reflexivity.
  - intros r Hr. do 2 (destruct r as [|r]; [reflexivity|]). exfalso. lia.
  - intros t g. do 3 (destruct t as [|t]; [repeat (destruct g as [|g]; [reflexivity|]); reflexivity|]). reflexivity.
Qed.
(** one thread: while it runs the task of client 1, client 2 waits inside the queue; client 3 polls and is refused because client 2 is
    inside; the task ends, its thread goes through the queue while client 2 sleeps there, and client 2 gets it *)
Definition busy_queue : list tlab :=
  started 1 5 (-1) None (Some 3%Z) ++ [TPool (XRun 0); TPool (XRun 0); TPool (XCall 2 (PStart 6 (-1) None None)); TEnter 2] ++ repeat (TQueue 2) 5 ++
  [TPool (XCall 3 (PStart 7 0 None None)); TEnter 3; TGiveUp 3; TQueue 3; TPool (XStep 3); TPool (XTaskEnd 0 false)].
Definition handed_over : list tlab :=
  repeat (TPool (XRun 0)) 3 ++ [TEnter 0] ++ repeat (TQueue 0) 7 ++ [TQueue 2] ++ repeat (TQueue 0) 3 ++ repeat (TQueue 2) 6 ++ [TPool (XRun 0)] ++ repeat (TPool (XStep 2)) 6 ++ [TPool (XRun 0); TPool (XRun 0)].
Example c74_queue_in_use :
  match exec (t_step 1 1%Z (fun _ => 4%Z)) (t_init 1%Z (full 1)) (busy_queue ++ handed_over) with
  | Some (s, es) =>
      effects es = [(1, PStart 5 (-1) None (Some 3%Z), PErr OK); (0, PBegin 5 3, PVoid); (3, PStart 7 0 None None, PErr TimedOut); (0, PEnd 5 false, PVoid);
                    (2, PStart 6 (-1) None None, PErr OK); (0, PBegin 6 4, PVoid)] /\
      t_idle s 2 /\ p_run (t_pool s) 0 = WIn
  | None => False end.
Proof. vm_compute. repeat split. Qed.
(** stuck: the task runs on, client 2 waits inside the queue *)
Example c74_waiting :
  match exec (t_step 1 1%Z (fun _ => 4%Z)) (t_init 1%Z (full 1)) (removelast busy_queue) with
  | Some (s, es) => t_stuck 1 1%Z (fun _ => 4%Z) s /\ ~ t_idle s 2 /\ forall t, 4 <= t -> t_idle s t
  | None => False end.
Proof.
  vm_compute. split; [|split; [discriminate|]].
  - intros l Hl. destruct l as [l|t|t|t].
    + destruct l as [t c|t|t o|r|r b]; try contradiction.
      * do 4 (destruct t as [|t]; [reflexivity|]). reflexivity.
      * do 4 (destruct t as [|t]; [reflexivity|]). reflexivity.
      * destruct r as [|r]; reflexivity.
    + do 10 (destruct t as [|t]; [reflexivity|]). reflexivity.
    + do 10 (destruct t as [|t]; [reflexivity|]). reflexivity.
    + do 10 (destruct t as [|t]; [reflexivity|]). reflexivity.
  - intros t Ht. do 4 (destruct t as [|t]; [exfalso; lia|]). do 6 (destruct t as [|t]; [reflexivity|]). reflexivity.
Qed.
(** nothing moves but for time-outs: client 2 waits inside the queue and client 1 for its task, both with a time limit *)
Definition busy_limited : list tlab :=
  started 1 5 (-1) (Some 4) (Some 3%Z) ++ [TPool (XRun 0); TPool (XRun 0); TPool (XCall 2 (PStart 6 50 None None)); TEnter 2] ++ repeat (TQueue 2) 5 ++ [TPool (XCall 1 (PWait 4 20))].
Example c74_waiting_limited :
  match exec (t_step 1 1%Z (fun _ => 4%Z)) (t_init 1%Z (full 1)) busy_limited with
  | Some (s, es) => (forall l, t_moves l -> t_step 1 1%Z (fun _ => 4%Z) s l = None) /\ p_thr (t_pool s) 1 = PAt (PWait 4 20) /\ p_thr (t_pool s) 2 = PAt (PStart 6 50 None None)
  | None => False end.
Proof.
  vm_compute. split; [|split; reflexivity].
  intros l Hl. destruct l as [l|t|t|t]; try contradiction.
  - destruct l as [t c|t|t o|r|r b]; try contradiction.
    + do 4 (destruct t as [|t]; [reflexivity|]). reflexivity.
    + destruct r as [|r]; reflexivity.
  - do 10 (destruct t as [|t]; [reflexivity|]). reflexivity.
  - do 10 (destruct t as [|t]; [reflexivity|]). reflexivity.
Qed.
