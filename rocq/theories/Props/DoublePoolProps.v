(** C73: ThreadPool in a unit test over test doubles.  [n]: the number of threads, [sync]: the test's threads run their task inside start()
    (an override); otherwise, as with the library's doubles, start() does nothing.  [answers]: the doubles of the pool's queue;
    [thread_wait], [event_wait]: the threads' and event flags' waits. *)
From Coq Require Import List ZArith Bool Lia Permutation.
Import ListNotations.
From Verif Require Import Spec.OSError Spec.DoubleSpec OS.DoubleModel OS.DoublePoolModel OS.DoublePoolProofs.
Open Scope Z_scope.

(** the tasks whose start returned OK run exactly once each, in the order of the calls, with the priority of the call, if the threads run
    their task; no task runs otherwise *)
Theorem c73_tasks_run_once_in_order :
  forall (n : nat), Z.of_nat n < 2 ^ 64 - 1 ->
  forall (dflt : Z) (answers : dlog -> dcall -> err) (sync : bool) (thread_wait event_wait : nat -> err),
    (forall l o ms, answers l (DTimedLock o ms) = OK) ->
  forall (s0 : dp) (cs : list pcall) (s : dp) (rs : list err),
    dp_create n dflt answers = Some s0 -> dp_run n dflt answers sync thread_wait event_wait s0 cs = Some (s, rs) ->
    dp_ran s = if sync then started cs rs else [].
Proof. exact ran_ok. Qed.
Print Assumptions c73_tasks_run_once_in_order.
(** threads that run their task: without guards every start of a task succeeds, however many there are *)
Theorem c73_starts_succeed_partial :
  forall (n : nat), Z.of_nat n < 2 ^ 64 - 1 ->
  forall (dflt : Z) (answers : dlog -> dcall -> err) (sync : bool) (thread_wait event_wait : nat -> err),
    (forall l o ms, answers l (DTimedLock o ms) = OK) -> sync = true -> (forall r, thread_wait r = OK) ->
  forall (s0 : dp) (cs : list pcall), (0 < n)%nat -> dp_create n dflt answers = Some s0 ->
    (forall c, In c cs -> exists task ms pri, c = PStart task ms None pri /\ task <> 0) ->
    exists s, dp_run n dflt answers sync thread_wait event_wait s0 cs = Some (s, map (fun _ => OK) cs).
Proof. exact sync_starts. Qed.
Print Assumptions c73_starts_succeed_partial.
(** waits that answer an error: no call is undefined, and destroy destroys no thread twice *)
Theorem c73_no_undefined_behaviour_partial :
  forall (n : nat), Z.of_nat n < 2 ^ 64 - 1 ->
  forall (dflt : Z) (answers : dlog -> dcall -> err) (sync : bool) (thread_wait event_wait : nat -> err),
    (forall l o ms, answers l (DTimedLock o ms) = OK) ->
  forall (s0 : dp) (cs : list pcall), (forall l p ms, answers l (DWait p ms) <> OK) -> dp_create n dflt answers = Some s0 ->
    exists s rs, dp_run n dflt answers sync thread_wait event_wait s0 cs = Some (s, rs).
Proof. exact no_ub. Qed.
Print Assumptions c73_no_undefined_behaviour_partial.
Theorem c73_destroys_no_thread_twice_partial :
  forall (n : nat), Z.of_nat n < 2 ^ 64 - 1 ->
  forall (dflt : Z) (answers : dlog -> dcall -> err) (sync : bool) (thread_wait event_wait : nat -> err),
    (forall l o ms, answers l (DTimedLock o ms) = OK) ->
  forall (s0 : dp) (cs : list pcall) (s : dp) (rs : list err), (forall l p ms, answers l (DWait p ms) <> OK) -> dp_create n dflt answers = Some s0 ->
    dp_run n dflt answers sync thread_wait event_wait s0 cs = Some (s, rs) ->
    exists l, dp_destroy n answers s = Destroyed l /\ NoDup l /\ forall r, In r l -> (r < n)%nat.
Proof. exact destroy_once. Qed.
Print Assumptions c73_destroys_no_thread_twice_partial.
(** threads that run their task, guards each used for one task at a time and all released: destroy destroys every thread exactly once *)
Theorem c73_destroys_every_thread_partial :
  forall (n : nat), Z.of_nat n < 2 ^ 64 - 1 ->
  forall (dflt : Z) (answers : dlog -> dcall -> err) (sync : bool) (thread_wait event_wait : nat -> err),
    (forall l o ms, answers l (DTimedLock o ms) = OK) -> sync = true -> (forall r, thread_wait r = OK) ->
  forall (s0 : dp) (cs : list pcall) (s : dp) (rs : list err), (forall l p ms, answers l (DWait p ms) <> OK) -> dp_create n dflt answers = Some s0 ->
    proper [] cs -> unreleased [] cs = [] -> dp_run n dflt answers sync thread_wait event_wait s0 cs = Some (s, rs) ->
    exists l, dp_destroy n answers s = Destroyed l /\ Permutation l (seq 0 n).
Proof. exact destroy_all. Qed.
Print Assumptions c73_destroys_every_thread_partial.

(** waiting on a guard that holds no thread and releasing it are OK and do nothing; waiting on one that holds a thread gives what that thread's
    event flag answers, releasing it is OK *)
Theorem c73_guards :
  forall (n : nat), Z.of_nat n < 2 ^ 64 - 1 ->
  forall (dflt : Z) (answers : dlog -> dcall -> err) (sync : bool) (thread_wait event_wait : nat -> err),
    (forall l o ms, answers l (DTimedLock o ms) = OK) ->
  forall (s0 : dp) (cs : list pcall) (s : dp) (rs : list err) (g : nat) (ms : Z),
    let call := dp_call n dflt answers sync thread_wait event_wait in
    dp_create n dflt answers = Some s0 -> dp_run n dflt answers sync thread_wait event_wait s0 cs = Some (s, rs) ->
    (~ In g (holding [] cs rs) -> call s (PGuardWait g ms) = Some (s, OK) /\ call s (PGuardRelease g) = Some (s, OK)) /\
    (In g (holding [] cs rs) -> (exists r, (r < n)%nat /\ call s (PGuardWait g ms) = Some (s, event_wait r)) /\
       exists s', call s (PGuardRelease g) = Some (s', OK) /\ dp_ran s' = dp_ran s).
Proof. exact guard_calls. Qed.
Print Assumptions c73_guards.

(** with the library's doubles: ThreadPool::destroy is undefined behaviour whatever happened before *)
Theorem c73_destroy_is_undefined_refuted :
  forall (n : nat), Z.of_nat n < 2 ^ 64 - 1 ->
  forall (dflt : Z) (sync : bool) (thread_wait event_wait : nat -> err) (s0 : dp) (cs : list pcall) (s : dp) (rs : list err),
    dp_create n dflt default_answers = Some s0 -> dp_run n dflt default_answers sync thread_wait event_wait s0 cs = Some (s, rs) ->
    dp_destroy n default_answers s = UndefinedBehaviour.
Proof. exact (fun n HN dflt sync tw ew s0 cs s rs => destroy_ub n HN dflt default_answers sync tw ew (fun _ _ _ => eq_refl) s0 cs s rs (fun _ _ _ => eq_refl)). Qed.
Print Assumptions c73_destroy_is_undefined_refuted.
(** and of [n + 1] starts the last is *)
Theorem c73_one_start_too_many_is_undefined_refuted :
  forall (n : nat), Z.of_nat n < 2 ^ 64 - 1 ->
  forall (dflt : Z) (event_wait : nat -> err) (s0 : dp) (cs : list pcall) (c : pcall),
    dp_create n dflt default_answers = Some s0 -> length cs = n ->
    (forall x, In x (cs ++ [c]) -> exists task ms pri, x = PStart task ms None pri /\ task <> 0) ->
    (exists s, dp_run n dflt default_answers false (fun _ => OK) event_wait s0 cs = Some (s, map (fun _ => OK) cs)) /\
    dp_run n dflt default_answers false (fun _ => OK) event_wait s0 (cs ++ [c]) = None.
Proof. exact (fun n HN dflt ew s0 cs c => idle_threads_use_up n HN dflt default_answers false (fun _ => OK) ew (fun _ _ _ => eq_refl) s0 cs c eq_refl (fun _ _ _ => eq_refl) (fun _ => eq_refl)). Qed.
Print Assumptions c73_one_start_too_many_is_undefined_refuted.

(** not vacuous: two threads, run-at-once threads, waits that time out; five starts, two of them with guards *)
Definition c73_answers (l : dlog) (c : dcall) : err := match c with DWait _ _ => TimedOut | _ => OK end.
Definition c73_program : list pcall :=
  [PStart 11 (-1) None 3; PStart 12 (-1) (Some 1%nat) 4; PStart 0 (-1) None 3; PStart 13 (-1) (Some 2%nat) 5; PStart 14 0 None 6;
   PGuardWait 1 (-1); PGuardRelease 1; PStart 15 0 None 7; PGuardRelease 2].
Example c73_nonvacuous :
  match dp_create 2 9 c73_answers with
  | Some s0 => match dp_run 2 9 c73_answers true (fun _ => OK) (fun _ => OK) s0 c73_program with
               | Some (s, rs) => rs = [OK; OK; InvalidParameter; OK; TimedOut; OK; OK; OK; OK] /\ dp_ran s = [(11, 3); (12, 4); (13, 5); (15, 7)] /\
                                 dp_destroy 2 c73_answers s = Destroyed [1; 0]%nat
               | None => False
               end
  | None => False
  end.
Proof. vm_compute. repeat split. Qed.
Example c73_proper_nonvacuous : proper [] c73_program /\ unreleased [] c73_program = [].
Proof. split; [|reflexivity]. cbn. intuition congruence. Qed.
Example c73_refuted_nonvacuous :
  match dp_create 2 9 default_answers with
  | Some s0 => match dp_run 2 9 default_answers false (fun _ => OK) (fun _ => OK) s0 [PStart 11 0 None 3; PStart 12 0 None 3] with
               | Some (s, rs) => rs = [OK; OK] /\ dp_ran s = [] /\ dp_destroy 2 default_answers s = UndefinedBehaviour
               | None => False
               end /\ dp_run 2 9 default_answers false (fun _ => OK) (fun _ => OK) s0 [PStart 11 0 None 3; PStart 12 0 None 3; PStart 13 0 None 3] = None
  | None => False
  end.
Proof. vm_compute. repeat split. Qed.
Example c73_guards_nonvacuous : holding [] (firstn 6 c73_program) [OK; OK; InvalidParameter; OK; TimedOut; OK] = [2; 1]%nat /\
  holding [] c73_program [OK; OK; InvalidParameter; OK; TimedOut; OK; OK; OK; OK] = [].
Proof. split; reflexivity. Qed.
