(** C51: ItronMutex is a recursive mutex over the kernel's non-recursive one: any number of tasks, any schedule, any nesting,
    with or without discipline (tasks may unlock what they do not hold). *)
From Coq Require Import List ZArith Bool Lia Arith.
Import ListNotations.
From Verif Require Import Spec.OSError Spec.Linear Spec.MutexSpec OS.Sched OS.ItronMutexModel OS.ItronMutexProofs.
Open Scope Z_scope.

(** the history obeys [mspec], whose depth limit [M] is never met: lock OK adds one level, unlock by the owner removes one and
    frees the mutex at the last, unlock by anybody else gives NotLocked and changes nothing.  (2^64 steps would be needed for
    m_recursiveCount to wrap.) *)
Theorem c51_itron_mutex_is_atomic_and_recursive :
  forall (M : nat) (ls : list ilab) (s : ist) (es : list (event mcall err)),
    exec i_step i_init ls = Some (s, es) -> (S (length ls) < M)%nat -> Z.of_nat (length ls) < 2 ^ 64 ->
    linearizable (mspec M) None (history es).
Proof. exact itron_linearizable. Qed.
Print Assumptions c51_itron_mutex_is_atomic_and_recursive.
(** when nothing can move, every task is outside or waits in a lock call for another task that owns the mutex *)
Theorem c51_blocked_only_by_owner :
  forall s : ist, (forall t, i_step s (KStep t) = None) ->
    forall t, i_idle s t \/ exists c u, i_running s t = Some c /\ i_owner s = Some u /\ u <> t /\ i_idle s u.
Proof. exact itron_blocked. Qed.
Print Assumptions c51_blocked_only_by_owner.
Theorem c51_calls_in_progress_end :
  forall (n : nat) (s : ist) (ls : list ilab) (s' : ist) (es : list (event mcall err)),
    (forall t, (n <= t)%nat -> i_idle s t) -> (forall l, In l ls -> i_own_step l) ->
    exec i_step s ls = Some (s', es) -> (length ls <= 4 * n)%nat.
Proof. exact itron_calls_end. Qed.
Print Assumptions c51_calls_in_progress_end.
(** task 1 nests twice; task 2 unlocks without holding, times out, then gets the mutex after two unlocks *)
Definition c51_schedule : list ilab :=
  [KCall 1 MLock; KStep 1; KStep 1; KCall 1 MTryLock; KStep 1; KStep 1; KCall 2 MUnlock; KStep 2; KStep 1; KStep 2; KStep 1; KStep 2] ++
  [KCall 2 (MTimedLock 5); KTimeout 2; KStep 2; KCall 1 MUnlock; KStep 1; KStep 1; KStep 1; KStep 1; KCall 2 MLock] ++
  [KCall 1 MUnlock; KStep 1; KStep 1; KStep 1; KStep 2; KStep 1; KStep 2].
Example c51_case :
  match exec i_step i_init c51_schedule with
  | Some (s, es) =>
      history es = [Call 1%nat MLock; Ret 1%nat OK; Call 1%nat MTryLock; Call 2%nat MUnlock; Ret 1%nat OK; Ret 2%nat NotLocked;
                    Call 2%nat (MTimedLock 5); Ret 2%nat TimedOut; Call 1%nat MUnlock; Ret 1%nat OK; Call 2%nat MLock; Call 1%nat MUnlock; Ret 1%nat OK; Ret 2%nat OK] /\
      i_owner s = Some 2%nat /\ i_count s = 0
  | None => False
  end.
Proof. vm_compute. repeat split. Qed.
