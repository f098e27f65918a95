(** Properties of Mutex (C30, C31) and LockGuard (C32).  [M]: the deepest nesting the platform mutex supports. *)
From Coq Require Import List ZArith Bool Lia Arith.
Import ListNotations.
From Verif Require Import Spec.OSError Spec.Linear Spec.MutexSpec Spec.GuardSpec OS.Sched OS.MutexModel OS.MutexProofs
  OS.LockGuardModel OS.LockGuardProofs.
Open Scope Z_scope.

(** C30: clients unlock only what they have locked; any number of threads, any schedule, any nesting *)
Theorem c30_mutex_is_atomic_and_recursive :
  forall (M : nat), (1 <= M)%nat /\ Z.of_nat M < 2 ^ 64 -> forall (ls : list mlab) (s : mst) (es : list (event mcall err)),
    exec (m_step M) m_init ls = Some (s, es) -> disciplined (history es) ->
    linearizable (mspec M) None (history es) /\ x_ub s = false.
Proof. exact mutex_linearizable. Qed.
Print Assumptions c30_mutex_is_atomic_and_recursive.
Theorem c30_at_most_one_holder :
  forall (M : nat), (1 <= M)%nat /\ Z.of_nat M < 2 ^ 64 -> forall (ls : list mlab) (s : mst) (es : list (event mcall err)) (t u : nat),
    exec (m_step M) m_init ls = Some (s, es) -> disciplined (history es) ->
    (0 < holds t (history es))%nat -> (0 < holds u (history es))%nat -> t = u.
Proof. exact mutex_exclusive. Qed.
Print Assumptions c30_at_most_one_holder.
(** the lock is free exactly when every lock has been undone *)
Theorem c30_free_after_n_unlocks :
  forall (M : nat), (1 <= M)%nat /\ Z.of_nat M < 2 ^ 64 -> forall (ls : list mlab) (s : mst) (es : list (event mcall err)),
    exec (m_step M) m_init ls = Some (s, es) -> disciplined (history es) -> (forall t, m_idle s t) ->
    (x_owner s = None <-> forall t, holds t (history es) = 0%nat) /\
    forall t n, x_owner s = Some (t, n) -> holds t (history es) = n /\ (1 <= n)%nat.
Proof. exact mutex_depth. Qed.
Print Assumptions c30_free_after_n_unlocks.
(** a call that cannot go on is a lock call, and another thread that is inside no call owns the mutex *)
Theorem c30_blocked_only_by_owner :
  forall (M : nat) (ls : list mlab) (s : mst) (es : list (event mcall err)),
    exec (m_step M) m_init ls = Some (s, es) -> (forall t, m_step M s (MStep t) = None) ->
    forall t, m_idle s t \/ exists c u n, m_running s t = Some c /\ x_owner s = Some (u, n) /\ u <> t /\ m_idle s u.
Proof. exact mutex_blocked. Qed.
Print Assumptions c30_blocked_only_by_owner.
Theorem c30_calls_in_progress_end :
  forall (M n : nat) (s : mst) (ls : list mlab) (s' : mst) (es : list (event mcall err)),
    (forall t, (n <= t)%nat -> m_idle s t) -> (forall l, In l ls -> m_own_step l) ->
    exec (m_step M) s ls = Some (s', es) -> (length ls <= 4 * n)%nat.
Proof. exact mutex_calls_end. Qed.
Print Assumptions c30_calls_in_progress_end.
(** two threads; thread 0 nests twice, thread 1 times out, then gets the lock *)
Definition c30_schedule : list mlab :=
  [MCall 0 MLock; MStep 0; MCall 1 (MTimedLock 5); MStep 0; MStep 0; MCall 0 MTryLock; MStep 0; MStep 0; MTimeout 1; MStep 0; MStep 1] ++
  [MCall 0 MUnlock; MStep 0; MStep 0; MStep 0; MStep 0; MCall 0 MUnlock; MStep 0; MStep 0; MCall 1 MLock; MStep 0; MStep 1; MStep 0; MStep 1; MStep 1].
Example c30_case :
  match exec (m_step 100) m_init c30_schedule with
  | Some (s, es) =>
      history es = [Call 0%nat MLock; Call 1%nat (MTimedLock 5); Ret 0%nat OK; Call 0%nat MTryLock; Ret 0%nat OK; Ret 1%nat TimedOut;
                    Call 0%nat MUnlock; Ret 0%nat OK; Call 0%nat MUnlock; Call 1%nat MLock; Ret 0%nat OK; Ret 1%nat OK] /\
      holds 0 (history es) = 0%nat /\ holds 1 (history es) = 1%nat /\ x_owner s = Some (1%nat, 1%nat)
  | None => False
  end.
Proof. vm_compute. repeat split. Qed.
Example c30_case_disciplined : disciplined [Call 0%nat MLock; Ret 0%nat OK; Call 0%nat MUnlock; Ret 0%nat OK].
Proof.
  intros h1 t h2 E. destruct h1 as [|a [|b [|c [|d [|e h1]]]]]; cbn in E; try discriminate.
  injection E as <- <- <- <-. cbn. lia.
Qed.

(** C31: unlock by a thread that does not hold it.  True when the mutex is free and no call is in progress ... *)
Theorem c31_unlock_of_free_mutex_partial :
  forall (M : nat), (1 <= M)%nat /\ Z.of_nat M < 2 ^ 64 -> forall (ls : list mlab) (s : mst) (es : list (event mcall err)) (t : nat),
    exec (m_step M) m_init ls = Some (s, es) -> disciplined (history es) -> (forall u, m_idle s u) ->
    (forall u, holds u (history es) = 0%nat) ->
    exists s', exec (m_step M) s [MCall t MUnlock; MStep t; MStep t] = Some (s', [Call t MUnlock; Eff t MUnlock NotLocked; Ret t NotLocked]) /\
      x_owner s' = None /\ x_count s' = x_count s /\ x_ub s' = false /\ forall u, m_idle s' u.
Proof. exact mutex_unlock_free. Qed.
Print Assumptions c31_unlock_of_free_mutex_partial.
(** ... but not when another thread holds it: the call returns OK, the platform mutex is unlocked by a non-owner
    (undefined behaviour), the owner is then told NotLocked and the mutex stays locked *)
Theorem c31_unlock_by_other_thread_refuted :
  forall (M : nat), (1 <= M)%nat -> exists s es, exec (m_step M) m_init bad_schedule = Some (s, es) /\
    history es = [Call 0%nat MLock; Ret 0%nat OK; Call 1%nat MUnlock; Ret 1%nat OK; Call 0%nat MUnlock; Ret 0%nat NotLocked] /\
    x_ub s = true /\ x_owner s = Some (0%nat, 1%nat) /\ ~ linearizable (mspec M) None (history es).
Proof. exact mutex_bad. Qed.
Print Assumptions c31_unlock_by_other_thread_refuted.

(** C32 *)
Theorem c32_lock_guard_pairs_lock_and_unlock :
  forall (p : prog) (o : list err), bracketed (fst (fst (prun p o))).
Proof. exact guard_bracketed. Qed.
Print Assumptions c32_lock_guard_pairs_lock_and_unlock.
Theorem c32_no_lock_left_over :
  forall (p : prog) (o : list err) (m d : nat), depth_after m d (fst (fst (prun p o))) = Some d.
Proof. exact guard_balanced. Qed.
Print Assumptions c32_no_lock_left_over.
(** one scope: same way out as the body, unlock after the body exactly when lock() returned OK, nothing on a null mutex *)
Theorem c32_one_scope :
  forall (m : nat) (b : prog) (r : err) (o : list err), exists w l o',
    prun b o = (w, l, o') /\
    prun (PGuard (Some m) b) (r :: o) = (GLock m r :: w ++ (if err_eqb r OK then [GUnlock m] else []), l, o') /\
    prun (PAdopt (Some m) b) o = (GAdopt m :: w ++ [GUnlock m], l, o') /\
    prun (PGuard None b) o = (w, l, o') /\ prun (PAdopt None b) o = (w, l, o').
Proof. exact guard_scope. Qed.
Print Assumptions c32_one_scope.
Example c32_case_no_throw :
  prun (PTry (PGuard (Some 1%nat) (PSeq (PAct 7 false) (PAct 8 false))) (PAct 9 false)) [OK] = ([GLock 1 OK; GAct 7; GAct 8; GUnlock 1], Normally, []).
Proof. reflexivity. Qed.
Example c32_case :
  prun (PTry (PGuard (Some 1%nat) (PSeq (PGuard (Some 2%nat) (PAct 7 true)) (PAct 8 false))) (PAct 9 false)) [OK; TimedOut] =
  ([GLock 1 OK; GLock 2 TimedOut; GAct 7; GUnlock 1; GAct 9], Normally, []).
Proof. reflexivity. Qed.
