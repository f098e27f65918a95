(** C87: the mutex on Itron may also be called outside tasks, from interrupt handlers and timer callbacks: any number of tasks
    and handlers, any schedule, any nesting, with or without discipline. *)
From Coq Require Import List ZArith Bool Lia Arith.
Import ListNotations.
From Verif Require Import Spec.OSError Spec.Linear Spec.MutexSpec Spec.ContextSpec OS.Sched OS.ItronMutexModel OS.ContextModel OS.ContextProofs.
Open Scope Z_scope.

(** callers with [nt] are handlers, all others tasks.  The history of all is that of a recursive mutex of the tasks which the
    handlers' calls do not touch: their calls to lock give CalledByNonThread and to unlock OtherError. *)
Theorem c87_handlers_are_refused_without_effect :
  forall (M : nat) (nt : nat -> bool) (ls : list xlab) (s : xst) (es : list (event mcall err)),
    exec (x_step nt false) x_init ls = Some (s, es) -> (S (length ls) < M)%nat -> Z.of_nat (length ls) < 2 ^ 64 ->
    linearizable (cspec M nt) None (history es).
Proof. exact ctx_linearizable. Qed.
Print Assumptions c87_handlers_are_refused_without_effect.
(** what the tasks see could also have happened with no handler: it is an execution of the tasks alone (no bound on its length) *)
Theorem c87_threads_cannot_tell :
  forall (nt : nat -> bool) (ls : list xlab) (s : xst) (es : list (event mcall err)),
    exec (x_step nt false) x_init ls = Some (s, es) ->
    exists ls', (length ls' <= length ls)%nat /\ exec i_step i_init ls' = Some (x_i s, of_threads nt es).
Proof. exact ctx_tasks_alone. Qed.
Print Assumptions c87_threads_cannot_tell.
(** a handler's call never waits: from any state, it ends within four steps of its own *)
Theorem c87_handlers_never_wait :
  forall (nt : nat -> bool) (lenient : bool) (s : xst) (h run : nat), nt h = true ->
    exists n s' es, (n <= 4)%nat /\ exec (x_step nt lenient) s (repeat (XStep h run) n) = Some (s', es) /\ x_h s' h = HIdle.
Proof. exact ctx_never_waits. Qed.
Print Assumptions c87_handlers_never_wait.
(** the result of every call of a handler that returned, in every kernel *)
Theorem c87_results :
  forall (nt : nat -> bool) (lenient : bool) (h : nat) (ls : list xlab) (s : xst) (es : list (event mcall err)) (c : mcall) (r : err),
    nt h = true -> exec (x_step nt lenient) x_init ls = Some (s, es) -> In (c, r) (results h (history es)) ->
    if is_lock c then r = CalledByNonThread else r = OtherError \/ (lenient = true /\ r = OK).
Proof. exact ctx_results. Qed.
Print Assumptions c87_results.
(** lock and timedLock are as documented.  Missing for the full statement: tryLock and unlock, refuted below. *)
Theorem c87_documented_results_partial :
  forall (nt : nat -> bool) (lenient : bool) (h : nat) (ls : list xlab) (s : xst) (es : list (event mcall err)) (c : mcall) (r : err),
    nt h = true -> exec (x_step nt lenient) x_init ls = Some (s, es) -> In (c, r) (results h (history es)) ->
    c <> MTryLock -> c <> MUnlock -> documented_outside c r.
Proof. exact ctx_documented. Qed.
Print Assumptions c87_documented_results_partial.

(** tryLock and unlock have no documented result outside threads *)
Theorem c87_documented_results_refuted :
  ~ (forall (nt : nat -> bool) (lenient : bool) (h : nat) (ls : list xlab) (s : xst) (es : list (event mcall err)) (c : mcall) (r : err),
       nt h = true -> exec (x_step nt lenient) x_init ls = Some (s, es) -> In (c, r) (results h (history es)) -> documented_outside c r) /\
  exists s es, exec (x_step c87_nt false) x_init c87_undocumented = Some (s, es) /\
    results 9 (history es) = [(MTryLock, CalledByNonThread); (MUnlock, OtherError)].
Proof. exact ctx_undocumented. Qed.
Print Assumptions c87_documented_results_refuted.
(** in a kernel whose get_tid and ref_mtx answer for the interrupted task, unlock in a handler takes a level from that task's
    nested lock: task 1 locked twice and unlocked once, yet task 2 has the mutex too *)
Theorem c87_lenient_kernel_refuted :
  ~ (forall (nt : nat -> bool) (lenient : bool) (ls : list xlab) (s : xst) (es : list (event mcall err)),
       exec (x_step nt lenient) x_init ls = Some (s, es) ->
       exists ls', (length ls' <= length ls)%nat /\ exec i_step i_init ls' = Some (x_i s, of_threads nt es)) /\
  exists s es, exec (x_step c87_nt true) x_init c87_steal = Some (s, es) /\
    holds 1 (history es) = 1%nat /\ holds 2 (history es) = 1%nat /\ results 9 (history es) = [(MUnlock, OK)].
Proof. exact ctx_steal. Qed.
Print Assumptions c87_lenient_kernel_refuted.
(** task 1 nests twice while handler 9 tries everything, task 2 waits *)
Example c87_case :
  match exec (x_step c87_nt false) x_init
    ([XTask (KCall 1 MLock); XTask (KStep 1); XCall 9 (MTimedLock 5); XTask (KStep 1); XStep 9 1; XTask (KCall 1 MLock); XTask (KStep 1)] ++
     [XStep 9 1; XCall 9 MUnlock; XTask (KCall 2 MLock); XTask (KStep 1); XTask (KStep 1); XTask (KStep 1); XStep 9 1; XStep 9 1; XStep 9 1]) with
  | Some (s, es) =>
      history es = [Call 1%nat MLock; Call 9%nat (MTimedLock 5); Ret 1%nat OK; Call 1%nat MLock; Ret 9%nat CalledByNonThread; Call 9%nat MUnlock;
                    Call 2%nat MLock; Ret 1%nat OK; Ret 9%nat OtherError] /\
      i_owner (x_i s) = Some 1%nat /\ i_count (x_i s) = 1 /\ holds 1 (history es) = 2%nat
  | None => False
  end.
Proof. vm_compute. repeat split. Qed.
