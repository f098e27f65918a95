(** Properties of Thread: the start / wait protocol (C40) and destroy (C41).  Agent 0 is the thread itself. *)
From Coq Require Import List ZArith Bool Lia Arith.
Import ListNotations.
From Verif Require Import Spec.OSError Spec.Linear Spec.ThreadSpec OS.Sched OS.ThreadModel OS.ThreadProofs.
Open Scope Z_scope.

(** C40: any number of starters and waiters, every schedule: every call takes effect at one instant inside it and the
    calls and the runs of the runnable together obey [tspec]; each effective start leads to one run *)
Theorem c40_thread_is_atomic :
  forall (ls : list tlab) (s : tst) (es : list (event tcall tres)),
    exec t_step t_init ls = Some (s, es) -> proper_destroy (history es) ->
    linearizable tspec Finished (history es) /\
    exists st, sp_run tspec Finished (effects es) st /\ one_run_per_start st (marks Finished (effects es)).
Proof. exact thread_linearizable. Qed.
Print Assumptions c40_thread_is_atomic.
(** when nothing can move any more every call has returned, and every effective start has had its complete run:
    no waiter sleeps forever, no start is forgotten *)
Theorem c40_nobody_is_left_waiting :
  forall (ls : list tlab) (s : tst) (es : list (event tcall tres)),
    exec t_step t_init ls = Some (s, es) -> proper_destroy (history es) ->
    (forall t, t_step s (TStep t) = None) -> t_step s NStep = None ->
    (forall t, t_idle s t) /\ (t_nat s = NDone <-> exists d, In (Call d TDestroy) (history es)) /\
    exists k, marks Finished (effects es) = concat (repeat [MStart; MBegin; MEnd] k).
Proof. exact thread_no_hang. Qed.
Print Assumptions c40_nobody_is_left_waiting.
(** and without new calls that point is reached in a bounded number of steps *)
Theorem c40_calls_in_progress_end :
  forall (n : nat) (ls0 : list tlab) (s : tst) (es0 : list (event tcall tres)) (ls : list tlab) (s' : tst) (es : list (event tcall tres)),
    exec t_step t_init ls0 = Some (s, es0) -> (forall t, (n <= t)%nat -> t_idle s t) -> (forall l, In l ls -> t_own_step l) ->
    exec t_step s ls = Some (s', es) -> (length ls <= n * (2 * n + 8) + 2 * n + 6)%nat.
Proof. exact thread_calls_end. Qed.
Print Assumptions c40_calls_in_progress_end.
(** client 1 starts; client 2 waits, 3 starts again while running (no effect) and polls; then 1 destroys *)
Definition c40_schedule : list tlab :=
  [NStep; TCall 1 TStart; TStep 1; TCall 2 (TWait (-1)); TStep 2; NStep; TCall 3 TStart; TStep 3; TStep 3; TStep 1; TCall 3 (TWait 5); TStep 3; TTimeout 3; TStep 3] ++
  [NStep; NStep; TStep 2; TStep 2; TCall 3 TIsFinished; TStep 3; TStep 3; TCall 1 TDestroy; TStep 1; TStep 1; NStep; TStep 1; TStep 1].
Example c40_case :
  match exec t_step t_init c40_schedule with
  | Some (s, es) =>
      history es = [Call 1%nat TStart; Call 2%nat (TWait (-1)); Call 0%nat TBegin; Ret 0%nat RVoid; Call 3%nat TStart; Ret 3%nat RVoid;
                    Ret 1%nat RVoid; Call 3%nat (TWait 5); Ret 3%nat (RErr TimedOut); Call 0%nat TEnd; Ret 0%nat RVoid; Ret 2%nat (RErr OK);
                    Call 3%nat TIsFinished; Ret 3%nat (RBool true); Call 1%nat TDestroy; Ret 1%nat RVoid] /\
      marks Finished (effects es) = [MStart; MBegin; MEnd] /\ t_nat s = NDone
  | None => False
  end.
Proof. vm_compute. repeat split. Qed.
Example c40_case_proper : match exec t_step t_init c40_schedule with Some (s, es) => proper_destroy (history es) | None => False end.
Proof.
  vm_compute. intros h1 t h2 E.
  do 14 (destruct h1 as [|? h1]; [discriminate E|injection E as <- E]).
  destruct h1 as [|? h1]; [|injection E as <- E; destruct h1 as [|? h1]; [discriminate E|injection E as <- E; destruct h1; discriminate E]].
  injection E as <- <-. split.
  - intros u Hu. destruct u as [|[|[|[|u]]]]; [now elim Hu|reflexivity..].
  - intros u c [X|[]]. discriminate.
Qed.

(** C41: when destroy has returned the native thread has ended and every run is complete *)
Theorem c41_destroy_ends_the_thread :
  forall (ls : list tlab) (s : tst) (es : list (event tcall tres)) (d : nat),
    exec t_step t_init ls = Some (s, es) -> proper_destroy (history es) ->
    In (Call d TDestroy) (history es) -> is_open d (history es) = false ->
    t_nat s = NDone /\ exists k, marks Finished (effects es) = concat (repeat [MStart; MBegin; MEnd] k).
Proof. exact thread_destroyed. Qed.
Print Assumptions c41_destroy_ends_the_thread.
(** destroy always returns: it is a call like any other for c40_nobody_is_left_waiting and c40_calls_in_progress_end *)
Theorem c41_destroy_returns :
  forall (ls : list tlab) (s : tst) (es : list (event tcall tres)) (d : nat),
    exec t_step t_init ls = Some (s, es) -> proper_destroy (history es) -> In (Call d TDestroy) (history es) ->
    (forall t, t_step s (TStep t) = None) -> t_step s NStep = None -> t_idle s d /\ t_nat s = NDone.
Proof. exact thread_destroy_returns. Qed.
Print Assumptions c41_destroy_returns.
(** the condition is needed: a start() that races with destroy() can make destroy() hang in join forever *)
Theorem c41_without_the_proviso_refuted :
  ~ (forall (ls : list tlab) (s : tst) (es : list (event tcall tres)) (d : nat),
       exec t_step t_init ls = Some (s, es) -> In (Call d TDestroy) (history es) ->
       (forall t, t_step s (TStep t) = None) -> t_step s NStep = None -> t_idle s d /\ t_nat s = NDone).
Proof. exact thread_race_hangs. Qed.
Print Assumptions c41_without_the_proviso_refuted.
