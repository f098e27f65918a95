(** C57: ItronThread: any number of client tasks, every schedule.  Agent 0 is the thread itself, which may also call methods of its
    own object while it runs.  [prio0]: initial priority; [minp], [maxp]: the priority range; [ext t]: priority of client t. *)
From Coq Require Import List ZArith Bool Lia.
Import ListNotations.
From Verif Require Import Spec.OSError Spec.Linear Spec.ThreadSpec Spec.ItronThreadSpec OS.Sched OS.ItronThreadModel OS.ItronThreadProofs.
Open Scope Z_scope.

(** every call and every begin and end of a run takes effect at one instant inside it, as ThreadSpec and the priority
    specification say; each effective start leads to one run *)
Theorem c57_itron_thread_is_atomic :
  forall (prio0 minp maxp : Z) (ext : nat -> Z) (ls : list ilabel) (s : its) (es : list (event icall ires)),
    (forall l, In l ls -> n_label_ok l) -> exec (n_step prio0 minp maxp ext) (n_init prio0) ls = Some (s, es) ->
    exists es' f st p, history es' = history es /\
      lin_run (ispec (n_resolve minp maxp ext)) (fun _ => Out) (Finished, prio0) es' f (st, p) /\
      one_run_per_start st (marks Finished (thread_part (effects es'))).
Proof. exact itron_thread_linearizable. Qed.
Print Assumptions c57_itron_thread_is_atomic.
(** while the runnable runs the task has the thread's priority, unless a setPriority call is just changing it *)
Theorem c57_runs_at_its_priority :
  forall (prio0 minp maxp : Z) (ext : nat -> Z) (ls : list ilabel) (s : its) (es : list (event icall ires)),
    (forall l, In l ls -> n_label_ok l) -> exec (n_step prio0 minp maxp ext) (n_init prio0) ls = Some (s, es) ->
    n_task s = KRun -> n_kpri s = n_prio s \/ exists t, n_setting s t.
Proof. exact itron_thread_priority. Qed.
Print Assumptions c57_runs_at_its_priority.
(** when nothing can move any more every call has returned and every effective start has had its complete run *)
Theorem c57_nobody_is_left_waiting :
  forall (prio0 minp maxp : Z) (ext : nat -> Z) (ls : list ilabel) (s : its) (es : list (event icall ires)),
    (forall l, In l ls -> n_label_ok l) -> exec (n_step prio0 minp maxp ext) (n_init prio0) ls = Some (s, es) ->
    (forall t, n_step prio0 minp maxp ext s (NStep t) = None) -> n_step prio0 minp maxp ext s NTask = None ->
    (forall t, n_idle s t) /\ n_task s = KDorm /\
    exists es' f p, history es' = history es /\
      lin_run (ispec (n_resolve minp maxp ext)) (fun _ => Out) (Finished, prio0) es' f (Finished, p) /\
      exists k, marks Finished (thread_part (effects es')) = concat (repeat [MStart; MBegin; MEnd] k).
Proof. exact itron_thread_no_hang. Qed.
Print Assumptions c57_nobody_is_left_waiting.
(** and without new calls (and not counting polls that find the task not dormant) that point is reached in a bounded number of steps *)
Theorem c57_calls_in_progress_end :
  forall (prio0 minp maxp : Z) (ext : nat -> Z) (n : nat) (s : its) (ls : list ilabel) (s' : its) (es : list (event icall ires)),
    (forall t, (n <= t)%nat -> n_idle s t) -> (forall l, In l ls -> n_own_step l) ->
    exec (n_step prio0 minp maxp ext) s ls = Some (s', es) -> (length ls <= 15 * n + 5)%nat.
Proof. exact itron_thread_calls_end. Qed.
Print Assumptions c57_calls_in_progress_end.
(** destroy, called when every other call has returned: it waits for the run in progress, then deletes the task, and it returns *)
Theorem c57_destroy_waits_and_returns :
  forall (prio0 minp maxp : Z) (ext : nat -> Z) (ls0 : list ilabel) (s0 : its) (es0 : list (event icall ires))
         (d : nat) (ls : list ilabel) (s : its) (es : list (event icall ires)),
    (forall l, In l ls0 -> n_label_ok l) -> exec (n_step prio0 minp maxp ext) (n_init prio0) ls0 = Some (s0, es0) ->
    (forall t, n_idle s0 t) -> (forall l, In l ls -> n_own_step l) ->
    exec (n_step prio0 minp maxp ext) s0 (NCall d (IT TDestroy) :: ls) = Some (s, es) ->
    (exists es' f st p, history es' = history (es0 ++ es) /\
       lin_run (ispec (n_resolve minp maxp ext)) (fun _ => Out) (Finished, prio0) es' f (st, p) /\
       (n_idle s d -> st = Destroyed /\ n_task s = KDel /\
          exists k, marks Finished (thread_part (effects es')) = concat (repeat [MStart; MBegin; MEnd] k))) /\
    ((forall t, n_step prio0 minp maxp ext s (NStep t) = None) -> n_step prio0 minp maxp ext s NTask = None -> n_idle s d).
Proof. exact itron_thread_destroy. Qed.
Print Assumptions c57_destroy_waits_and_returns.
(** tryWait and timed waits do not keep their time limit: once EV_FINISHED was seen they poll without limit until the task is
    dormant, through a whole further run if the thread is started again meanwhile *)
Theorem c57_try_wait_does_not_block_refuted :
  ~ (forall prio0 minp maxp ext ls s es t ms, (forall l, In l ls -> n_label_ok l) -> exec (n_step prio0 minp maxp ext) (n_init prio0) ls = Some (s, es) ->
       n_running s t = Some (IT (TWait ms)) -> ms <> -1 -> n_step prio0 minp maxp ext s (NStep t) <> None \/ n_step prio0 minp maxp ext s (NTimeout t) <> None).
Proof. exact itron_trywait_blocks. Qed.
Print Assumptions c57_try_wait_does_not_block_refuted.

(** client 1 sets the priority to 7 and starts; client 2 waits; the thread itself asks for INHERIT (99), then for priority 3;
    client 3 starts again (no effect) and times out; the run ends; client 2 returns; isFinished; destroy *)
Definition c57_schedule : list ilabel :=
  [NCall 1 (ISetPriority 7); NStep 1; NStep 1; NStep 1; NStep 1; NStep 1] ++
  [NCall 1 (IT TStart); NStep 1; NStep 1; NStep 1; NStep 1; NCall 2 (IT (TWait (-1))); NStep 2; NStep 1; NStep 1; NStep 1; NStep 1; NStep 1; NStep 1; NTask; NTask] ++
  [NCall 0 (ISetPriority 99); NStep 0; NStep 0; NStep 0; NStep 0; NStep 0; NCall 0 (ISetPriority 3); NStep 0; NStep 0; NStep 0; NStep 0; NStep 0] ++
  [NCall 3 (IT TStart); NStep 3; NStep 3; NStep 3; NStep 3; NCall 3 (IT (TWait 5)); NStep 3; NTimeout 3; NStep 3; NCall 3 IGetPriority; NStep 3; NStep 3; NStep 3] ++
  [NTask; NTask; NSpin 2; NTask; NStep 2; NStep 2; NCall 3 (IT TIsFinished); NStep 3; NStep 3; NStep 3].
Example c57_case_labels : forall l, In l c57_schedule -> n_label_ok l.
Proof. intros l H. cbn in H. intuition (subst; cbn; lia). Qed.
Example c57_case :
  match exec (n_step 5 1 10 (fun _ => 4)) (n_init 5) c57_schedule with
  | Some (s, es) =>
      history es =
        [Call 1%nat (ISetPriority 7); Ret 1%nat (IR RVoid); Call 1%nat (IT TStart); Call 2%nat (IT (TWait (-1))); Ret 1%nat (IR RVoid);
         Call 0%nat (IT TBegin); Ret 0%nat (IR RVoid); Call 0%nat (ISetPriority 99); Ret 0%nat (IR RVoid); Call 0%nat (ISetPriority 3); Ret 0%nat (IR RVoid);
         Call 3%nat (IT TStart); Ret 3%nat (IR RVoid); Call 3%nat (IT (TWait 5)); Ret 3%nat (IR (RErr TimedOut)); Call 3%nat IGetPriority; Ret 3%nat (IPrio 3);
         Call 0%nat (IT TEnd); Ret 0%nat (IR RVoid); Ret 2%nat (IR (RErr OK)); Call 3%nat (IT TIsFinished); Ret 3%nat (IR (RBool true))] /\
      n_task s = KDorm /\ n_prio s = 3 /\ (n_thr s 0%nat = IIdle /\ n_thr s 1%nat = IIdle /\ n_thr s 2%nat = IIdle /\ n_thr s 3%nat = IIdle)
  | None => False
  end.
Proof. vm_compute. repeat split. Qed.
(** client 1 starts, its call returns, and while the thread is still to run client 4 destroys it: destroy waits for the run *)
Definition c57_before : list ilabel :=
  [NCall 1 (IT TStart); NStep 1; NStep 1; NStep 1; NStep 1; NStep 1; NStep 1; NStep 1; NStep 1; NStep 1].
Example c57_case_destroy :
  match exec (n_step 5 1 10 (fun _ => 4)) (n_init 5) c57_before with
  | Some (s0, es0) => n_thr s0 1%nat = IIdle /\ n_task s0 = KAwait /\
      match exec (n_step 5 1 10 (fun _ => 4)) s0 [NCall 4 (IT TDestroy); NStep 4; NTask; NTask; NTask; NTask; NTask; NStep 4; NStep 4; NStep 4] with
      | Some (s, es) => n_thr s 4%nat = IIdle /\ n_task s = KDel
      | None => False
      end
  | None => False
  end.
Proof. vm_compute. repeat split. Qed.
