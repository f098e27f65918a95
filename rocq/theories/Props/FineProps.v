(** C70: the critical sections of Thread and of the timers are atomic.  In the models of C40-C45 each critical section is one step; here
    every read and every write of a shared field, every notification and every lock and unlock of the mutex is a step of its own
    (OS/Monitor: FAcq u - agent u locks the mutex; FMove u - the next access of agent u, which holds it; FOuter l - a step outside).  Agent 0 is
    the thread of the object, agent S t the client t.  The schedules [ls] interleave these steps in every possible way. *)
From Coq Require Import List ZArith Bool Lia Arith.
Import ListNotations.
From Verif Require Import Spec.OSError Spec.Linear Spec.ThreadSpec OS.Sched OS.Monitor OS.ThreadModel OS.ThreadFineModel OS.FineResults.
From Verif Require Spec.TimerSpec OS.TimerModel OS.TimerFineModel.
Open Scope nat_scope.

(** * Thread *)
(** no two agents are ever about to access a shared field *)
Theorem c70_thread_no_data_race :
  forall (ls : list (flab xlab)) (f : fstate xfld bool xcnd xpc xev) (es : list (event tcall tres)) (t u : nat) (a b : xfld),
    exec x_step x_init ls = Some (f, es) -> uses f t = Some a -> uses f u = Some b -> t = u.
Proof. exact fine_thread_no_race. Qed.
Print Assumptions c70_thread_no_data_race.
(** every call takes effect at one instant (as C40) *)
Theorem c70_thread_is_atomic :
  forall (ls : list (flab xlab)) (f : fstate xfld bool xcnd xpc xev) (es : list (event tcall tres)),
    exec x_step x_init ls = Some (f, es) -> proper_destroy (history es) ->
    linearizable tspec Finished (history es) /\
    exists st, sp_run tspec Finished (effects es) st /\ one_run_per_start st (marks Finished (effects es)).
Proof. exact fine_thread_atomic. Qed.
Print Assumptions c70_thread_is_atomic.
(** no wake-up is lost: when nothing can move every call has returned *)
Theorem c70_thread_nobody_is_left_waiting :
  forall (ls : list (flab xlab)) (f : fstate xfld bool xcnd xpc xev) (es : list (event tcall tres)),
    exec x_step x_init ls = Some (f, es) -> proper_destroy (history es) -> x_stuck f ->
    (forall t, x_idle f t) /\ (f_pc f 0 = FOut (XN NDone) <-> exists d, In (Call d TDestroy) (history es)) /\
    exists k, marks Finished (effects es) = concat (repeat [MStart; MBegin; MEnd] k).
Proof. exact fine_thread_no_hang. Qed.
Print Assumptions c70_thread_nobody_is_left_waiting.
(** and without new calls that point is reached in a bounded number of accesses *)
Theorem c70_thread_calls_end :
  forall (n : nat) (ls0 : list (flab xlab)) (f : fstate xfld bool xcnd xpc xev) (es0 : list (event tcall tres)) (ls : list (flab xlab))
         (f' : fstate xfld bool xcnd xpc xev) (es : list (event tcall tres)),
    exec x_step x_init ls0 = Some (f, es0) -> (forall t, n <= t -> x_idle f t) -> (forall l, In l ls -> x_own_step l) ->
    exec x_step f ls = Some (f', es) -> length ls <= 10 * (n * (2 * n + 8) + 2 * n + 6) + 5 * n + 5.
Proof. exact fine_thread_bounded. Qed.
Print Assumptions c70_thread_calls_end.
(** when destroy has returned the native thread has ended and every run is complete (as C41) *)
Theorem c70_thread_destroy_ends_it :
  forall (ls : list (flab xlab)) (f : fstate xfld bool xcnd xpc xev) (es : list (event tcall tres)) (d : nat),
    exec x_step x_init ls = Some (f, es) -> proper_destroy (history es) -> In (Call d TDestroy) (history es) -> is_open d (history es) = false ->
    f_pc f 0 = FOut (XN NDone) /\ exists k, marks Finished (effects es) = concat (repeat [MStart; MBegin; MEnd] k).
Proof. exact fine_thread_destroyed. Qed.
Print Assumptions c70_thread_destroy_ends_it.

(** clients 1 and 2 (agents 2 and 3) call start, client 3 waits; while client 1 is inside, about to write m_isActive, the others cannot lock *)
Definition c70_race : list (flab xlab) := [FOuter (OCall 1 TStart); FOuter (OCall 2 TStart); FOuter (OCall 3 (TWait 5)); FAcq 2; FMove 2].
Example c70_race_case :
  match exec x_step x_init c70_race with
  | Some (f, es) => uses f 2 = Some FActive /\ x_step f (FAcq 0) = None /\ x_step f (FAcq 3) = None /\ x_step f (FAcq 4) = None
  | None => False
  end.
Proof. vm_compute. repeat split. Qed.
(** and on: both starts (the second has no effect), a wait that times out between two accesses of the native thread, a poll, destroy *)
Definition c70_schedule : list (flab xlab) :=
  c70_race ++ [FMove 2; FMove 2; FMove 2; FAcq 3; FMove 3; FMove 3; FAcq 0; FMove 0; FOuter (ORet 1); FMove 0; FMove 0; FAcq 4; FMove 4; FMove 4; FOuter (ORet 2)] ++
  [FOuter ORunEnd; FOuter (OTimeout 3); FAcq 0; FMove 0; FMove 0; FMove 0; FAcq 4; FMove 4; FMove 4; FOuter (ORet 3); FAcq 0; FMove 0; FMove 0] ++
  [FOuter (OCall 1 TIsFinished); FAcq 2; FMove 2; FMove 2; FOuter (ORet 1)] ++
  [FOuter (OCall 1 TDestroy); FAcq 2; FMove 2; FMove 2; FAcq 2; FMove 2; FMove 2; FMove 2; FMove 2; FAcq 0; FMove 0; FMove 0; FMove 0; FOuter (OJoin 1); FOuter (ORet 1)].
Example c70_case :
  match exec x_step x_init c70_schedule with
  | Some (f, es) =>
      history es = [Call 1 TStart; Call 2 TStart; Call 3 (TWait 5); Ret 1 RVoid; Call 0 TBegin; Ret 0 RVoid; Ret 2 RVoid; Call 0 TEnd; Ret 0 RVoid; Ret 3 (RErr OK);
                    Call 1 TIsFinished; Ret 1 (RBool true); Call 1 TDestroy; Ret 1 RVoid] /\
      marks Finished (effects es) = [MStart; MBegin; MEnd] /\ f_pc f 0 = FOut (XN NDone) /\ x_idle f 1 /\ x_idle f 2 /\ x_idle f 3
  | None => False
  end.
Proof. vm_compute. repeat split. Qed.
Example c70_case_proper : match exec x_step x_init c70_schedule with Some (f, es) => proper_destroy (history es) | None => False end.
Proof.
  vm_compute. intros h1 t h2 E.
  do 12 (destruct h1 as [|? h1]; [discriminate E|injection E as <- E]).
  destruct h1 as [|? h1]; [|injection E as <- E; destruct h1 as [|? h1]; [discriminate E|injection E as <- E; destruct h1; discriminate E]].
  injection E as <- <-. split.
  - intros u Hu. destruct u as [|[|[|[|u]]]]; [now elim Hu|reflexivity..].
  - intros u c [X|[]]. discriminate.
Qed.
Example c70_case_stuck : match exec x_step x_init c70_schedule with Some (f, es) => x_stuck f | None => False end.
Proof.
  cbv -[x_stuck]. apply x_rest; [reflexivity|reflexivity|]. intros t. unfold x_idle. cbn [f_pc]. do 5 (destruct t as [|t]; [reflexivity|]). reflexivity.
Qed.

(** * Timers.  [v_step false] is the one-shot timer, [v_step true] the periodic one *)
Import Spec.TimerSpec OS.TimerModel OS.TimerFineModel.
Theorem c70_timer_no_data_race :
  forall (periodic : bool) (ls : list (flab vlab)) (f : fstate vfld bool vcnd vpc vev) (es : list (event mcall mres)) (t u : nat) (a b : vfld),
    exec (v_step periodic) v_init ls = Some (f, es) -> uses f t = Some a -> uses f u = Some b -> t = u.
Proof. exact fine_timer_no_race. Qed.
Print Assumptions c70_timer_no_data_race.
(** as C44: every call takes effect at one instant; one callback per start *)
Theorem c70_one_shot_is_atomic :
  forall (ls : list (flab vlab)) (f : fstate vfld bool vcnd vpc vev) (es : list (event mcall mres)),
    exec (v_step false) v_init ls = Some (f, es) ->
    linearizable (mspec false) m_new (history es) /\
    exists st, sp_run (mspec false) m_new (effects es) st /\ (f_own f = None -> m_on st = f_fld f VActive) /\
      one_shot_history st (mmarks false m_new (effects es)).
Proof. exact fine_one_shot_atomic. Qed.
Print Assumptions c70_one_shot_is_atomic.
(** as C45: callbacks only while started *)
Theorem c70_periodic_is_atomic :
  forall (ls : list (flab vlab)) (f : fstate vfld bool vcnd vpc vev) (es : list (event mcall mres)),
    exec (v_step true) v_init ls = Some (f, es) ->
    linearizable (mspec true) m_new (history es) /\
    exists st, sp_run (mspec true) m_new (effects es) st /\ (f_own f = None -> m_on st = f_fld f VActive) /\
      periodic_history st (mmarks true m_new (effects es)).
Proof. exact fine_periodic_atomic. Qed.
Print Assumptions c70_periodic_is_atomic.
(** a started one-shot timer fires *)
Theorem c70_started_timer_fires :
  forall (ls : list (flab vlab)) (f : fstate vfld bool vcnd vpc vev) (es : list (event mcall mres)),
    exec (v_step false) v_init ls = Some (f, es) -> never_calls MDestroy es -> v_stuck false f -> v_idle f 0 ->
    sp_run (mspec false) m_new (effects es) (mkMS false Rest false) /\
    exists rounds, mmarks false m_new (effects es) = concat rounds /\ Forall one_shot_round rounds.
Proof. exact fine_one_shot_fires. Qed.
Print Assumptions c70_started_timer_fires.
(** a stop, or the end of a one-shot callback, and until the next start *)
Theorem c70_after_stop :
  forall (periodic : bool) (ls : list (flab vlab)) (f : fstate vfld bool vcnd vpc vev) (es es1 : list (event mcall mres)) (u : nat) (c : mcall) (r : mres)
         (es2 : list (event mcall mres)),
    exec (v_step periodic) v_init ls = Some (f, es) -> es = es1 ++ Eff u c r :: es2 -> c = MStop \/ (c = MEnd /\ periodic = false) ->
    (forall t r', ~ In (Eff t MStart r') es2) ->
    (forall t r', In (Eff t MIsStarted r') es2 -> r' = MBool false) /\ begun es2 <= 1 /\ (dues es1 = begun es1 -> begun es2 = 0).
Proof. exact fine_after_stop. Qed.
Print Assumptions c70_after_stop.
(** calls return, under the conditions of C43 and C45 (the counterexamples there show that they are needed) *)
Theorem c70_undisturbed_calls_return :
  forall (ls : list (flab vlab)) (f : fstate vfld bool vcnd vpc vev) (es : list (event mcall mres)),
    exec (v_step false) v_init ls = Some (f, es) -> undisturbed es -> no_late_stop false es -> never_calls MDestroy es ->
    v_stuck false f -> forall t, v_idle f t.
Proof. exact fine_one_shot_calm. Qed.
Print Assumptions c70_undisturbed_calls_return.
Theorem c70_starts_alone_return :
  forall (periodic : bool) (ls : list (flab vlab)) (f : fstate vfld bool vcnd vpc vev) (es : list (event mcall mres)),
    exec (v_step periodic) v_init ls = Some (f, es) -> never_calls MStop es -> v_stuck periodic f -> forall t, v_idle f t.
Proof. exact fine_starts_alone. Qed.
Print Assumptions c70_starts_alone_return.
Theorem c70_one_starter_one_stopper_return :
  forall (c d : nat) (ls : list (flab vlab)) (f : fstate vfld bool vcnd vpc vev) (es : list (event mcall mres)),
    exec (v_step true) v_init ls = Some (f, es) -> disciplined c d es -> v_stuck true f -> forall t, v_idle f t.
Proof. exact (fun c d ls f es => fine_disciplined true c d ls f es eq_refl). Qed.
Print Assumptions c70_one_starter_one_stopper_return.
Theorem c70_one_shot_comes_to_rest :
  forall (n : nat) (ls0 : list (flab vlab)) (f : fstate vfld bool vcnd vpc vev) (es0 : list (event mcall mres)) (ls : list (flab vlab))
         (f' : fstate vfld bool vcnd vpc vev) (es : list (event mcall mres)),
    exec (v_step false) v_init ls0 = Some (f, es0) -> (forall t, n <= t -> v_idle f t) -> (forall l, In l ls -> v_own_step l) ->
    exec (v_step false) f ls = Some (f', es) -> length ls <= 18 * (n * (2 * n + 10) + 2 * n + 6) + 18.
Proof. exact fine_one_shot_bounded. Qed.
Print Assumptions c70_one_shot_comes_to_rest.
(** a destroyed timer is silent, and destroy returns unless the callback is blocked *)
Theorem c70_destroyed_timer_is_silent :
  forall (periodic : bool) (ls : list (flab vlab)) (f : fstate vfld bool vcnd vpc vev) (es : list (event mcall mres)) (d : nat),
    exec (v_step periodic) v_init ls = Some (f, es) -> In (Call d MDestroy) es -> v_idle f d ->
    forall (ls' : list (flab vlab)) (f' : fstate vfld bool vcnd vpc vev) (es' : list (event mcall mres)),
      exec (v_step periodic) f ls' = Some (f', es') -> forall c, ~ In (Call 0 c) es'.
Proof. exact fine_timer_destroyed. Qed.
Print Assumptions c70_destroyed_timer_is_silent.
Theorem c70_destroy_returns :
  forall (periodic : bool) (ls : list (flab vlab)) (f : fstate vfld bool vcnd vpc vev) (es : list (event mcall mres)),
    exec (v_step periodic) v_init ls = Some (f, es) -> v_stuck periodic f -> v_idle f 0 -> forall t, f_pc f (S t) <> FOut (VC t MJoin).
Proof. exact fine_destroy_returns. Qed.
Print Assumptions c70_destroy_returns.

(** one-shot: client 1 starts; client 2 polls between two accesses of the timer thread; client 1 stops in time, starts again and it fires *)
Definition moves (u k : nat) : list (flab vlab) := FAcq u :: repeat (FMove u) k.
Definition c70_timer_schedule : list (flab vlab) :=
  [FOuter (VCall 1 MStart); FOuter (VCall 2 MIsStarted)] ++ moves 2 3 ++ [FMove 2; FMove 2; FMove 2] ++ moves 0 4 ++ [FOuter (VRet 1); FMove 0; FMove 0; FMove 0] ++
  moves 3 2 ++ [FOuter (VRet 2); FOuter (VCall 1 MStop)] ++ moves 2 6 ++ [FOuter (VRet 1); FOuter (VCall 1 MStart)] ++ moves 2 2 ++ [FMove 2] ++
  moves 0 5 ++ moves 2 5 ++ [FOuter (VRet 1)] ++ moves 0 7 ++
  [FOuter VTimeout] ++ moves 0 3 ++ [FOuter VFire; FOuter VRunEnd] ++ moves 0 4 ++ moves 0 3.
Example c70_timer_case :
  match exec (v_step false) v_init c70_timer_schedule with
  | Some (f, es) =>
      history es = [Call 1 MStart; Call 2 MIsStarted; Ret 1 MVoid; Ret 2 (MBool true); Call 1 MStop; Ret 1 MVoid; Call 1 MStart; Ret 1 MVoid;
                    Call 0 MDue; Ret 0 MVoid; Call 0 MBegin; Ret 0 MVoid; Call 0 MEnd; Ret 0 MVoid] /\
      mmarks false m_new (effects es) = [KStart; KCancel; KStart; KBegin; KEnd] /\ v_idle f 1 /\ v_idle f 2
  | None => False
  end.
Proof. vm_compute. repeat split. Qed.
Example c70_timer_case_stuck :
  match exec (v_step false) v_init c70_timer_schedule with
  | Some (f, es) => v_stuck false f /\ undisturbed es /\ no_late_stop false es /\ never_calls MDestroy es
  | None => False
  end.
Proof.
  cbv -[v_stuck undisturbed no_late_stop never_calls]. split; [|split; [|split]].
  - apply (v_rest false _ LSleep); [reflexivity|reflexivity|now left|]. intros t. unfold v_idle. cbn [f_pc]. do 5 (destruct t as [|t]; [reflexivity|]). reflexivity.
  - apply OS.TimerLiveness.undisturbed_b_sound. reflexivity.
  - intros H. cbn in H. repeat (destruct H as [H|H]; [discriminate H|]). exact H.
  - intros t H. cbn in H. repeat (destruct H as [H|H]; [discriminate H|]). exact H.
Qed.
(** periodic: started by client 1, two callbacks, stopped during the second *)
Definition c70_periodic_schedule : list (flab vlab) :=
  [FOuter (VCall 1 MStart)] ++ moves 2 6 ++ [FOuter (VRet 1)] ++ moves 0 5 ++ moves 0 3 ++
  [FOuter VTimeout] ++ moves 0 3 ++ [FOuter VFire; FOuter VRunEnd] ++ moves 0 3 ++
  [FOuter VTimeout] ++ moves 0 1 ++ [FOuter (VCall 1 MStop)] ++ [FMove 0; FMove 0; FOuter VFire] ++ moves 2 6 ++ [FOuter VRunEnd] ++ [FOuter (VRet 1)] ++
  moves 0 5 ++ moves 0 3.
Example c70_periodic_case :
  match exec (v_step true) v_init c70_periodic_schedule with
  | Some (f, es) => mmarks true m_new (effects es) = [KStart; KBegin; KEnd; KBegin; KLate; KEnd] /\ v_stuck true f /\ disciplined 1 1 es
  | None => False
  end.
Proof.
  cbv -[v_stuck disciplined mmarks]. split; [reflexivity|]. split.
  - apply (v_rest true _ LSleep); [reflexivity|reflexivity|now left|]. intros t. unfold v_idle. cbn [f_pc]. do 5 (destruct t as [|t]; [reflexivity|]). reflexivity.
  - split; [discriminate|]. split; [|split]; intros t H; cbn in H; repeat (destruct H as [H|H]; [first [discriminate H|injection H as <-; reflexivity]|]); contradiction H.
Qed.
