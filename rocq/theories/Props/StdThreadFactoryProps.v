(** C61 (StdCpp, and Posix and Windows, which inherit it): Thread::create, destroy and getCurrentThread.
    Specification: Spec/CurrentThreadSpec.v; model: OS/StdThreadFactoryModel.v. *)
From Coq Require Import List Bool Arith.
Import ListNotations.
From Verif Require Import Spec.Linear Spec.CurrentThreadSpec OS.Sched OS.StdThreadFactoryModel OS.StdThreadFactoryProofs.

(** getCurrentThread returns the calling thread's own Thread object, null to a thread that the library did not create, and the object exists,
    provided that the system gives no thread an id whose last bearer was joined by a destroy that has not reached the map yet *)
Theorem c61_std_current_partial :
  forall (app : nat -> bool) (ls : list slab) (s : sst) (es : sout) (l : slab) (s' : sst) (e : sout) (t : nat) (r : option nat),
    exec s_step (s_init app) ls = Some (s, es) -> fresh_ids app ls -> s_step s l = Some (s', e) -> In (Ret t (TCur r)) e ->
    r = thread_of (s_res s t) /\ forall x, r = Some x -> s_run s x = true /\ s_obj s x = true.
Proof. exact s_current. Qed.
Print Assumptions c61_std_current_partial.
(** in particular if no thread is created, inside or outside of the library, while a destroy is running *)
Theorem c61_std_current_calm_partial :
  forall (app : nat -> bool) (ls : list slab) (s : sst) (es : sout) (l : slab) (s' : sst) (e : sout) (t : nat) (r : option nat),
    exec s_step (s_init app) ls = Some (s, es) -> calm app ls -> s_step s l = Some (s', e) -> In (Ret t (TCur r)) e ->
    r = thread_of (s_res s t) /\ forall x, r = Some x -> s_run s x = true /\ s_obj s x = true.
Proof. intros app ls s es l s' e t r E C. exact (s_current app ls s es l s' e t r E (calm_fresh app ls C)). Qed.
Print Assumptions c61_std_current_calm_partial.

(** without the proviso: a create that runs while a destroy is between join and erase gets the id of the thread that has ended; the new thread
    then gets null although it is in use and runs, and would for ever, since no call is running *)
Definition c61_lost : list slab :=
  [VCall 0 TCreate; VStep 0; VAlloc 0 1; VNat 0 5; VStep 0; VStep 0; VStep 0; VStep 0; VStep 0; VCall 0 (TDestroy 1); VStep 0; VStep 0] ++
  [VCall 9 TCreate; VStep 9; VAlloc 9 2; VNat 9 5; VStep 9; VStep 9; VStep 9; VStep 9; VStep 9; VStep 0; VStep 0; VStep 0; VStep 0; VStep 0] ++
  [VRun 2; VCall 5 TCurrent; VStep 5; VStep 5; VStep 5; VStep 5].
Theorem c61_std_current_refuted :
  exists (app : nat -> bool) (ls : list slab) (s : sst) (es : sout) (t x : nat),
    exec s_step (s_init app) ls = Some (s, es) /\ (exists es', es = es' ++ [Ret t (TCur None)]) /\
    s_res s t = Some (Own x) /\ s_run s x = true /\ in_use x es /\ forall u, s_idle s u.
Proof.
  exists (fun i => (i =? 0) || (i =? 9))%bool, c61_lost.
  destruct (exec s_step (s_init (fun i => ((i =? 0) || (i =? 9))%bool)) c61_lost) as [[s es]|] eqn:E; [|vm_compute in E; discriminate].
  vm_compute in E. injection E as <- <-. eexists. eexists. exists 5, 2. split; [reflexivity|]. split.
  { eexists. match goal with |- ?l = _ => let a := eval vm_compute in (removelast l) in instantiate (1 := a) end. reflexivity. }
  split; [reflexivity|]. split; [reflexivity|]. split.
  - exists [Call 0 TCreate; Ret 0 (TThread 1); Call 0 (TDestroy 1); Call 9 TCreate]. eexists. exists 9. split; [reflexivity|].
    intros u H. cbn in H. repeat (destruct H as [H|H]; [discriminate|]). exact H.
  - intros u. unfold s_idle. cbn. do 10 (destruct u as [|u]; [reflexivity|]). reflexivity.
Qed.
Print Assumptions c61_std_current_refuted.
(** and a thread which got the id of a thread that is being destroyed may be given that thread's object, deleted before the caller has it *)
Definition c61_dangling : list slab :=
  [VCall 0 TCreate; VStep 0; VAlloc 0 1; VNat 0 5; VStep 0; VStep 0; VStep 0; VStep 0; VStep 0; VCall 0 (TDestroy 1); VStep 0; VStep 0] ++
  [VBorn 5; VCall 5 TCurrent; VStep 5; VStep 5; VStep 5; VStep 0; VStep 0; VStep 0; VStep 0; VStep 0; VStep 5].
Theorem c61_std_dangling_refuted :
  exists (app : nat -> bool) (ls : list slab) (s : sst) (es : sout) (t x : nat),
    exec s_step (s_init app) ls = Some (s, es) /\ (exists es', es = es' ++ [Ret t (TCur (Some x))]) /\ s_res s t = Some Foreign /\ s_obj s x = false.
Proof.
  exists (fun i => i =? 0), c61_dangling.
  destruct (exec s_step (s_init (fun i => i =? 0)) c61_dangling) as [[s es]|] eqn:E; [|vm_compute in E; discriminate].
  vm_compute in E. injection E as <- <-. eexists. eexists. exists 5, 1. split; [reflexivity|]. split.
  { eexists. match goal with |- ?l = _ => let a := eval vm_compute in (removelast l) in instantiate (1 := a) end. reflexivity. }
  split; reflexivity.
Qed.
Print Assumptions c61_std_dangling_refuted.

(** a thread in use has its object and exactly one thread of the system *)
Theorem c61_std_owns :
  forall (app : nat -> bool) (ls : list slab) (s : sst) (es : sout) (x : nat),
    exec s_step (s_init app) ls = Some (s, es) -> in_use x es ->
    s_obj s x = true /\ exists i, s_res s i = Some (Own x) /\ forall j, s_res s j = Some (Own x) -> j = i.
Proof. exact s_in_use_owns. Qed.
Print Assumptions c61_std_owns.
(** when no call is running the library's objects and threads are those in use *)
Theorem c61_std_no_leak :
  forall (app : nat -> bool) (ls : list slab) (s : sst) (es : sout),
    exec s_step (s_init app) ls = Some (s, es) -> (forall t, s_idle s t) ->
    (forall i x, s_res s i = Some (Own x) -> in_use x es) /\ (forall x, s_obj s x = true -> in_use x es).
Proof. exact s_no_leak. Qed.
Print Assumptions c61_std_no_leak.
Theorem c61_std_distinct :
  forall (app : nat -> bool) (ls : list slab) (s : sst) (es : sout) (l : slab) (s' : sst) (e : sout) (t x : nat),
    exec s_step (s_init app) ls = Some (s, es) -> s_step s l = Some (s', e) -> In (Ret t (TThread x)) e -> ~ in_use x es.
Proof. exact s_distinct. Qed.
Print Assumptions c61_std_distinct.
Theorem c61_std_no_deadlock :
  forall (app : nat -> bool) (ls : list slab) (s : sst) (es : sout),
    exec s_step (s_init app) ls = Some (s, es) -> s_stuck s -> forall t, s_idle s t \/ exists x, s_pc s t = DWait x /\ s_run s x = true.
Proof. exact s_progress. Qed.
Print Assumptions c61_std_no_deadlock.
Theorem c61_std_bounded :
  forall (n : nat) (ls : list slab) (s s' : sst) (es : sout),
    (forall t, n <= t -> s_idle s t) -> (forall l, In l ls -> s_own_step l) -> exec s_step s ls = Some (s', es) -> length ls <= n * 12.
Proof. exact s_bounded. Qed.
Print Assumptions c61_std_bounded.

(** a calm run: two threads are created at once, one create fails at the insertion and joins its thread, the thread that runs asks who it is, and is
    destroyed; then its id goes to a thread of the application, which asks as well *)
Definition c61_calm_schedule : list slab :=
  [VCall 0 TCreate; VCall 9 TCreate; VStep 0; VAlloc 0 1; VNat 0 5; VStep 0; VStep 9; VAlloc 9 2; VNat 9 6; VStep 9; VStep 0; VStep 0; VStep 0; VStep 9; VThrow 9; VStep 9; VStep 9; VStep 9] ++
  [VStep 0; VRun 1; VCall 5 TCurrent; VStep 9; VStep 9; VStep 9; VStep 5; VStep 5; VStep 5; VStep 5; VCall 9 (TDestroy 1); VEnd 1] ++
  [VStep 9; VStep 9; VStep 9; VStep 9; VStep 9; VStep 9; VStep 9; VBorn 5; VCall 5 TCurrent; VStep 5; VStep 5; VStep 5; VStep 5].
Example c61_std_case :
  match exec s_step (s_init (fun i => (i =? 0) || (i =? 9))%bool) c61_calm_schedule with
  | Some (s, es) =>
      es = [Call 0 TCreate; Call 9 TCreate; Ret 0 (TThread 1); Call 5 TCurrent; Ret 9 (TNull Refused); Ret 5 (TCur (Some 1)); Call 9 (TDestroy 1); Ret 9 TVoid; Call 5 TCurrent; Ret 5 (TCur None)] /\
      s_obj s 1 = false /\ s_obj s 2 = false /\ s_res s 6 = None /\ forall t, s_idle s t
  | None => False
  end.
Proof.
  destruct (exec s_step (s_init (fun i => ((i =? 0) || (i =? 9))%bool)) c61_calm_schedule) as [[s es]|] eqn:E; [|vm_compute in E; discriminate].
  vm_compute in E. injection E as <- <-. do 4 (split; [reflexivity|]). intros t. unfold s_idle. cbn. do 10 (destruct t as [|t]; [reflexivity|]). reflexivity.
Qed.
Example c61_std_case_calm : calm (fun i => (i =? 0) || (i =? 9))%bool c61_calm_schedule /\ ~ fresh_ids (fun i => (i =? 0) || (i =? 9))%bool c61_lost.
Proof.
  split.
  - vm_compute. repeat match goal with |- _ /\ _ => split | |- True => exact Logic.I end; intros B; try destruct B; intros t; do 10 (destruct t as [|t]; [intros []|]); intros [].
  - intros H. vm_compute in H. repeat match type of H with _ /\ ?b => let x := fresh in destruct H as (x & H); try (apply (x 0 1); [now left|reflexivity]); clear x end.
Qed.
