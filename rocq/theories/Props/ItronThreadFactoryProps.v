(** C61 (Itron): Thread::create, destroy and getCurrentThread.  Specification: Spec/CurrentThreadSpec.v; model: OS/ItronThreadFactoryModel.v. *)
From Coq Require Import List Bool Arith.
Import ListNotations.
From Verif Require Import Spec.Linear Spec.CurrentThreadSpec OS.Sched OS.ItronThreadFactoryModel OS.ItronThreadFactoryProofs.

(** getCurrentThread returns the calling thread's own Thread object, null to a task that the library did not create, however creations,
    destructions and reuses of task ids interleave; the object it returns exists *)
Theorem c61_itron_current :
  forall (max : nat) (app : nat -> bool) (ls : list flab) (s : fst_) (es : fout) (l : flab) (s' : fst_) (e : fout) (t : nat) (r : option nat),
    exec (f_step max) (f_init app) ls = Some (s, es) -> f_step max s l = Some (s', e) -> In (Ret t (TCur r)) e ->
    r = thread_of (f_res s KTsk t) /\ forall p, r = Some p -> f_run s p = true /\ f_blk s p = true.
Proof. exact f_current. Qed.
Print Assumptions c61_itron_current.
(** a thread in use has exactly one task, one event flag and one mutex of the kernel, which it shares with nobody *)
Theorem c61_itron_owns :
  forall (max : nat) (app : nat -> bool) (ls : list flab) (s : fst_) (es : fout) (p : nat) (k : kind),
    exec (f_step max) (f_init app) ls = Some (s, es) -> in_use p es ->
    p < max /\ f_blk s p = true /\ exists i, f_res s k i = Some (Own p) /\ forall j, f_res s k j = Some (Own p) -> j = i.
Proof. exact f_in_use_owns. Qed.
Print Assumptions c61_itron_owns.
(** when no call is running every kernel object and every block that the library has belongs to a thread in use: nothing leaks, neither in
    destroy nor in creates that failed halfway *)
Theorem c61_itron_no_leak :
  forall (max : nat) (app : nat -> bool) (ls : list flab) (s : fst_) (es : fout),
    exec (f_step max) (f_init app) ls = Some (s, es) -> (forall t, f_idle s t) ->
    (forall k i p, f_res s k i = Some (Own p) -> in_use p es) /\ (forall p, f_blk s p = true -> in_use p es).
Proof. exact f_no_leak. Qed.
Print Assumptions c61_itron_no_leak.
(** create never returns a thread that is in use *)
Theorem c61_itron_distinct :
  forall (max : nat) (app : nat -> bool) (ls : list flab) (s : fst_) (es : fout) (l : flab) (s' : fst_) (e : fout) (t p : nat),
    exec (f_step max) (f_init app) ls = Some (s, es) -> f_step max s l = Some (s', e) -> In (Ret t (TThread p)) e -> ~ in_use p es.
Proof. exact f_distinct. Qed.
Print Assumptions c61_itron_distinct.
(** create fails for lack of room only at a moment when all [max] objects are taken; the memory pool itself never runs out *)
Theorem c61_itron_full :
  forall (max : nat) (app : nat -> bool) (ls : list flab) (s : fst_) (es : fout) (t : nat) (s' : fst_) (e : fout),
    exec (f_step max) (f_init app) ls = Some (s, es) -> f_step max s (XStep t) = Some (s', e) ->
    f_pc s t <> PUnl (TNull Full) -> f_pc s' t = PUnl (TNull Full) ->
    exists ps, NoDup ps /\ length ps = max /\ forall p, In p ps -> p < max /\ f_blk s p = true.
Proof. exact f_full. Qed.
Print Assumptions c61_itron_full.
Theorem c61_itron_pool_suffices :
  forall (max : nat) (app : nat -> bool) (ls : list flab) (s : fst_) (es : fout) (l : flab) (s' : fst_) (e : fout) (t : nat),
    exec (f_step max) (f_init app) ls = Some (s, es) -> f_step max s l = Some (s', e) -> ~ In (Ret t (TNull NoBlock)) e.
Proof. exact f_block_free. Qed.
Print Assumptions c61_itron_pool_suffices.
(** if no running call can move, then the only calls left are destroys that wait for a thread which runs; and calls take boundedly many steps *)
Theorem c61_itron_no_deadlock :
  forall (max : nat) (app : nat -> bool) (ls : list flab) (s : fst_) (es : fout),
    exec (f_step max) (f_init app) ls = Some (s, es) -> f_stuck max s -> forall t, f_idle s t \/ exists p, f_pc s t = DWait p /\ f_run s p = true.
Proof. exact f_progress. Qed.
Print Assumptions c61_itron_no_deadlock.
Theorem c61_itron_bounded :
  forall (max n : nat) (ls : list flab) (s s' : fst_) (es : fout),
    (forall t, n <= t -> f_idle s t) -> (forall l, In l ls -> f_own_step l) -> exec (f_step max) s ls = Some (s', es) -> length ls <= n * 12.
Proof. exact f_bounded. Qed.
Print Assumptions c61_itron_bounded.

(** two objects at most.  Tasks 1 and 2 of the application.  Task 1 creates thread 0 (task 5), task 2 fails at the mutex and cleans up, then
    creates thread 1 (task 6); a third create finds no room; thread 0 asks who it is; it is destroyed and its task id 5 goes to a task of the
    application, which asks as well *)
Definition c61_schedule : list flab :=
  [XCall 1 TCreate; XCall 2 TCreate; XStep 1; XStep 1; XGet 1 0; XNew 1 5; XNew 1 3; XNew 1 4; XStep 1; XStep 1; XStep 2; XStep 1; XStep 2; XGet 2 1] ++
  [XNew 2 6; XRun 0; XNew 2 7; XCall 5 TCurrent; XNew 2 0; XStep 2; XStep 2; XStep 2; XStep 2; XStep 2; XStep 5; XStep 5; XStep 5; XStep 5] ++
  [XCall 2 TCreate; XStep 2; XStep 2; XGet 2 1; XNew 2 6; XNew 2 7; XNew 2 8; XStep 2; XStep 2; XStep 2; XCall 2 TCreate; XStep 2; XStep 2; XStep 2; XStep 2] ++
  [XCall 2 (TDestroy 0); XEnd 0; XStep 2; XStep 2; XStep 2; XStep 2; XBorn 5; XCall 5 TCurrent; XStep 2; XStep 2; XStep 2; XStep 2; XStep 2] ++
  [XStep 5; XStep 5; XStep 5; XStep 5].
Example c61_itron_case :
  match exec (f_step 2) (f_init (fun i => Nat.ltb i 3)) c61_schedule with
  | Some (s, es) =>
      es = [Call 1 TCreate; Call 2 TCreate; Ret 1 (TThread 0); Call 5 TCurrent; Ret 2 (TNull Refused); Ret 5 (TCur (Some 0)); Call 2 TCreate; Ret 2 (TThread 1); Call 2 TCreate; Ret 2 (TNull Full);
            Call 2 (TDestroy 0); Call 5 TCurrent; Ret 2 TVoid; Ret 5 (TCur None)] /\
      f_res s KTsk 6 = Some (Own 1) /\ f_res s KTsk 5 = Some Foreign /\ f_res s KMtx 4 = None /\ f_blk s 0 = false /\ in_use 1 es /\ forall t, f_idle s t
  | None => False
  end.
Proof.
  assert (OK : match exec (f_step 2) (f_init (fun i => Nat.ltb i 3)) c61_schedule with Some _ => true | None => false end = true) by (vm_compute; reflexivity).
  destruct (exec (f_step 2) (f_init (fun i => Nat.ltb i 3)) c61_schedule) as [[s es]|] eqn:E; [|discriminate OK]. clear OK.
  pose proof (f_equal (option_map (fun p : fst_ * fout => f_pc (fst p))) E) as P. pose proof (f_equal (option_map (fun p : fst_ * fout => f_res (fst p) KTsk 6)) E) as P1.
  pose proof (f_equal (option_map (fun p : fst_ * fout => f_res (fst p) KTsk 5)) E) as P2. pose proof (f_equal (option_map (fun p : fst_ * fout => f_res (fst p) KMtx 4)) E) as P3.
  pose proof (f_equal (option_map (fun p : fst_ * fout => f_blk (fst p) 0)) E) as P4. pose proof (f_equal (option_map (fun p : fst_ * fout => snd p)) E) as P5. clear E.
  cbn [option_map fst snd] in P, P1, P2, P3, P4, P5.
  match type of P1 with ?a = _ => let v := eval vm_compute in a in assert (X : a = v) by (vm_compute; reflexivity); rewrite X in P1; clear X; injection P1 as P1 end.
  match type of P2 with ?a = _ => let v := eval vm_compute in a in assert (X : a = v) by (vm_compute; reflexivity); rewrite X in P2; clear X; injection P2 as P2 end.
  match type of P3 with ?a = _ => let v := eval vm_compute in a in assert (X : a = v) by (vm_compute; reflexivity); rewrite X in P3; clear X; injection P3 as P3 end.
  match type of P4 with ?a = _ => let v := eval vm_compute in a in assert (X : a = v) by (vm_compute; reflexivity); rewrite X in P4; clear X; injection P4 as P4 end.
  match type of P5 with ?a = _ => let v := eval vm_compute in a in assert (X : a = v) by (vm_compute; reflexivity); rewrite X in P5; clear X; injection P5 as P5 end.
  match type of P with ?a = _ => let v := eval vm_compute in a in assert (X : a = v) by (vm_compute; reflexivity); rewrite X in P; clear X; injection P as P end.
  rewrite <- P1, <- P2, <- P3, <- P4. subst es. split; [reflexivity|]. do 4 (split; [reflexivity|]). split.
  - exists [Call 1 TCreate; Call 2 TCreate; Ret 1 (TThread 0); Call 5 TCurrent; Ret 2 (TNull Refused); Ret 5 (TCur (Some 0)); Call 2 TCreate].
    eexists. exists 2. split; [reflexivity|]. intros u H. cbn in H. repeat (destruct H as [H|H]; [discriminate|]). exact H.
  - intros t. unfold f_idle. rewrite <- P. do 6 (destruct t as [|t]; [reflexivity|]). reflexivity.
Qed.
(** a destroy waits for a running thread, and nothing else moves: c61_itron_no_deadlock's second case *)
Definition c61_wait_schedule : list flab :=
  [XCall 1 TCreate; XStep 1; XStep 1; XGet 1 0; XNew 1 5; XNew 1 3; XNew 1 4; XStep 1; XStep 1; XStep 1; XRun 0; XCall 1 (TDestroy 0)].
Example c61_itron_wait_case :
  match exec (f_step 2) (f_init (fun i => Nat.ltb i 3)) c61_wait_schedule with
  | Some (s, es) => f_stuck 2 s /\ f_pc s 1 = DWait 0 /\ f_run s 0 = true /\ forall t, 2 <= t -> f_idle s t
  | None => False
  end.
Proof.
  assert (OK : match exec (f_step 2) (f_init (fun i => Nat.ltb i 3)) c61_wait_schedule with Some _ => true | None => false end = true) by (vm_compute; reflexivity).
  destruct (exec (f_step 2) (f_init (fun i => Nat.ltb i 3)) c61_wait_schedule) as [[s es]|] eqn:E; [|discriminate OK]. clear OK.
  pose proof (f_equal (option_map (fun p : fst_ * fout => f_pc (fst p))) E) as P. pose proof (f_equal (option_map (fun p : fst_ * fout => f_run (fst p) 0)) E) as P1. clear E.
  cbn [option_map fst snd] in P, P1.
  match type of P1 with ?a = _ => let v := eval vm_compute in a in assert (X : a = v) by (vm_compute; reflexivity); rewrite X in P1; clear X; injection P1 as P1 end.
  match type of P with ?a = _ => let v := eval vm_compute in a in assert (X : a = v) by (vm_compute; reflexivity); rewrite X in P; clear X; injection P as P end.
  assert (Q : forall t, f_pc s t = if t =? 1 then DWait 0 else PIdle) by (intros t; rewrite <- P; do 2 (destruct t as [|t]; [reflexivity|]); reflexivity).
  split; [|split; [apply Q|split; [now symmetry|]]].
  - intros [t c|t|t p|t i|i|i|p|p] H; cbn in H; try contradiction; cbn beta iota delta [f_step]; rewrite Q; destruct (t =? 1); try reflexivity. now rewrite <- P1.
  - intros t H. unfold f_idle. rewrite Q. destruct (Nat.eqb_spec t 1) as [->|]; [repeat apply le_S_n in H; now inversion H|reflexivity].
Qed.
