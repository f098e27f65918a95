(** C63: creating and destroying timers (StdCpp, Windows).  Model: OS/TimerFactoryModel.v; what it means that resources are held: Spec/Resource.v. *)
From Coq Require Import List Bool Arith.
Import ListNotations.
From Verif Require Import Spec.Resource OS.Resources OS.Sched OS.TimerFactoryModel OS.TimerFactoryProofs.

(** StdCpp: if the timer's thread can be created and given its priority, create returns null with nothing held or a timer with its memory
    and its thread, all of which destroy gives back *)
Theorem c63_std_create_clean_partial :
  forall orc : nat -> bool, orc 1 = true -> orc 3 = true ->
    match std_timer_create orc rs_init with
    | (TNull, s) => live (rs_tr s) []
    | (TTimer m th, s) => live (rs_tr s) [(KThread, th); (KHeap, m)] /\ live (rs_tr (std_timer_destroy m th s)) []
    | (Crash, _) => False
    end.
Proof. exact std_timer_clean. Qed.
Print Assumptions c63_std_create_clean_partial.
Theorem c63_std_create_success :
  forall orc : nat -> bool, (forall n, n < 4 -> orc n = true) -> exists m th, fst (std_timer_create orc rs_init) = TTimer m th.
Proof. exact std_timer_success. Qed.
Print Assumptions c63_std_create_success.
(** if Thread::create fails, create dereferences a null pointer; if setPriority throws, the timer and its thread are lost *)
Theorem c63_std_create_never_crashes_refuted : ~ (forall orc : nat -> bool, fst (std_timer_create orc rs_init) <> Crash).
Proof. exact std_timer_crash. Qed.
Print Assumptions c63_std_create_never_crashes_refuted.
Theorem c63_std_create_null_leaves_nothing_refuted :
  ~ (forall (orc : nat -> bool) (s : rst), std_timer_create orc rs_init = (TNull, s) -> live (rs_tr s) []).
Proof. exact std_timer_leak. Qed.
Print Assumptions c63_std_create_null_leaves_nothing_refuted.
(** Windows: the same with the event flag *)
Theorem c63_win_create_clean_partial :
  forall orc : nat -> bool, orc 1 = true ->
    match win_timer_create orc rs_init with
    | (TNull, s) => live (rs_tr s) []
    | (TTimer m e, s) => live (rs_tr s) [(KEvent, e); (KHeap, m)] /\ live (rs_tr (win_timer_destroy m e s)) []
    | (Crash, _) => False
    end.
Proof. exact win_timer_clean. Qed.
Print Assumptions c63_win_create_clean_partial.
Theorem c63_win_create_success :
  forall orc : nat -> bool, (forall n, n < 2 -> orc n = true) -> exists m e, fst (win_timer_create orc rs_init) = TTimer m e.
Proof. exact win_timer_success. Qed.
Print Assumptions c63_win_create_success.
Theorem c63_win_create_never_crashes_refuted : ~ (forall orc : nat -> bool, fst (win_timer_create orc rs_init) <> Crash).
Proof. exact win_timer_crash. Qed.
Print Assumptions c63_win_create_never_crashes_refuted.

(** StdCpp: any number of threads and of callbacks create and destroy timers at once.  If nothing can move, then nobody is in a call and no
    callback runs, as long as callbacks destroy only timers that come below their own in some order (in particular if they destroy none) *)
Theorem c63_std_no_deadlock :
  forall (rank : nat -> nat) (ls : list glab) (s : gst) (es : list unit),
    exec (g_step false) g_init ls = Some (s, es) ->
    (forall x y, In (WCall (Cb x) (GDestroy y)) ls -> rank y < rank x) ->
    g_stuck false s -> g_quiet s.
Proof. exact std_no_deadlock. Qed.
Print Assumptions c63_std_no_deadlock.
(** and without that condition whoever waits for ever waits for callbacks each of which is destroying the timer of the next *)
Theorem c63_std_deadlock_is_a_circle :
  forall (ls : list glab) (s : gst) (es : list unit),
    exec (g_step false) g_init ls = Some (s, es) -> g_stuck false s ->
    (forall a, g_pc s a = GIdle \/ exists c : nat -> nat, g_pc s a = GWait (c 0) /\ forall n, g_pc s (Cb (c n)) = GWait (c (S n))) /\
    (forall x, g_run s x = false \/ exists c : nat -> nat, c 0 = x /\ forall n, g_pc s (Cb (c n)) = GWait (c (S n))).
Proof. exact std_stuck_chain. Qed.
Print Assumptions c63_std_deadlock_is_a_circle.
(** Windows: true if callbacks use neither create nor destroy of their kind of timer; false as soon as a callback calls create *)
Theorem c63_win_no_deadlock_partial :
  forall (ls : list glab) (s : gst) (es : list unit),
    exec (g_step true) g_init ls = Some (s, es) -> (forall x c, ~ In (WCall (Cb x) c) ls) -> g_stuck true s -> g_quiet s.
Proof. exact win_no_deadlock. Qed.
Print Assumptions c63_win_no_deadlock_partial.
Theorem c63_win_callbacks_may_create_refuted :
  ~ (forall (ls : list glab) (s : gst) (es : list unit),
       exec (g_step true) g_init ls = Some (s, es) -> (forall x y, ~ In (WCall (Cb x) (GDestroy y)) ls) -> g_stuck true s -> g_quiet s).
Proof. exact win_deadlock. Qed.
Print Assumptions c63_win_callbacks_may_create_refuted.
(** a timer is deleted only when its callback is over, and no callback of it begins after that *)
Theorem c63_no_callback_of_a_deleted_timer :
  forall (win : bool) (ls : list glab) (s : gst) (es : list unit) (x : nat),
    exec (g_step win) g_init ls = Some (s, es) -> g_run s x = true -> g_st s x = TLive \/ g_st s x = TDying.
Proof. exact g_no_callback_after_delete. Qed.
Print Assumptions c63_no_callback_of_a_deleted_timer.
(** [n] threads and [n] timers: bounded work, however often callbacks run *)
Theorem c63_bounded :
  forall (win : bool) (n : nat) (ls : list glab) (s s' : gst) (es : list unit),
    (forall a, ~ match a with Cl t => t < n | Cb x => x < n end -> g_pc s a = GIdle) -> (forall l, In l ls -> forall a c, l <> WCall a c) ->
    exec (g_step win) s ls = Some (s', es) ->
    length (filter (fun l => match l with WStep _ | WNew _ _ => true | _ => false end) ls) <= 2 * n * 5.
Proof. exact g_bounded. Qed.
Print Assumptions c63_bounded.

(** the condition variables cannot be constructed; everything succeeds *)
Example c63_create_cases :
  fst (std_timer_create (fun n => negb (n =? 2)) rs_init) = TNull /\ fst (std_timer_create (fun _ => true) rs_init) = TTimer 0 1 /\
  fst (win_timer_create (fun n => negb (n =? 0)) rs_init) = TNull /\ fst (win_timer_create (fun _ => true) rs_init) = TTimer 0 1.
Proof. repeat split. Qed.
(** two timers; the callback of timer 1 creates timer 2 and destroys timer 0, whose callback runs and creates timer 3; meanwhile client 0
    destroys timer 1 *)
Definition c63_make (a : agent) (x : nat) : list glab := [WCall a GCreate; WStep a; WNew a x; WStep a; WStep a].
Definition c63_schedule : list glab :=
  c63_make (Cl 0) 0 ++ c63_make (Cl 0) 1 ++ [WFire 0; WFire 1; WCall (Cl 0) (GDestroy 1)] ++ c63_make (Cb 1) 2 ++
  [WCall (Cb 1) (GDestroy 0); WCall (Cb 0) GCreate; WStep (Cb 0); WNew (Cb 0) 3; WStep (Cb 0); WStep (Cb 0); WEnd 0] ++
  [WStep (Cb 1); WStep (Cb 1); WStep (Cb 1); WStep (Cb 1); WStep (Cb 1); WEnd 1] ++
  [WStep (Cl 0); WStep (Cl 0); WStep (Cl 0); WStep (Cl 0); WStep (Cl 0)].
Example c63_case :
  match exec (g_step false) g_init c63_schedule with
  | Some (s, _) => map (g_st s) [0; 1; 2; 3] = [TNone; TNone; TLive; TLive] /\ map (g_run s) [0; 1; 2; 3] = [false; false; false; false] /\
                   map (g_pc s) [Cl 0; Cb 0; Cb 1] = [GIdle; GIdle; GIdle] /\
                   forall x y, In (WCall (Cb x) (GDestroy y)) c63_schedule -> y < x
  | None => False
  end.
Proof.
  assert (R : forall x y, In (WCall (Cb x) (GDestroy y)) c63_schedule -> y < x).
  { intros x y H. vm_compute in H. repeat (destruct H as [H|H]; [try discriminate; injection H as <- <-; apply le_n|]). destruct H. }
  assert (E : match exec (g_step false) g_init c63_schedule with
              | Some (s, _) => Some (map (g_st s) [0; 1; 2; 3], map (g_run s) [0; 1; 2; 3], map (g_pc s) [Cl 0; Cb 0; Cb 1])
              | None => None end = Some ([TNone; TNone; TLive; TLive], [false; false; false; false], [GIdle; GIdle; GIdle])) by (vm_compute; reflexivity).
  destruct (exec (g_step false) g_init c63_schedule) as [[s es]|]; [|discriminate]. injection E. intros. cbn [map]. split; [congruence|]. split; [congruence|]. split; [congruence|exact R].
Qed.
(** two callbacks that destroy each other's timers: stuck, and the circle 0, 1, 0, ... *)
Example c63_circle :
  match exec (g_step false) g_init (c63_make (Cl 0) 0 ++ c63_make (Cl 0) 1 ++ [WFire 0; WFire 1; WCall (Cb 0) (GDestroy 1); WCall (Cb 1) (GDestroy 0)]) with
  | Some (s, _) => g_stuck false s /\ g_pc s (Cb 0) = GWait 1 /\ g_pc s (Cb 1) = GWait 0
  | None => False
  end.
Proof.
  destruct (exec (g_step false) g_init _) as [[s es]|] eqn:E; [|vm_compute in E; discriminate]. vm_compute in E. injection E as <- <-.
  split; [|split; reflexivity]. intros l. destruct l as [a c|a|a x|x|x]; auto; cbn.
  - destruct a as [[|t]|[|[|t]]]; reflexivity.
  - destruct a as [[|t]|[|[|t]]]; reflexivity.
  - destruct x as [|[|x]]; reflexivity.
Qed.
