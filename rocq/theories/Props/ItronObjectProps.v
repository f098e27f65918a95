(** C62: event flags, mutexes and periodic timers as objects that are created and destroyed (Itron).  Specification: Spec/ObjectSpec.v;
    model: OS/ItronObjectModel.v. *)
From Coq Require Import List Bool Arith.
Import ListNotations.
From Verif Require Import Spec.Linear Spec.ObjectSpec OS.Sched OS.ItronObjectModel OS.ItronObjectProofs.

(** every history of creates, destroys, starts, stops and callbacks of any number of tasks is one of a bounded family of objects: no two
    objects in use are the same, create fails for lack of room only if all are in use, a callback begins only while its timer is started *)
Theorem c62_objects_linearizable :
  forall (max : nat) (timer : bool) (ls : list klab) (s : kst) (es : oevents),
    exec (k_step max timer false) k_init ls = Some (s, es) -> linearizable (ospec max) o_none (history es).
Proof. exact k_linearizable. Qed.
Print Assumptions c62_objects_linearizable.
(** event flags and mutexes: on several processors too *)
Theorem c62_flags_mutexes_linearizable :
  forall (max : nat) (smp : bool) (ls : list klab) (s : kst) (es : oevents),
    exec (k_step max false smp) k_init ls = Some (s, es) -> linearizable (ospec max) o_none (history es).
Proof. exact k_flags_linearizable. Qed.
Print Assumptions c62_flags_mutexes_linearizable.
(** when no call is running, the blocks in use and the kernel's objects are exactly those of the objects that exist, one each, and the
    kernel's timers are started or stopped as the specification says *)
Theorem c62_objects_no_leak :
  forall (max : nat) (timer : bool) (ls : list klab) (s : kst) (es : oevents),
    exec (k_step max timer false) k_init ls = Some (s, es) -> (forall t, k_idle s t) ->
    exists a, sp_run (ospec max) o_none (effects es) a /\
      (forall p, k_blk s p = true <-> a p <> None) /\
      (forall i p b, k_kern s i = Some (p, b) <-> k_id s p = i /\ a p = Some b).
Proof. exact k_no_leak. Qed.
Print Assumptions c62_objects_no_leak.
(** no callback of a timer begins before the timer was started, nor after it was stopped, destroyed or its callback threw, unless it was
    started again in between *)
Theorem c62_tick_needs_start :
  forall (max : nat) (timer : bool) (ls : list klab) (s : kst) (es : oevents) l1 (t : nat) (r : ores) l2 (p : nat),
    exec (k_step max timer false) k_init ls = Some (s, es) ->
    effects es = l1 ++ (t, OTick p, r) :: l2 -> exists v r', In (v, OStart p, r') l1.
Proof. exact k_first_tick_needs_start. Qed.
Print Assumptions c62_tick_needs_start.
Theorem c62_no_tick_after_stop :
  forall (max : nat) (timer : bool) (ls : list klab) (s : kst) (es : oevents) l1 (u : nat) (c : ocall) (r : ores) l2 (t : nat) (r' : ores) l3 (p : nat),
    exec (k_step max timer false) k_init ls = Some (s, es) ->
    c = OStop p \/ c = ODestroy p \/ c = OThrow p ->
    effects es = l1 ++ (u, c, r) :: l2 ++ (t, OTick p, r') :: l3 -> exists v r'', In (v, OStart p, r'') l2.
Proof. exact k_tick_needs_start. Qed.
Print Assumptions c62_no_tick_after_stop.
(** while a callback runs its timer exists and is started, if handlers have precedence over tasks; on several processors destroy may free the
    timer under a callback that runs *)
Theorem c62_callback_timer_exists :
  forall (max : nat) (timer : bool) (ls : list klab) (s : kst) (es : oevents) (p : nat),
    exec (k_step max timer false) k_init ls = Some (s, es) -> k_cb s = Some p ->
    k_blk s p = true /\ k_kern s (k_id s p) = Some (p, true) /\ exists a, sp_run (ospec max) o_none (effects es) a /\ a p = Some true.
Proof. exact k_callback_exists. Qed.
Print Assumptions c62_callback_timer_exists.
Theorem c62_callback_timer_exists_smp_refuted :
  ~ (forall (max : nat) (timer : bool) (ls : list klab) (s : kst) (es : oevents) (p : nat),
       exec (k_step max timer true) k_init ls = Some (s, es) -> k_cb s = Some p -> k_blk s p = true).
Proof. exact k_smp_uaf. Qed.
Print Assumptions c62_callback_timer_exists_smp_refuted.
(** nobody is blocked for ever: if no task can move and no callback runs then no call is running; and [n] tasks make a bounded number of
    steps, whatever callbacks run in between *)
Theorem c62_objects_no_deadlock :
  forall (max : nat) (timer smp : bool) (ls : list klab) (s : kst) (es : oevents),
    exec (k_step max timer smp) k_init ls = Some (s, es) -> k_cb s = None -> k_stuck max timer smp s -> forall t, k_idle s t.
Proof. exact k_progress. Qed.
Print Assumptions c62_objects_no_deadlock.
Theorem c62_objects_bounded :
  forall (max : nat) (timer smp : bool) (n : nat) (ls : list klab) (s s' : kst) (es : oevents),
    (forall t, n <= t -> k_idle s t) -> (forall l, In l ls -> forall t c, l <> MCall t c) ->
    exec (k_step max timer smp) s ls = Some (s', es) ->
    length (filter (fun l => match l with MStep _ | MGet _ _ | MAcre _ _ => true | _ => false end) ls) <= n * 8.
Proof. exact k_bounded. Qed.
Print Assumptions c62_objects_bounded.

(** one timer of two fails to be created, two are created by two tasks that wait for each other, a third finds no room; the first is started,
    its callback runs twice and throws; it is started again and destroyed; its block and its id are used again *)
Definition c62_schedule : list klab :=
  [MCall 1 OCreate; MCall 2 OCreate; MStep 1; MGet 1 1; MAcre 1 0; MStep 1; MStep 1; MStep 1; MStep 1] ++
  [MStep 2; MGet 2 0; MCall 1 OCreate; MAcre 2 5; MStep 2; MStep 2; MStep 1; MGet 1 1; MAcre 1 7; MStep 1; MStep 1] ++
  [MCall 3 OCreate; MStep 3; MStep 3; MStep 3; MStep 3] ++
  [MCall 2 (OStart 0); MStep 2; MStep 2; MTick 5; MEnd false; MCall 1 (OIsStarted 0); MTick 5; MEnd true; MStep 1; MStep 1] ++
  [MCall 1 (OStart 0); MStep 1; MStep 1; MTick 5; MEnd false; MCall 1 (ODestroy 0); MTick 5; MEnd false; MStep 1; MStep 1; MStep 1; MStep 1; MStep 1; MStep 1] ++
  [MCall 3 OCreate; MStep 3; MGet 3 0; MAcre 3 5; MStep 3; MStep 3; MCall 2 (OIsStarted 0); MStep 2; MStep 2].
Example c62_case :
  match exec (k_step 2 true false) k_init c62_schedule with
  | Some (s, es) =>
      map (fun e => snd e) (effects es) =
        [ORefused; OObj 0; OObj 1; ONoRoom; OVoid; OVoid; OVoid; OVoid; OBool false; OVoid; OVoid; OVoid; OVoid; OObj 0; OBool false] /\
      k_kern s 5 = Some (0, false) /\ k_kern s 7 = Some (1, false) /\ forall t, k_idle s t
  | None => False
  end.
Proof.
  assert (E : match exec (k_step 2 true false) k_init c62_schedule with
              | Some (s, es) => (map (fun e => snd e) (effects es), k_kern s 5, k_kern s 7, k_pc s 1, k_pc s 2, k_pc s 3)
              | None => ([], None, None, KGet, KGet, KGet) end =
              ([ORefused; OObj 0; OObj 1; ONoRoom; OVoid; OVoid; OVoid; OVoid; OBool false; OVoid; OVoid; OVoid; OVoid; OObj 0; OBool false],
               Some (0, false), Some (1, false), KIdle, KIdle, KIdle)) by (vm_compute; reflexivity).
  assert (P : match exec (k_step 2 true false) k_init c62_schedule with Some (s, _) => forall t, k_pc s (S (S (S (S t)))) = KIdle | None => False end) by (vm_compute; reflexivity).
  assert (Z : match exec (k_step 2 true false) k_init c62_schedule with Some (s, _) => k_pc s 0 = KIdle | None => False end) by (vm_compute; reflexivity).
  destruct (exec (k_step 2 true false) k_init c62_schedule) as [[s es]|]; [|discriminate].
  injection E as E1 E2 E3 E4 E5 E6. split; [exact E1|]. split; [exact E2|]. split; [exact E3|].
  intros t. unfold k_idle. do 4 (destruct t as [|t]; [assumption|]). apply P.
Qed.
(** a callback that runs while task 1 is about to destroy the timer; no task step is possible meanwhile *)
Example c62_callback_case :
  match exec (k_step 2 true false) k_init
          [MCall 1 OCreate; MStep 1; MGet 1 0; MAcre 1 5; MStep 1; MStep 1; MCall 1 (OStart 0); MStep 1; MStep 1; MCall 1 (ODestroy 0); MTick 5] with
  | Some (s, es) => k_cb s = Some 0 /\ k_step 2 true false s (MStep 1) = None /\ (forall t, 2 <= t -> k_idle s t) /\
      match exec (k_step 2 true false) s [MEnd false; MStep 1; MStep 1; MStep 1; MStep 1; MStep 1; MStep 1] with
      | Some (s', _) => k_idle s' 1 /\ k_blk s' 0 = false /\ k_kern s' 5 = None
      | None => False
      end
  | None => False
  end.
Proof.
  set (ls := [MCall 1 OCreate; MStep 1; MGet 1 0; MAcre 1 5; MStep 1; MStep 1; MCall 1 (OStart 0); MStep 1; MStep 1; MCall 1 (ODestroy 0); MTick 5]).
  set (l2 := [MEnd false; MStep 1; MStep 1; MStep 1; MStep 1; MStep 1; MStep 1]).
  assert (E : match exec (k_step 2 true false) k_init ls with
              | Some (s, _) => match exec (k_step 2 true false) s l2 with Some (s', _) => Some (k_cb s, k_pc s' 1, k_blk s' 0, k_kern s' 5) | None => None end
              | None => None end = Some (Some 0, KIdle, false, None)) by (vm_compute; reflexivity).
  assert (N : match exec (k_step 2 true false) k_init ls with
              | Some (s, _) => match k_step 2 true false s (MStep 1) with Some _ => false | None => true end | None => false end = true) by (vm_compute; reflexivity).
  assert (P : match exec (k_step 2 true false) k_init ls with Some (s, _) => forall t, k_pc s (S (S t)) = KIdle | None => False end) by (vm_compute; reflexivity).
  destruct (exec (k_step 2 true false) k_init ls) as [[s es]|]; [|discriminate].
  destruct (exec (k_step 2 true false) s l2) as [[s' es']|]; [|discriminate]. injection E as E1 E2 E3 E4.
  split; [exact E1|]. split; [now destruct (k_step 2 true false s (MStep 1))|]. split; [|split; [exact E2|split; [exact E3|exact E4]]].
  intros t H. unfold k_idle. destruct t as [|[|t]]; [inversion H|inversion H; subst; match goal with h : _ <= 0 |- _ => inversion h end|apply P].
Qed.
