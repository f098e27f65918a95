(** C56: ItronEventFlag over the kernel's event flag: any number of tasks, any schedule, any queue order.
    [w]: bits of unsigned int (EventFlag::Pattern); [wf]: bits of the kernel's FLGPTN; [ar]: autoReset. *)
From Coq Require Import List ZArith Bool Lia.
Import ListNotations.
From Verif Require Import Spec.OSError Spec.Linear Spec.EventFlagSpec OS.Sched OS.EventFlagModel OS.ItronEventFlagModel OS.ItronEventFlagProofs.
Open Scope Z_scope.

(** when FLGPTN is at least as wide as Pattern, the Itron event flag obeys the same specification as the StdCpp one (C28) *)
Theorem c56_itron_event_flag_is_atomic_partial :
  forall (w wf : Z), 0 < w -> w <= wf -> forall (dbg ar : bool) (ls : list iflab) (s : ifst) (es : list (event ecall eres)),
    (forall l, In l ls -> f_label_ok w l) -> exec (f_step w wf dbg ar) f_init ls = Some (s, es) ->
    linearizable (espec w ar) 0 (history es).
Proof. exact itron_ef_linearizable. Qed.
Print Assumptions c56_itron_event_flag_is_atomic_partial.
(** at every moment a task is outside, can go on, or is in a wait whose condition is false (and which can time out unless
    it is a wait without limit): no wake-up is lost *)
Theorem c56_waits_only_while_condition_false_partial :
  forall (w wf : Z), 0 < w -> w <= wf -> forall (dbg ar : bool) (ls : list iflab) (s : ifst) (es : list (event ecall eres)),
    (forall l, In l ls -> f_label_ok w l) -> exec (f_step w wf dbg ar) f_init ls = Some (s, es) ->
    forall t, f_idle s t \/ (forall k, f_step w wf dbg ar s (FStep t k) <> None) \/
      exists c Q, f_running s t = Some c /\ econd w c = Some Q /\ ~ Q (f_ptn s) /\
        (forever c \/ f_step w wf dbg ar s (FTimeout t) <> None).
Proof. exact itron_ef_blocked. Qed.
Print Assumptions c56_waits_only_while_condition_false_partial.
(** n tasks: without new calls at most 4n steps are taken *)
Theorem c56_calls_in_progress_end :
  forall (w wf : Z) (dbg ar : bool) (n : nat) (s : ifst) (ls : list iflab) (s' : ifst) (es : list (event ecall eres)),
    (forall t, (n <= t)%nat -> f_idle s t) -> (forall l, In l ls -> f_own_step l) ->
    exec (f_step w wf dbg ar) s ls = Some (s', es) -> (length ls <= 4 * n)%nat.
Proof. exact itron_ef_calls_end. Qed.
Print Assumptions c56_calls_in_progress_end.
(** FLGPTN narrower than Pattern (uITRON allows 16 bits): setOne(pos) of a position above it returns OK and sets nothing *)
Theorem c56_narrow_flgptn_refuted :
  forall (w wf : Z) (dbg ar : bool) (pos : Z), 0 < wf <= pos -> pos < w ->
    exists s es,
      exec (f_step w wf dbg ar) f_init
        [FCall 0 (ESetOne pos); FStep 0 0; FStep 0 0; FStep 0 0; FCall 0 EGet; FStep 0 0; FStep 0 0; FStep 0 0] = Some (s, es) /\
      ~ linearizable (espec w ar) 0 (history es).
Proof. exact itron_ef_narrow. Qed.
Print Assumptions c56_narrow_flgptn_refuted.

(** auto-reset, 32 bits: task 0 waits for bits 0 and 2, task 1 for bit 2 or 5 with a limit, task 2 sets bit 2 (releases 1),
    then bits 0 and 2 (releases 0); task 1 then times out in a new wait; task 3 is refused *)
Definition c56_schedule : list iflab :=
  [FCall 0 (EWait 5 ModeAND true Forever); FStep 0 0; FStep 0 0; FCall 1 (EWait 36 ModeOR true (Within 10)); FStep 1 0; FStep 1 0] ++
  [FCall 2 (ESetOne 2); FStep 2 0; FStep 2 0; FStep 1 0; FStep 2 0; FCall 2 (ESet 5); FStep 2 0; FStep 2 0; FStep 2 0; FStep 0 0] ++
  [FCall 1 (EWaitAny (Within 10)); FStep 1 0; FStep 1 0; FTimeout 1; FStep 1 0; FCall 3 (EWaitOne 32 Polling); FStep 3 0; FStep 3 0; FCall 3 EGet; FStep 3 0; FStep 3 0; FStep 3 0].
Example c56_case_labels : forall l, In l c56_schedule -> f_label_ok 32 l.
Proof. intros l H. cbn in H. intuition (subst; cbn; lia). Qed.
Example c56_case :
  match exec (f_step 32 32 true true) f_init c56_schedule with
  | Some (s, es) =>
      history es =
        [Call 0%nat (EWait 5 ModeAND true Forever); Call 1%nat (EWait 36 ModeOR true (Within 10)); Call 2%nat (ESetOne 2);
         Ret 1%nat (ERes OK (Some 4)); Ret 2%nat (ERes OK None); Call 2%nat (ESet 5); Ret 2%nat (ERes OK None);
         Ret 0%nat (ERes OK (Some 5)); Call 1%nat (EWaitAny (Within 10)); Ret 1%nat (ERes TimedOut None);
         Call 3%nat (EWaitOne 32 Polling); Ret 3%nat (ERes InvalidParameter None); Call 3%nat EGet; Ret 3%nat (EPat 0)] /\
      f_ptn s = 0 /\ f_queue s = []
  | None => False
  end.
Proof. vm_compute. repeat split. Qed.
(** the middle of the run: both tasks queued with a false condition *)
Example c56_case_blocked :
  match exec (f_step 32 32 true true) f_init (firstn 6 c56_schedule) with
  | Some (s, _) => f_queue s = [1%nat; 0%nat] /\ f_step 32 32 true true s (FStep 0 0) = None /\ f_step 32 32 true true s (FTimeout 0) = None
                   /\ f_step 32 32 true true s (FTimeout 1) <> None
  | None => False
  end.
Proof. vm_compute. repeat split. discriminate. Qed.
