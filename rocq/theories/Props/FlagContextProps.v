(** C88: the event flag on Itron may also be called outside tasks, from interrupt handlers and timer callbacks: any number of
    tasks and handlers, any schedule, any queue order.  [nt]: which callers are handlers; [lenient]: the kernel lets handlers
    set, clear and read; [w], [wf], [ar] as in C56. *)
From Coq Require Import List ZArith Bool Lia.
Import ListNotations.
From Verif Require Import Spec.OSError Spec.Linear Spec.EventFlagSpec Spec.FlagContextSpec OS.Sched OS.EventFlagModel OS.ItronEventFlagModel
  OS.ItronEventFlagProofs OS.FlagContextModel OS.FlagContextProofs.
Open Scope Z_scope.

(** the history of all callers is that of one atomic event flag, from which a handler's wait is refused without effect, and
    whose other calls by a handler are as a task's (waking tasks included) or, in a strict kernel, fail without effect *)
Theorem c88_handlers_are_atomic_or_refused_partial :
  forall (w wf : Z), 0 < w -> w <= wf -> forall (dbg ar : bool) (nt : nat -> bool) (lenient : bool)
      (ls : list glab) (s : ifst) (es : list (event ecall eres)),
    (forall l, In l ls -> g_label_ok w l) -> exec (g_step w wf dbg ar nt lenient) f_init ls = Some (s, es) ->
    linearizable (fspec w ar nt lenient) 0 (history es).
Proof. exact flag_ctx_linearizable. Qed.
Print Assumptions c88_handlers_are_atomic_or_refused_partial.
(** the flag's bits and every task's progress are those of an execution from which the refused calls are left out *)
Theorem c88_refused_calls_leave_no_trace :
  forall (w wf : Z), 0 < w -> w <= wf -> forall (dbg ar : bool) (nt : nat -> bool) (lenient : bool)
      (ls : list glab) (s : ifst) (es : list (event ecall eres)),
    (forall l, In l ls -> g_label_ok w l) -> exec (g_step w wf dbg ar nt lenient) f_init ls = Some (s, es) ->
    exists ls' es', (forall l, In l ls' -> In (GStep l) ls) /\ exec (f_step w wf dbg ar) f_init ls' = Some (s, es').
Proof. exact flag_ctx_invisible. Qed.
Print Assumptions c88_refused_calls_leave_no_trace.
(** a handler can make any call at any time: it is refused at once, or enters, and it never enters a wait unless the arguments
    will be rejected *)
Theorem c88_handlers_never_enter_a_wait :
  forall (w : Z) (wf : Z), 0 < w -> forall (dbg ar : bool) (nt : nat -> bool) (lenient : bool) (s : ifst) (h : nat) (c : ecall),
    nt h = true -> f_idle s h -> ecall_ok w c ->
    (exists r, g_step w wf dbg ar nt lenient s (GRefused h c) = Some (s, [Call h c; Eff h c r; Ret h r])) \/
    (exists s1 e1, g_step w wf dbg ar nt lenient s (GStep (FCall h c)) = Some (s1, e1) /\ (is_wait c = true -> bad_args w c = true)).
Proof. exact flag_ctx_never_waits. Qed.
Print Assumptions c88_handlers_never_enter_a_wait.
(** "Always success" (EventFlag.h:202) does not hold outside tasks in a strict kernel, whatever the widths *)
Theorem c88_set_always_succeeds_refuted :
  forall (w wf : Z) (dbg ar : bool) (nt : nat -> bool) (h : nat), 0 < w -> nt h = true ->
    exists s es, exec (g_step w wf dbg ar nt false) f_init [GRefused h ESetAll] = Some (s, es) /\
      ~ linearizable (fspec w ar nt true) 0 (history es).
Proof. exact flag_ctx_strict. Qed.
Print Assumptions c88_set_always_succeeds_refuted.

(** auto-reset flag of 32 bits, lenient kernel: task 0 waits for bits 0 and 2; handler 9 (a timer callback) tries to wait and is
    refused, then sets bits 0 and 2, which wakes task 0 *)
Definition c88_nt (t : nat) : bool := Nat.eqb t 9.
Definition c88_schedule : list glab :=
  [GStep (FCall 0 (EWait 5 ModeAND true Forever)); GStep (FStep 0 0); GStep (FStep 0 0); GRefused 9 (EWaitOne 2 Polling);
   GStep (FCall 9 (ESet 5)); GStep (FStep 9 0); GStep (FStep 9 0); GStep (FStep 9 0); GStep (FStep 0 0);
   GStep (FCall 9 (EWaitOne 40 Forever)); GStep (FStep 9 0); GStep (FStep 9 0)].
Example c88_case :
  (forall l, In l c88_schedule -> g_label_ok 32 l) /\
  match exec (g_step 32 32 true true c88_nt true) f_init c88_schedule with
  | Some (s, es) =>
      history es = [Call 0%nat (EWait 5 ModeAND true Forever); Call 9%nat (EWaitOne 2 Polling); Ret 9%nat (ERes CalledByNonThread None);
                    Call 9%nat (ESet 5); Ret 9%nat (ERes OK None); Ret 0%nat (ERes OK (Some 5));
                    Call 9%nat (EWaitOne 40 Forever); Ret 9%nat (ERes InvalidParameter None)] /\ f_ptn s = 0
  | None => False
  end.
Proof.
  split; [|vm_compute; split; reflexivity].
  intros l H. cbn in H. repeat (destruct H as [<-|H]; [cbn; try lia; auto; try (split; [lia|auto])|]). contradiction.
Qed.
