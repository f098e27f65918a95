(** Properties of EventFlag (C28, C29): StdCppEventFlag, any number of threads, any schedule.
    [w] is the number of bits of a pattern, [dbg] whether DEBUG_ASSERT is enabled, [ar] the autoReset flag; a schedule is
    a list of labels [ls]; [history es] is the sequence of calls and returns it produces. *)
From Coq Require Import List ZArith Bool Lia.
Import ListNotations.
From Verif Require Import Spec.OSError Spec.Linear Spec.EventFlagSpec OS.Sched OS.EventFlagModel OS.EventFlagProofs.
Open Scope Z_scope.

(** C28, C29: every call takes effect at one instant between its call and its return, as EventFlagSpec says *)
Theorem c28_event_flag_is_atomic :
  forall (w : Z), 0 < w -> forall (dbg ar : bool) (ls : list elab) (s : est) (es : list (event ecall eres)),
    (forall l, In l ls -> label_ok w l) -> exec (e_step w dbg ar) e_init ls = Some (s, es) ->
    linearizable (espec w ar) 0 (history es).
Proof. exact ef_linearizable. Qed.
Print Assumptions c28_event_flag_is_atomic.

(** C29: when no thread can go on by itself, a thread inside a call is in a wait call whose condition is false *)
Theorem c29_no_lost_wakeup :
  forall (w : Z), 0 < w -> forall (dbg ar : bool) (ls : list elab) (s : est) (es : list (event ecall eres)),
    (forall l, In l ls -> label_ok w l) -> exec (e_step w dbg ar) e_init ls = Some (s, es) ->
    (forall t, e_step w dbg ar s (LStep t) = None) ->
    forall t, e_idle s t \/ exists c Q, e_running s t = Some c /\ econd w c = Some Q /\ ~ Q (e_pat s).
Proof. exact ef_no_lost_wakeup. Qed.
Print Assumptions c29_no_lost_wakeup.
(** ... and once the time-outs have struck, it is a wait without time limit (try and timed waits always return) *)
Theorem c29_only_forever_waits_remain :
  forall (w : Z), 0 < w -> forall (dbg ar : bool) (ls : list elab) (s : est) (es : list (event ecall eres)),
    (forall l, In l ls -> label_ok w l) -> exec (e_step w dbg ar) e_init ls = Some (s, es) ->
    (forall t, e_step w dbg ar s (LStep t) = None) -> (forall t, e_step w dbg ar s (LTimeout t) = None) ->
    forall t, e_idle s t \/ exists c Q, e_running s t = Some c /\ forever c /\ econd w c = Some Q /\ ~ Q (e_pat s).
Proof. exact ef_only_forever_waits_remain. Qed.
Print Assumptions c29_only_forever_waits_remain.
(** such a point is always reached: with n threads, the calls in progress take at most n(8+2n) steps in all *)
Theorem c29_calls_in_progress_end :
  forall (w : Z) (dbg ar : bool) (n : nat) (s : est) (ls : list elab) (s' : est) (es : list (event ecall eres)),
    (forall t, (n <= t)%nat -> e_idle s t) -> (forall l, In l ls -> own_step l) ->
    exec (e_step w dbg ar) s ls = Some (s', es) -> (length ls <= n * (8 + 2 * n))%nat.
Proof. exact ef_terminates_bound. Qed.
Print Assumptions c29_calls_in_progress_end.
(** with auto-reset, between two successful waits there is a set *)
Theorem c29_auto_reset_releases_once :
  forall (w : Z) (dbg : bool), 0 < w -> forall (ls : list elab) (s : est) (es : list (event ecall eres)),
    (forall l, In l ls -> label_ok w l) -> exec (e_step w dbg true) e_init ls = Some (s, es) ->
    exists es' f p, history es' = history es /\ lin_run (espec w true) (fun _ => Out) 0 es' f p /\
      forall l1 x l2 y l3, effects es' = l1 ++ x :: l2 ++ y :: l3 -> released x -> released y ->
        exists z, In z l2 /\ is_set (snd (fst z)) = true.
Proof. exact ef_auto_reset. Qed.
Print Assumptions c29_auto_reset_releases_once.

(** thread 0 waits for bits 0 and 2, thread 1 for bit 31 with a time limit; thread 2 sets bit 2, which wakes both in
    vain; thread 1 times out; thread 2 sets bit 0, the wait of thread 0 returns and auto-reset clears the pattern. *)
Definition c28_schedule : list elab :=
  [LCall 0 (EWait 5 ModeAND true Forever); LStep 0; LStep 0; LStep 0; LCall 1 (EWaitOne 31 (Within 10)); LStep 1; LStep 1; LStep 1] ++
  [LCall 2 (ESetOne 2); LStep 2; LStep 2; LStep 2; LStep 2; LStep 2; LStep 2] ++
  [LStep 0; LStep 0; LStep 1; LStep 1; LTimeout 1; LStep 1; LStep 1; LStep 1; LStep 1] ++
  [LCall 2 (ESet 1); LStep 2; LStep 2; LStep 2; LStep 2; LStep 2; LStep 2] ++
  [LStep 0; LStep 0; LStep 0; LStep 0; LCall 2 EGet; LStep 2; LStep 2; LStep 2; LStep 2; LStep 2].
Example c28_case :
  (forall l, In l c28_schedule -> label_ok 32 l) /\
  match exec (e_step 32 true true) e_init c28_schedule with
  | Some (s, es) => history es =
      [Call 0%nat (EWait 5 ModeAND true Forever); Call 1%nat (EWaitOne 31 (Within 10)); Call 2%nat (ESetOne 2); Ret 2%nat (ERes OK None);
       Ret 1%nat (ERes TimedOut None); Call 2%nat (ESet 1); Ret 2%nat (ERes OK None); Ret 0%nat (ERes OK (Some 5)); Call 2%nat EGet; Ret 2%nat (EPat 0)]
  | None => False
  end.
Proof.
  split; [|vm_compute; reflexivity]. intros l H. cbn in H.
  repeat (destruct H as [<- | H]; [try exact I; cbn; lia|]). destruct H.
Qed.
(** a state in which nothing moves: a wait for bit 3 while only bit 2 is set *)
Example c29_case :
  match exec (e_step 32 true false) e_init
    ([LCall 0 (EWaitOne 3 Forever); LStep 0; LStep 0; LStep 0] ++ [LCall 1 (ESet 4); LStep 1; LStep 1; LStep 1; LStep 1; LStep 1; LStep 1; LStep 0; LStep 0])
  with
  | Some (s, _) => e_step 32 true false s (LStep 0) = None /\ e_step 32 true false s (LStep 1) = None /\
      e_running s 0 = Some (EWaitOne 3 Forever) /\ e_pat s = 4
  | None => False
  end.
Proof. vm_compute. repeat split. Qed.
