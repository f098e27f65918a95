(** C75: uncaught-exception handlers that are set while threads and timers run.  [N]: threads of the pool; [class_of]: any assignment of
    classes to objects; any number of agents sets and asks for handlers at any point. *)
From Coq Require Import String List Bool Arith.
Import ListNotations.
From Verif Require Import Spec.HandlerSpec Spec.HandlerRaceSpec OS.Sched OS.HandlerRaceModel OS.HandlerRaceProofs.

(** A handler call is for an exception that the object threw and nobody looked after yet, with its message.  The handler is the one set in
    the object at that moment; or the default of its class at that moment, and then the object had none at some point since the throw. *)
Theorem c75_right_handler :
  forall (N : nat) (class_of : nat -> option class) (ls : list hlab) (s : hst) (es a d : list hev) (r h : nat) (m : string),
    exec (h_step N class_of) h_init ls = Some (s, es) -> es = a ++ EvHandle r h m :: d ->
    exists (a1 : list hev) (x : exn) (b : list hev) (k : class),
      dispatching a r a1 x b /\ m = message_of x /\ class_of r = Some k /\
      (handler_now a (OfObject r) = Some h \/
       handler_now a (Default k) = Some h /\ at_some_point (a1 ++ [EvThrow r x]) b (OfObject r) None).
Proof. exact (fun N class_of ls s es a d r h m => handles N class_of ls s es a r h m d). Qed.
Print Assumptions c75_right_handler.
(** An exception is dropped for want of a handler only if the class had no default at that moment and the object no handler at some point
    since the throw. *)
Theorem c75_unhandled :
  forall (N : nat) (class_of : nat -> option class) (ls : list hlab) (s : hst) (es a d : list hev) (r : nat),
    exec (h_step N class_of) h_init ls = Some (s, es) -> es = a ++ EvUnhandled r :: d ->
    exists (a1 : list hev) (x : exn) (b : list hev) (k : class),
      dispatching a r a1 x b /\ class_of r = Some k /\
      handler_now a (Default k) = None /\ at_some_point (a1 ++ [EvThrow r x]) b (OfObject r) None.
Proof. exact (fun N class_of ls s es a d r => drops N class_of ls s es a r d). Qed.
Print Assumptions c75_unhandled.
(** Only timers drop one because stop() threw. *)
Theorem c75_stop_threw :
  forall (N : nat) (class_of : nat -> option class) (ls : list hlab) (s : hst) (es : list hev) (r : nat),
    exec (h_step N class_of) h_init ls = Some (s, es) -> In (EvStopThrew r) es ->
    class_of r = Some OneShotC \/ class_of r = Some PeriodicC.
Proof. exact stop_threw. Qed.
Print Assumptions c75_stop_threw.
(** The getters return what was set last. *)
Theorem c75_getters :
  forall (N : nat) (class_of : nat -> option class) (ls : list hlab) (s : hst) (es a d : list hev) (t : nat) (p : place) (h : option nat),
    exec (h_step N class_of) h_init ls = Some (s, es) -> es = a ++ EvGet t p h :: d -> handler_now a p = h.
Proof. exact (fun N class_of ls s es a d t p h => gets N class_of ls s es a t p h d). Qed.
Print Assumptions c75_getters.
(** If no handler that matters to an exception is set while it is looked after, the handler called is C42's: the object's if there is one,
    else the default, as they were set at the throw; and it is dropped only if there was neither. *)
Theorem c75_quiet_handler :
  forall (N : nat) (class_of : nat -> option class) (ls : list hlab) (s : hst) (es a d : list hev) (r h : nat) (m : string),
    exec (h_step N class_of) h_init ls = Some (s, es) -> no_set_during_dispatch class_of (fun _ => True) es -> es = a ++ EvHandle r h m :: d ->
    exists (a1 : list hev) (x : exn) (b : list hev) (k : class),
      dispatching a r a1 x b /\ class_of r = Some k /\ m = message_of x /\
      handler_of (mkCfg (handler_now a1 (OfObject r)) (handler_now a1 (Default k))) = Some h.
Proof. exact (fun N class_of ls s es a d r h m => quiet_handle N class_of ls s es a r h m d). Qed.
Print Assumptions c75_quiet_handler.
Theorem c75_quiet_unhandled :
  forall (N : nat) (class_of : nat -> option class) (ls : list hlab) (s : hst) (es a d : list hev) (r : nat),
    exec (h_step N class_of) h_init ls = Some (s, es) -> no_set_during_dispatch class_of (fun _ => True) es -> es = a ++ EvUnhandled r :: d ->
    exists (a1 : list hev) (x : exn) (b : list hev) (k : class),
      dispatching a r a1 x b /\ class_of r = Some k /\
      handler_of (mkCfg (handler_now a1 (OfObject r)) (handler_now a1 (Default k))) = None.
Proof. exact (fun N class_of ls s es a d r => quiet_drop N class_of ls s es a r d). Qed.
Print Assumptions c75_quiet_unhandled.
(** A null handler is never called - if none is set to null while an exception that it matters to is looked after.  Missing: without that
    condition it is (c75_null_is_called_refuted). *)
Theorem c75_null_not_called_partial :
  forall (N : nat) (class_of : nat -> option class) (ls : list hlab) (s : hst) (es : list hev),
    exec (h_step N class_of) h_init ls = Some (s, es) -> no_set_during_dispatch class_of (fun h => h = None) es ->
    forall r, h_phase s r <> Crashed.
Proof. exact never_null. Qed.
Print Assumptions c75_null_not_called_partial.
(** handleException tests the pointer and reads it again for the call: a handler removed in between is called through null. *)
Theorem c75_null_is_called_refuted :
  exists (ls : list hlab) (s : hst) (es : list hev),
    exec (h_step 0 (fun r => match r with 0 => Some ThreadC | _ => None end)) h_init ls = Some (s, es) /\
    es = [EvSet 1 (OfObject 0) (Some 7); EvBegin 0; EvThrow 0 XOther; EvSet 1 (OfObject 0) None] /\ h_phase s 0 = Crashed.
Proof.
  exists [HSet 1 (OfObject 0) (Some 7); HBegin 0; HEnd 0 (Some XOther); HStep 0; HSet 1 (OfObject 0) None; HStep 0].
  eexists _, _. split; [reflexivity|]. split; reflexivity.
Qed.
Print Assumptions c75_null_is_called_refuted.
(** An exception is looked after (or null called) within four steps of the object's own thread. *)
Theorem c75_settled :
  forall (N : nat) (class_of : nat -> option class) (s : hst) (r : nat) (x : exn),
    match h_phase s r with Stopping y | TestOwn y | CallOwn y | TestDflt y | CallDflt y => y = x | _ => False end ->
    exists (n : nat) (s' : hst) (es : list hev), n <= 4 /\ exec (h_step N class_of) s (repeat (HStep r) n) = Some (s', es) /\
      ((exists e, In e es /\ settles r e) \/ h_phase s' r = Crashed).
Proof. intros N c s r x H. apply (settled N c s r x). destruct (h_phase s r); cbn; congruence || contradiction. Qed.
Print Assumptions c75_settled.
(** When ThreadPool::setUncaughtExceptionHandler returns, the pool reports the handler and all threads of the pool have it - if nobody else
    set one of these meanwhile.  Missing: with two such calls at once they may differ for good (c75_pool_sets_race_refuted). *)
Theorem c75_pool_set_partial :
  forall (N : nat) (class_of : nat -> option class) (ls : list hlab) (s : hst) (es a b d : list hev) (t : nat) (h : option nat),
    exec (h_step N class_of) h_init ls = Some (s, es) -> es = a ++ EvPoolSet t h :: b ++ EvPoolDone t :: d ->
    (forall e, In e b -> match e with EvPoolSet u _ | EvPoolDone u => u <> t | _ => True end) ->
    (forall u p h', In (EvSet u p h') b -> u <> t -> p <> OfPool /\ forall i, i < N -> p <> OfObject i) ->
    handler_now (a ++ EvPoolSet t h :: b) OfPool = h /\ forall i, i < N -> handler_now (a ++ EvPoolSet t h :: b) (OfObject i) = h.
Proof.
  intros N c ls s es a b d t h E F O. apply (pool_set N c ls s es a t h b d E F). intros e I X. specialize (O e I). destruct e; cbn in X; contradiction.
Qed.
Print Assumptions c75_pool_set_partial.
(** agent 5 sets handler 1, agent 6 handler 2: in the end the pool reports 2, thread 0 has 2, thread 1 has 1 *)
Theorem c75_pool_sets_race_refuted :
  exists (ls : list hlab) (s : hst) (es : list hev),
    exec (h_step 2 (fun r => if r <? 2 then Some ThreadC else None)) h_init ls = Some (s, es) /\
    In (EvPoolDone 5) es /\ In (EvPoolDone 6) es /\
    handler_now es OfPool = Some 2 /\ handler_now es (OfObject 0) = Some 2 /\ handler_now es (OfObject 1) = Some 1.
Proof.
  exists [HPoolSet 5 (Some 1); HLoop 5; HPoolSet 6 (Some 2); HLoop 6; HLoop 6; HLoop 6; HLoop 5; HLoop 5].
  eexists _, _. split; [reflexivity|]. cbn. intuition.
Qed.
Print Assumptions c75_pool_sets_race_refuted.

(** a run that meets the hypotheses: object 0 is a thread, 1 a one-shot timer; the default of the threads is set, the timer has its own; both throw *)
Example c75_case :
  match exec (h_step 0 (fun r => match r with 0 => Some ThreadC | 1 => Some OneShotC | _ => None end)) h_init
    [HSet 2 (Default ThreadC) (Some 10); HSet 2 (OfObject 1) (Some 11); HBegin 0; HBegin 1; HEnd 1 (Some (XStd "a")); HEnd 0 (Some (XFailure "b"));
     HStep 1; HStep 0; HStep 1; HStep 0; HStep 1; HStep 0; HGet 2 (OfObject 1); HEnd 0 (Some XOther); HEnd 1 None] with
  | Some (s, es) =>
      es = [EvSet 2 (Default ThreadC) (Some 10); EvSet 2 (OfObject 1) (Some 11); EvBegin 0; EvBegin 1; EvThrow 1 (XStd "a"); EvThrow 0 (XFailure "b");
            EvHandle 1 11 "a"; EvHandle 0 10 "b"; EvGet 2 (OfObject 1) (Some 11); EvHandled 0; EvHandled 1] /\ h_phase s 0 = Off
  | None => False
  end.
Proof. vm_compute. repeat split. Qed.
(** its settings are all made before the first throw, so both conditions on settings hold *)
Example c75_case_quiet :
  forall bad, no_set_during_dispatch (fun r => match r with 0 => Some ThreadC | 1 => Some OneShotC | _ => None end) bad
    [EvSet 2 (Default ThreadC) (Some 10); EvSet 2 (OfObject 1) (Some 11); EvBegin 0; EvBegin 1; EvThrow 1 (XStd "a"); EvThrow 0 (XFailure "b");
     EvHandle 1 11 "a"; EvHandle 0 10 "b"; EvGet 2 (OfObject 1) (Some 11); EvHandled 0; EvHandled 1].
Proof.
  intros bad es1 t p h es2 E B r k a x b (D & _) K C.
  do 2 (destruct es1 as [|? es1]; [destruct a as [|? [|? a]]; discriminate D|]; injection E as <- E).
  do 9 (destruct es1 as [|? es1]; [discriminate E|]; injection E as <- E). destruct es1; discriminate E.
Qed.
(** a pool of two threads whose handler is set while thread 0 is looking after an exception; the new handler is called *)
Example c75_pool_case :
  match exec (h_step 2 (fun r => if r <? 2 then Some ThreadC else None)) h_init
    [HBegin 0; HEnd 0 (Some XOther); HPoolSet 5 (Some 3); HLoop 5; HStep 0; HLoop 5; HLoop 5; HStep 0] with
  | Some (s, es) => es = [EvBegin 0; EvThrow 0 XOther] ++ EvPoolSet 5 (Some 3) :: [EvSet 5 OfPool (Some 3); EvSet 5 (OfObject 0) (Some 3); EvSet 5 (OfObject 1) (Some 3)]
                      ++ EvPoolDone 5 :: [EvHandle 0 3 "Unknown Exception"]
  | None => False
  end.
Proof. vm_compute. reflexivity. Qed.
