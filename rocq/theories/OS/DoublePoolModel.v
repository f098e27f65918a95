(** Model of mechanism/OSWrapper/ThreadPool.cpp in a unit test: one thread, the free-runner queue being the MessageQueue of
    OS/DoubleModel over doubles that answer [answers], the threads being TestDoubleThread objects whose start() does nothing, or - overridden
    as in test/TestDoubleOSWrapperTest/OverrideTestDoubleOSWrapperTest.cpp:32-38 - runs the runnable ([sync]); [thread_wait r] and
    [event_wait r] are what the thread's and the event flag's wait calls of runner [r] answer (the library's doubles: OK).
    Simplified: creation of the pool's parts succeeds (its failures are C48), tasks do not throw and do not use the pool. *)
From Coq Require Import List ZArith Bool Arith.
Import ListNotations.
From Verif Require Import Spec.OSError Spec.MessageQueueSpec Spec.DoubleSpec OS.MessageQueueModel OS.DoubleModel.
Open Scope Z_scope.

Section Pool.
  Variable n : nat.                                   (* maxThreads *)
  Variable dflt : Z.                                  (* m_defaultPriority *)
  Variable answers : dlog -> dcall -> err.
  Variable sync : bool.
  Variables thread_wait event_wait : nat -> err.
  Notation size := (Z.of_nat n).
  Notation send := (timed_send nat size answers).
  Notation receive := (timed_receive nat size answers).

  Record dp := mkDP {
    dp_q : dq nat;                                    (* m_freeRunnerQueue; runners are numbers *)
    dp_prio : nat -> Z;                               (* the priority of the runner's thread *)
    dp_guards : list (nat * nat);                     (* the valid guards: guard, m_runner *)
    dp_ran : list (Z * Z)                             (* the tasks that have run, and the priority of the thread then *)
  }.
  Definition pupd (f : nat -> Z) (r : nat) (x : Z) : nat -> Z := fun r' => if Nat.eqb r' r then x else f r'.
  Definition find_guard (gs : list (nat * nat)) (g : nat) : option nat := match find (fun x => Nat.eqb (fst x) g) gs with Some (_, r) => Some r | None => None end.
  Definition drop_guard (gs : list (nat * nat)) (g : nat) : list (nat * nat) := filter (fun x => negb (Nat.eqb (fst x) g)) gs.

  (** 76-101: for each runner, Thread::create(.., m_defaultPriority, ..), m_freeRunnerQueue->send(runner) *)
  Fixpoint fill (q : dq nat) (rs : list nat) : option (dq nat) :=
    match rs with
    | [] => Some q
    | r :: rs' => match send q r (-1) with Some (q', _) => fill q' rs' | None => None end
    end.
  Definition dp_create : option dp :=
    match fill dq_init (seq 0 n) with Some q => Some (mkDP q (fun _ => dflt) [] []) | None => None end.

  (** 290-294 release, 207-210 releaseRunner: the results are ignored *)
  Definition release (s : dp) (r : nat) : option dp :=
    match send (dp_q s) r (-1) with Some (q, _) => Some (mkDP q (dp_prio s) (dp_guards s) (dp_ran s)) | None => None end.
  (** 244-250 startThread; the overridden start() calls TaskRunner::run (252-266): invoke, afterInvoke *)
  Definition start_thread (s : dp) (r : nat) (task pri : Z) (waited : bool) : option dp :=
    let s := mkDP (dp_q s) (pupd (dp_prio s) r pri) (dp_guards s) (dp_ran s) in                             (* 248 *)
    if sync then
      let s := mkDP (dp_q s) (pupd (dp_prio s) r dflt) (dp_guards s) (dp_ran s ++ [(task, dp_prio s r)]) in (* 268-277 *)
      if waited then Some s else release s r                                                                (* 278-282 *)
    else Some s.
  (** 182-205 timedStart *)
  Definition timed_start (s : dp) (task ms : Z) (g : option nat) (pri : Z) : option (dp * err) :=
    if task =? 0 then Some (s, InvalidParameter) else                                                       (* 184-186 *)
    match receive (dp_q s) true ms with                                                                     (* 188 *)
    | None => None
    | Some (q, RRecv OK (Some r)) =>
        let s := mkDP q (dp_prio s) (dp_guards s) (dp_ran s) in
        if negb (err_eqb (thread_wait r) OK) then Some (s, thread_wait r) else                              (* 193-197 *)
        match start_thread s r task pri (match g with Some _ => true | None => false end) with              (* 199 *)
        | None => None
        | Some s => Some (match g with                                                                      (* 201-203 *)
                          | Some g => mkDP (dp_q s) (dp_prio s) ((g, r) :: drop_guard (dp_guards s) g) (dp_ran s)
                          | None => s
                          end, OK)
        end
    | Some (q, RRecv e _) => Some (mkDP q (dp_prio s) (dp_guards s) (dp_ran s), e)                          (* 189-191 *)
    | Some _ => None                                                                                        (* never: timedReceive returns an Error *)
    end.
  Definition dp_call (s : dp) (c : pcall) : option (dp * err) :=
    match c with
    | PStart task ms g pri => timed_start s task ms g pri
    | PGuardWait g _ => Some (s, match find_guard (dp_guards s) g with Some r => event_wait r | None => OK end)   (* 331-337, 296-299 *)
    | PGuardRelease g =>                                                                                    (* 312-319 *)
        match find_guard (dp_guards s) g with
        | None => Some (s, OK)
        | Some r => match release s r with Some s => Some (mkDP (dp_q s) (dp_prio s) (drop_guard (dp_guards s) g) (dp_ran s), OK) | None => None end
        end
    end.
  Fixpoint dp_run (s : dp) (cs : list pcall) : option (dp * list err) :=
    match cs with
    | [] => Some (s, [])
    | c :: cs' => match dp_call s c with
                  | Some (s, r) => match dp_run s cs' with Some (s, rs) => Some (s, r :: rs) | None => None end
                  | None => None
                  end
    end.
  (** 139-159 destroyRunners: the runners destroyed, in order; OutOfFuel is proved never to happen *)
  Inductive destruction := Destroyed (l : list nat) | UndefinedBehaviour | OutOfFuel.
  Fixpoint destroy_runners (fuel : nat) (q : dq nat) (done : list nat) : destruction :=
    match fuel with
    | O => OutOfFuel
    | S fuel =>
        match receive q true 0 with                                                                         (* 149 *)
        | None => UndefinedBehaviour
        | Some (q, RRecv OK (Some r)) => destroy_runners fuel q (done ++ [r])                               (* 154-157 *)
        | Some _ => Destroyed done                                                                          (* 150-153 *)
        end
    end.
  (** 109-119 destroy *)
  Definition dp_destroy (s : dp) : destruction := destroy_runners (n + 2) (dp_q s) [].
End Pool.
