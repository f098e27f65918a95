(** C77: how long the calls of Thread and ThreadPool take.  [took es t t0 c t1 r]: agent [t] made call [c] at time [t0] and it returned [r] at
    time [t1]; [pending es t t0 c]: it has not returned yet (Spec/TimedSpec; the limits are in Spec/TimedMoreSpec).  The "not early" theorems
    hold for every way the clock may run ([may_tick]); the others when time passes only while every caller waits and the threads' own runs -
    which may last as long as they like - are the only thing in progress (th_urgent, ps_urgent).
    The pool runs over the real MessageQueue (OS/PoolStackModel), with N threads, its agents are 0 .. n-1 (the threads are 0 .. N-1). *)
From Coq Require Import List ZArith Bool Lia Arith.
Import ListNotations.
From Verif Require Import Spec.OSError Spec.Linear Spec.MessageQueueSpec OS.Sched OS.MessageQueueModel Spec.ThreadSpec OS.ThreadModel OS.TimedThreadModel OS.TimedThreadProofs
  Spec.ThreadPoolSpec OS.ThreadPoolModel OS.PoolStackModel Props.PoolStackProps OS.TimedModel OS.TimedPoolModel OS.TimedPoolProofs Spec.TimedSpec Spec.TimedMoreSpec.
Open Scope Z_scope.

(** Thread::timedWait that reports TimedOut took at least its limit *)
Theorem c77_thread_not_early :
  forall (n : nat) (may_tick : tst hst -> bool) (ls : list (tlab hlab)) (x : tst hst) (es : list (Z * event tcall tres)),
    exec (th_timed n may_tick) (t_init ThreadModel.t_init) ls = Some (x, es) -> not_early thread_limit thread_timed_out es.
Proof. exact th_not_early. Qed.
Print Assumptions c77_thread_not_early.
(** ... and at most its limit; start and isFinished take no time *)
Theorem c77_thread_not_late :
  forall (n : nat) (ls : list (tlab hlab)) (x : tst hst) (es : list (Z * event tcall tres)),
    exec (th_timed n (th_urgent n)) (t_init ThreadModel.t_init) ls = Some (x, es) -> not_late thread_limit 1 (t_now x) es.
Proof. exact th_not_late. Qed.
Print Assumptions c77_thread_not_late.
Theorem c77_thread_clock_goes_on :
  forall (n : nat) (ls0 : list (tlab hlab)) (x : tst hst) (es0 : list (Z * event tcall tres)),
    exec (th_timed n (th_urgent n)) (t_init ThreadModel.t_init) ls0 = Some (x, es0) ->
    exists ls x1 es1, (length ls <= n * (2 * n + 8) + 2 * n + 6)%nat /\ exec (th_timed n (th_urgent n)) x ls = Some (x1, es1) /\ t_now x1 = t_now x /\
      th_timed n (th_urgent n) x1 TTick = Some (mkT (t_st x1) (t_now x + 1) (t_since x1), []).
Proof. exact th_time_goes_on. Qed.
Print Assumptions c77_thread_clock_goes_on.

(** ThreadPool: timedStart and WaitGuard::timedWait that report TimedOut took at least their limit *)
Theorem c77_pool_not_early :
  forall (N : nat), Z.of_nat N < 2 ^ 64 - 1 ->
  forall (dflt : Z) (ext_prio : nat -> Z) (n : nat) (q0 : qst nat) (may_tick : tst sst -> bool) (ls : list (tlab slab)) (x : tst sst) (es : list (Z * event pcall pres)),
    filled N q0 -> exec (ps_timed N dflt ext_prio n may_tick) (t_init (PoolStackModel.t_init dflt q0)) ls = Some (x, es) -> not_early pool_limit pool_timed_out es.
Proof. exact ps_not_early. Qed.
Print Assumptions c77_pool_not_early.
(** WaitGuard::timedWait takes at most its limit, isValid takes no time *)
Theorem c77_guard_wait_in_time :
  forall (N : nat), Z.of_nat N < 2 ^ 64 - 1 ->
  forall (dflt : Z) (ext_prio : nat -> Z) (n : nat), (N <= n)%nat ->
  forall (q0 : qst nat), filled N q0 -> forall (ls : list (tlab slab)) (x : tst sst) (es : list (Z * event pcall pres)),
    exec (ps_timed N dflt ext_prio n (ps_urgent N dflt ext_prio n)) (t_init (PoolStackModel.t_init dflt q0)) ls = Some (x, es) -> not_late guard_limit 1 (t_now x) es.
Proof. exact ps_guard_not_late. Qed.
Print Assumptions c77_guard_wait_in_time.
(** timedStart: within twice the limit ... *)
Theorem c77_start_within_twice_the_limit_partial :
  forall (N : nat), Z.of_nat N < 2 ^ 64 - 1 ->
  forall (dflt : Z) (ext_prio : nat -> Z) (n : nat), (N <= n)%nat ->
  forall (q0 : qst nat), filled N q0 -> forall (ls : list (tlab slab)) (x : tst sst) (es : list (Z * event pcall pres)),
    exec (ps_timed N dflt ext_prio n (ps_urgent N dflt ext_prio n)) (t_init (PoolStackModel.t_init dflt q0)) ls = Some (x, es) -> not_late pool_limit 2 (t_now x) es.
Proof. exact ps_not_late. Qed.
Print Assumptions c77_start_within_twice_the_limit_partial.
(** ... within the limit when only one agent starts tasks ... *)
Theorem c77_only_starter_in_time :
  forall (N : nat), Z.of_nat N < 2 ^ 64 - 1 ->
  forall (dflt : Z) (ext_prio : nat -> Z) (n : nat), (N <= n)%nat ->
  forall (q0 : qst nat), filled N q0 -> forall (ls : list (tlab slab)) (x : tst sst) (es : list (Z * event pcall pres)) (a : nat),
    exec (ps_timed N dflt ext_prio n (ps_urgent N dflt ext_prio n)) (t_init (PoolStackModel.t_init dflt q0)) ls = Some (x, es) ->
    (forall u y ms g p, In (TAct (TPool (XCall u (PStart y ms g p)))) ls -> u = a) ->
    forall t0 y ms g p, ms <> -1 ->
      (forall t1 r, took es a t0 (PStart y ms g p) t1 r -> t0 <= t1 <= t0 + wait_ms ms) /\
      (pending es a t0 (PStart y ms g p) -> t0 <= t_now x <= t0 + wait_ms ms).
Proof. exact ps_alone. Qed.
Print Assumptions c77_only_starter_in_time.
Theorem c77_pool_clock_goes_on :
  forall (N : nat), Z.of_nat N < 2 ^ 64 - 1 ->
  forall (dflt : Z) (ext_prio : nat -> Z) (n : nat),
  forall (q0 : qst nat), filled N q0 -> forall (ls0 : list (tlab slab)) (x : tst sst) (es0 : list (Z * event pcall pres)),
    exec (ps_timed N dflt ext_prio n (ps_urgent N dflt ext_prio n)) (t_init (PoolStackModel.t_init dflt q0)) ls0 = Some (x, es0) ->
    exists ls x1 es1, (length ls <= 293 * n + 111 * N)%nat /\ exec (ps_timed N dflt ext_prio n (ps_urgent N dflt ext_prio n)) x ls = Some (x1, es1) /\ t_now x1 = t_now x /\
      ps_timed N dflt ext_prio n (ps_urgent N dflt ext_prio n) x1 TTick = Some (mkT (t_st x1) (t_now x + 1) (t_since x1), []).
Proof. exact ps_time_goes_on. Qed.
Print Assumptions c77_pool_clock_goes_on.

(** ... but not in general.  A pool of one thread, which runs task 5; client 1 starts task 6 at time 0 with limit 10 and waits for a thread;
    client 2 starts task 7 at time 5 with limit 10: it waits for m_mtxRecv until 10, and then for a thread until 20 *)
Definition both_wait : list (tlab slab) :=
  map TAct (started 1 5 (-1) None None ++ [TPool (XRun 0); TPool (XRun 0); TPool (XCall 1 (PStart 6%nat 10 None None)); TEnter 1] ++ repeat (TQueue 1) 5) ++ repeat TTick 5 ++
  map TAct [TPool (XCall 2 (PStart 7%nat 10 None None)); TEnter 2] ++ repeat TTick 5 ++
  map TAct ([TGiveUp 1; TQueue 1; TQueue 1; TPool (XStep 1)] ++ repeat (TQueue 2) 5) ++ repeat TTick 10 ++ map TAct [TGiveUp 2; TQueue 2; TQueue 2; TPool (XStep 2)].
Theorem c77_start_within_the_limit_refuted :
  filled 1 (full 1) /\ exists (ls : list (tlab slab)) x es,
    exec (ps_timed 1 1 (fun _ => 4) 3 (ps_urgent 1 1 (fun _ => 4) 3)) (t_init (PoolStackModel.t_init 1 (full 1))) ls = Some (x, es) /\
    filter (fun y => visible (snd y)) es =
      [(0, Call 1%nat (PStart 5%nat (-1) None None)); (0, Ret 1%nat (PErr OK)); (0, Call 0%nat (PBegin 5%nat 4)); (0, Ret 0%nat PVoid);
       (0, Call 1%nat (PStart 6%nat 10 None None)); (5, Call 2%nat (PStart 7%nat 10 None None)); (10, Ret 1%nat (PErr TimedOut)); (20, Ret 2%nat (PErr TimedOut))] /\
    took es 2 5 (PStart 7%nat 10 None None) 20 (PErr TimedOut).
Proof.
  split; [exact full_one|]. exists both_wait.
  destruct (exec (ps_timed 1 1 (fun _ => 4) 3 (ps_urgent 1 1 (fun _ => 4) 3)) (t_init (PoolStackModel.t_init 1 (full 1))) both_wait) as [[x es]|] eqn:E; [|vm_compute in E; discriminate].
  exists x, es. split; [reflexivity|].
  assert (F : match exec (ps_timed 1 1 (fun _ => 4) 3 (ps_urgent 1 1 (fun _ => 4) 3)) (t_init (PoolStackModel.t_init 1 (full 1))) both_wait with Some (_, es) =>
     es = [(0, Call 1%nat (PStart 5%nat (-1) None None)); (0, Eff 1%nat (PStart 5%nat (-1) None None) (PErr OK)); (0, Ret 1%nat (PErr OK)); (0, Call 0%nat (PBegin 5%nat 4)); (0, Eff 0%nat (PBegin 5%nat 4) PVoid); (0, Ret 0%nat PVoid);
       (0, Call 1%nat (PStart 6%nat 10 None None)); (5, Call 2%nat (PStart 7%nat 10 None None)); (10, Eff 1%nat (PStart 6%nat 10 None None) (PErr TimedOut)); (10, Ret 1%nat (PErr TimedOut));
       (20, Eff 2%nat (PStart 7%nat 10 None None) (PErr TimedOut)); (20, Ret 2%nat (PErr TimedOut))] | None => False end) by (vm_compute; reflexivity).
  rewrite E in F. subst es. split; [reflexivity|].
  exists [(0, Call 1%nat (PStart 5%nat (-1) None None)); (0, Eff 1%nat (PStart 5%nat (-1) None None) (PErr OK)); (0, Ret 1%nat (PErr OK)); (0, Call 0%nat (PBegin 5%nat 4)); (0, Eff 0%nat (PBegin 5%nat 4) PVoid); (0, Ret 0%nat PVoid);
       (0, Call 1%nat (PStart 6%nat 10 None None))],
    [(10, Eff 1%nat (PStart 6%nat 10 None None) (PErr TimedOut)); (10, Ret 1%nat (PErr TimedOut)); (20, Eff 2%nat (PStart 7%nat 10 None None) (PErr TimedOut))], [].
  split; [reflexivity|]. intros y [<-|[<-|[<-|[]]]]; reflexivity.
Qed.
Print Assumptions c77_start_within_the_limit_refuted.

(** a thread runs from 0 to 7: client 1 starts it, waits at most 3 and gives up; client 2 waits at most 9, from 5 on, and is told OK at 7 *)
Definition c77_thread_schedule : list (tlab hlab) :=
  map TAct [NStep; TCall 1 TStart; TStep 1; NStep; TStep 1; TCall 1 (TWait 3); TStep 1] ++ repeat TTick 3 ++ map TAct [TTimeout 1; TStep 1] ++ repeat TTick 2 ++
  map TAct [TCall 2 (TWait 9); TStep 2] ++ repeat TTick 2 ++ map TAct [NStep; NStep; TStep 2; TStep 2; NStep].
Example c77_thread_case :
  match exec (th_timed 3 (th_urgent 3)) (t_init ThreadModel.t_init) c77_thread_schedule with
  | Some (x, es) => filter (fun y => visible (snd y)) es =
      [(0, Call 1%nat TStart); (0, Call 0%nat TBegin); (0, Ret 0%nat RVoid); (0, Ret 1%nat RVoid); (0, Call 1%nat (TWait 3)); (3, Ret 1%nat (RErr TimedOut));
       (5, Call 2%nat (TWait 9)); (7, Call 0%nat TEnd); (7, Ret 0%nat RVoid); (7, Ret 2%nat (RErr OK))] /\ t_now x = 7
  | None => False
  end.
Proof. vm_compute. split; reflexivity. Qed.
(** a pool of one thread and only one client, 1: it starts task 5 with guard 9; starts task 6 with limit 4, in vain; waits for the guard with
    limit 3, in vain, and again with limit 20; the task ends at 12 *)
Definition c77_pool_schedule : list (tlab slab) :=
  map TAct (started 1 5 2 (Some 9%nat) None ++ [TPool (XRun 0); TPool (XRun 0); TPool (XCall 1 (PStart 6%nat 4 None None)); TEnter 1] ++ repeat (TQueue 1) 5) ++ repeat TTick 4 ++
  map TAct [TGiveUp 1; TQueue 1; TQueue 1; TPool (XStep 1); TPool (XCall 1 (PWait 9 3))] ++ repeat TTick 3 ++
  map TAct [TPool (XTimeout 1 None); TPool (XStep 1); TPool (XCall 1 (PWait 9 20))] ++ repeat TTick 5 ++
  map TAct ([TPool (XTaskEnd 0 false)] ++ repeat (TPool (XRun 0)) 4 ++ [TPool (XStep 1); TPool (XStep 1)]).
Example c77_pool_case :
  match exec (ps_timed 1 1 (fun _ => 4) 2 (ps_urgent 1 1 (fun _ => 4) 2)) (t_init (PoolStackModel.t_init 1 (full 1))) c77_pool_schedule with
  | Some (x, es) => filter (fun y => visible (snd y)) es =
      [(0, Call 1%nat (PStart 5%nat 2 (Some 9%nat) None)); (0, Ret 1%nat (PErr OK)); (0, Call 0%nat (PBegin 5%nat 4)); (0, Ret 0%nat PVoid);
       (0, Call 1%nat (PStart 6%nat 4 None None)); (4, Ret 1%nat (PErr TimedOut)); (4, Call 1%nat (PWait 9 3)); (7, Ret 1%nat (PErr TimedOut));
       (7, Call 1%nat (PWait 9 20)); (12, Call 0%nat (PEnd 5%nat false)); (12, Ret 0%nat PVoid); (12, Ret 1%nat (PErr OK))]
  | None => False
  end.
Proof. vm_compute. reflexivity. Qed.
