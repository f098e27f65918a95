(** A clock (OS/TimedModel) beside the model of ThreadPool over MessageQueue (OS/PoolStackModel).
    ThreadPool.cpp:182-205: timedStart passes its time limit to timedReceive (which passes it on to timedLock of the outer mutex and to timedWait of
    the event flag, MessageQueue.h:119-232) and then to timedWait of the runner's Thread; WaitGuard::timedWait (321-337) passes it to timedWaitAny.
    Each of these waits computes its own deadline when it begins. *)
From Coq Require Import List ZArith Bool Arith.
Import ListNotations.
From Verif Require Import Spec.OSError Spec.Linear Spec.MessageQueueSpec OS.Sched OS.MessageQueueModel Spec.ThreadPoolSpec OS.ThreadPoolModel OS.PoolStackModel OS.TimedModel.
Open Scope Z_scope.
Notation sst := PoolStackModel.tst.
Notation slab := PoolStackModel.tlab.
Notation sstep := PoolStackModel.t_step.

Definition plab_who (l : plab) : nat := match l with XCall t _ | XStep t | XTimeout t _ => t | XRun r | XTaskEnd r _ => r end.
Definition ps_who (l : slab) : nat := match l with TPool l => plab_who l | TEnter t | TQueue t | TGiveUp t => t end.
(** a call of the pool or of the queue; in the queue, the step from the check to the wait (as in mq_starts); the return from timedReceive, after which
    the Thread is waited for *)
Definition ps_starts (s : sst) (l : slab) : bool :=
  match l with
  | TPool (XCall _ _) | TEnter _ => true
  | TQueue t => match q_thr (t_queue s) t with QAt _ (PUnlockChk true) | QAt _ (MessageQueueModel.PRet _) => true | _ => false end
  | _ => false
  end.
Definition ps_expiry (s : sst) (l : slab) : option Z :=
  match l with
  | TGiveUp t => mq_expiry (t_queue s) (QTimeout t)                                                             (* timedLock, timedWait in the queue *)
  | TPool (XTimeout t _) => match p_thr (t_pool s) t with PHold SJoin _ _ ms _ _ | PAt (PWait _ ms) => Some ms | _ => None end   (* 194; 336 *)
  | _ => None
  end.
Section PS.
  Variables (N : nat) (dflt : Z) (ext_prio : nat -> Z) (n : nat).
  Definition ps_timed (may_tick : tst sst -> bool) :=
    t_step sst slab pcall pres (sstep N dflt ext_prio) ps_who n ps_starts ps_expiry may_tick.
  Definition can (s : sst) (l : slab) : bool := match sstep N dflt ext_prio s l with Some _ => true | None => false end.
  (** time passes only when no call can go on, no limit has been reached, and the pool's threads are off or in the run() of a task *)
  Definition ps_urgent (x : tst sst) : bool :=
    forallb (fun t => negb (can (t_st x) (TPool (XStep t))) && negb (can (t_st x) (TEnter t)) && negb (can (t_st x) (TQueue t)) && negb (can (t_st x) (TPool (XRun t))) &&
                      forallb (fun l => negb (can (t_st x) l && due sst slab ps_who ps_expiry x l)) [TGiveUp t; TPool (XTimeout t None)]) (seq 0 n).
End PS.
