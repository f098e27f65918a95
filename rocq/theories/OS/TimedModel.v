(** A clock for the models of this directory.  The untimed models let a time-limited wait give up at any moment; here a
    clock runs beside them, the moment at which a thread begins a time-limited wait is recorded, and the wait may give up
    only when its limit has passed since then (std::condition_variable::wait_for and std::recursive_timed_mutex::
    try_lock_for compute the deadline once, on entry: [thread.condition.condvar], [thread.timedmutex.requirements]).
    When the clock may advance is a parameter: the lower bounds hold however it runs; the upper bounds are for [urgent],
    where time passes only when every thread is waiting and no limit has been reached - the time spent computing, or
    waiting for a processor, is not counted. *)
From Coq Require Import List ZArith Bool Arith.
Import ListNotations.
From Verif Require Import Spec.OSError Spec.Linear Spec.EventFlagSpec Spec.MutexSpec Spec.MessageQueueSpec OS.Sched OS.EventFlagModel OS.MutexModel OS.MessageQueueModel.
Open Scope Z_scope.

Section Timed.
  Variables St Lab C R : Type.
  Variable step : St -> Lab -> option (St * list (event C R)).
  Variable who : Lab -> nat.                       (* the thread that moves *)
  Variable n : nat.                                (* the number of threads *)
  Variable starts : St -> Lab -> bool.             (* the step by which the thread begins a time-limited wait *)
  Variable expiry : St -> Lab -> option Z.         (* the step by which a wait gives up, and its limit *)

  Record tst := mkT { t_st : St; t_now : Z; t_since : nat -> Z }.
  Inductive tlab := TAct (l : Lab) | TTick.
  Variable may_tick : tst -> bool.

  Definition t_init (s0 : St) : tst := mkT s0 0 (fun _ => 0).

  Definition due (x : tst) (l : Lab) : bool :=
    match expiry (t_st x) l with Some ms => t_since x (who l) + ms <=? t_now x | None => true end.
  Definition t_step (x : tst) (l : tlab) : option (tst * list (Z * event C R)) :=
    match l with
    | TAct l =>
        if (who l <? n)%nat && due x l then
          match step (t_st x) l with
          | Some (s', es) =>
              Some (mkT s' (t_now x) (if starts (t_st x) l then fupd (t_since x) (who l) (t_now x) else t_since x),
                    map (fun e => (t_now x, e)) es)
          | None => None
          end
        else None
    | TTick => if may_tick x then Some (mkT (t_st x) (t_now x + 1) (t_since x), []) else None
    end.
End Timed.
Arguments mkT {St}. Arguments t_st {St}. Arguments t_now {St}. Arguments t_since {St}. Arguments TAct {Lab}. Arguments TTick {Lab}.
Arguments t_init {St}.

(** time passes only when no thread can move: [go t] is the step of thread [t] that needs no time-out, [give_up t] the one by
    which its wait ends because of its time limit *)
Definition urgent {St Lab C R : Type} (step : St -> Lab -> option (St * list (event C R))) (who : Lab -> nat) (n : nat)
  (expiry : St -> Lab -> option Z) (go give_up : nat -> Lab) (x : tst St) : bool :=
  forallb (fun t => match step (t_st x) (go t) with Some _ => false | None => true end &&
                    match step (t_st x) (give_up t) with Some _ => negb (due St Lab who expiry x (give_up t)) | None => true end) (seq 0 n).

(** ** StdCppEventFlag (StdCppEventFlagFactory.cpp:90-100): the deadline is computed on entry to wait_for, before the predicate is
    evaluated for the first time; spurious wake-ups and notifications do not move it *)
Definition ef_who (l : elab) : nat := match l with LCall t _ | LStep t | LTimeout t | LSpurious t => t end.
Definition ef_starts (s : est) (l : elab) : bool :=
  match l with LStep t => match e_thr s t with EBody _ (OWait _ _ _ _) => true | _ => false end | _ => false end.
Definition ef_expiry (s : est) (l : elab) : option Z :=
  match l with LTimeout t => match e_thr s t with EAsleep _ (OWait _ _ _ tm) => Some tm | _ => None end | _ => None end.
Section EF.
  Variables (w : Z) (dbg autoReset : bool) (n : nat).
  Definition ef_timed (may_tick : tst est -> bool) :=
    t_step est elab ecall eres (e_step w dbg autoReset) ef_who n ef_starts ef_expiry may_tick.
  Definition ef_urgent : tst est -> bool := urgent (e_step w dbg autoReset) ef_who n ef_expiry LStep LTimeout.
End EF.

(** ** StdCppMutex (StdCppMutexFactory.cpp:39-75): try_lock, try_lock_for *)
Definition mx_who (l : mlab) : nat := match l with MCall t _ | MStep t | MTimeout t | MThrow t => t end.
Definition mx_starts (s : mst) (l : mlab) : bool := match l with MCall _ _ => true | _ => false end.
Definition mx_expiry (s : mst) (l : mlab) : option Z :=
  match l with
  | MTimeout t => match x_thr s t with MAcq (MTimedLock ms) => Some ms | MAcq MTryLock => Some 0 | _ => None end
  | _ => None
  end.
Section MX.
  Variables (M n : nat).
  Definition mx_timed (may_tick : tst mst -> bool) := t_step mst mlab mcall err (m_step M) mx_who n mx_starts mx_expiry may_tick.
  Definition mx_urgent : tst mst -> bool := urgent (m_step M) mx_who n mx_expiry MStep MTimeout.
End MX.

(** ** MessageQueue (MessageQueue.h:119-232): timedLock(tmout) of the outer mutex, then timedWait(.., tmout) on the event flag, each
    with the whole tmout *)
Definition mq_who {V} (l : qlab V) : nat := match l with QCall t _ | QStep t | QTimeout t | QLockFail t | QThrow t _ => t end.
Definition mq_starts {V} (s : qst V) (l : qlab V) : bool :=
  match l with
  | QCall _ _ => true
  | QStep t => match q_thr s t with QAt _ (PUnlockChk true) => true | _ => false end
  | _ => false
  end.
Definition mq_expiry {V} (s : qst V) (l : qlab V) : option Z :=
  match l with QTimeout t => match q_thr s t with QAt c _ => Some (tmout c) | QIdle => None end | _ => None end.
Section MQ.
  Variables (V : Type) (maxSize : Z) (n : nat).
  Definition mq_timed (may_tick : tst (qst V) -> bool) :=
    t_step (qst V) (qlab V) (qcall V) (qres V) (q_step V maxSize) mq_who n mq_starts mq_expiry may_tick.
  Definition mq_urgent : tst (qst V) -> bool := urgent (q_step V maxSize) mq_who n mq_expiry QStep QTimeout.
End MQ.
