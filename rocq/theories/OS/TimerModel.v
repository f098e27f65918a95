(** Model of platform/StdCppOSWrapper/StdCppOneShotTimerFactory.cpp and StdCppPeriodicTimerFactory.cpp (classes
    StdCppOneShotTimer, StdCppPeriodicTimer) for any number of client threads; [periodic] selects the class and line numbers
    are given as one-shot / periodic.
    Agent 0 is the timer's own thread (threadLoop, 43-73 / 43-71); agents 1, 2, ... are clients.  While the timer thread is in
    Runnable::run it may itself call start, stop and isStarted: those are calls of agent 0.  A callback that throws is one whose
    last act is a call of stop (timerMain, see OS/HandlerModel).
    All shared fields are accessed under m_mutex only, so each critical section is one step; waiting on a condition
    variable releases the mutex and sleeps, a notify moves the sleepers of that variable back to re-checking their
    predicate, and sleepers may also wake spuriously.  Time is not modelled: the wait_for of an armed timer may give up at any
    moment.  The times (m_timeInMillis, m_periodInMillis) and names are not modelled. *)
From Coq Require Import List ZArith Bool Arith.
Import ListNotations.
From Verif Require Import Spec.Linear Spec.TimerSpec OS.Sched.

(** the timer thread *)
Inductive lpc :=
| LCheck        (* 47-48: lock, evaluate the predicate of m_condActive.wait *)
| LSleep        (* inside m_condActive.wait *)
| LTimed        (* inside m_condActive.wait_for: 55 / 56 *)
| LTCheck       (* about to lock and evaluate the predicate of wait_for: 56 / 55-57 *)
| LFire         (* wait_for has returned false and the mutex is released: 64 / 65 *)
| LRun          (* in timerMain: 65 / 66 *)
| LClear        (* one-shot: 66-71, about to lock *)
| LDone.        (* left the loop: 52, 60 / 51, 61 *)
(** a client *)
Inductive mpc :=
| MIdle
| MAt (c : mcall)      (* about to lock m_mutex *)
| MAsleep (c : mcall)  (* inside m_condStopped.wait (start: 112 / 110) or m_condStarted.wait (stop: 125 / 122) *)
| MWoken (c : mcall)   (* notified: about to lock and evaluate the predicate again *)
| MJoin                (* endThread, in m_thread->wait(): 103 / 101 *)
| MRet (r : mres).

Record mst := mkM { m_active : bool; m_started : bool; m_stopped : bool; m_end : bool; m_nat : lpc; m_thr : nat -> mpc }.
Definition m_init : mst := mkM false false true false LCheck (fun _ => MIdle).               (* 75-82 / 73-80 *)

Inductive mlab :=
| XCall (t : nat) (c : mcall)
| XStep (t : nat)
| XSpurious (t : nat)
| XNat                     (* a step of the timer thread *)
| XTimeout                 (* wait_for gives up *)
| XNatSpurious.

Definition m_go (s : mst) (t : nat) (q : mpc) : mst := mkM (m_active s) (m_started s) (m_stopped s) (m_end s) (m_nat s) (fupd (m_thr s) t q).
Definition m_nto (s : mst) (n : lpc) : mst := mkM (m_active s) (m_started s) (m_stopped s) (m_end s) n (m_thr s).
(** m_condActive.notify_all *)
Definition wake_active (n : lpc) : lpc := match n with LSleep => LCheck | LTimed => LTCheck | _ => n end.
(** m_condStarted.notify_all, m_condStopped.notify_all *)
Definition wake_started (q : mpc) : mpc := match q with MAsleep MStop => MWoken MStop | _ => q end.
Definition wake_stopped (q : mpc) : mpc := match q with MAsleep MStart => MWoken MStart | _ => q end.
Definition callable (t : nat) (n : lpc) (c : mcall) : bool :=
  match c with
  | MStart | MStop | MIsStarted => if Nat.eqb t 0 then match n with LRun => true | _ => false end else true
  | MDestroy => negb (Nat.eqb t 0)
  | _ => false
  end.
Notation mout := (list (event mcall mres)).

(** start from the wait on: 112-116 / 110-113 *)
Definition start_body (s : mst) (t : nat) : mst * mout :=
  if m_stopped s then (mkM true (m_started s) false (m_end s) (wake_active (m_nat s)) (fupd (m_thr s) t (MRet MVoid)), [Eff t MStart MVoid])
  else (m_go s t (MAsleep MStart), []).
(** stop from the wait on: 125-128 / 122-125 *)
Definition stop_body (s : mst) (t : nat) : mst * mout :=
  if m_started s then (mkM false false (m_stopped s) (m_end s) (wake_active (m_nat s)) (fupd (m_thr s) t (MRet MVoid)), [Eff t MStop MVoid])
  else (m_go s t (MAsleep MStop), []).
(** wait_for returned true: 57-62 / 58-63 *)
Definition leave_wait (s : mst) : mst :=
  mkM (m_active s) (m_started s) true (m_end s) (if m_end s then LDone else LCheck) (fun u => wake_stopped (m_thr s u)).

Definition m_step (periodic : bool) (s : mst) (l : mlab) : option (mst * mout) :=
  match l with
  | XCall t c =>
      match m_thr s t with
      | MIdle => if callable t (m_nat s) c then Some (m_go s t (MAt c), [Call t c]) else None
      | _ => None
      end
  | XStep t =>
      match m_thr s t with
      | MAt MStart =>                                                                     (* 106-117 / 104-114 *)
          if m_active s then Some (m_go s t (MRet MVoid), [Eff t MStart MVoid]) else Some (start_body s t)
      | MWoken MStart => Some (start_body s t)
      | MAt MStop =>                                                                      (* 119-129 / 116-126 *)
          if m_active s then Some (stop_body s t) else Some (m_go s t (MRet MVoid), [Eff t MStop MVoid])
      | MWoken MStop => Some (stop_body s t)
      | MAt MIsStarted =>                                                                 (* 131-135 / 128-132 *)
          Some (m_go s t (MRet (MBool (m_active s))), [Eff t MIsStarted (MBool (m_active s))])
      | MAt MDestroy =>                                                                   (* 98-102 / 96-100 *)
          Some (mkM (m_active s) (m_started s) (m_stopped s) true (wake_active (m_nat s)) (fupd (m_thr s) t MJoin), [Eff t MDestroy MVoid])
      | MJoin => match m_nat s with LDone => Some (m_go s t (MRet MVoid), []) | _ => None end   (* 103 / 101 *)
      | MRet r => Some (m_go s t MIdle, [Ret t r])
      | _ => None
      end
  | XSpurious t => match m_thr s t with MAsleep c => Some (m_go s t (MWoken c), []) | _ => None end
  | XNat =>
      match m_nat s with
      | LCheck =>                                                                         (* 47-53 / 47-52 *)
          if m_active s || m_end s then
            Some (mkM (m_active s) true (m_stopped s) (m_end s)
                      (if m_end s then LDone else if periodic then LTCheck else LTimed) (fun u => wake_started (m_thr s u)), [])
          else Some (m_nto s LSleep, [])
      | LTCheck =>                                                                        (* 55-63 / 55-64 *)
          if negb (m_active s) || m_end s then Some (leave_wait s, []) else Some (m_nto s LTimed, [])
      | LFire => Some (m_nto s LRun, [Call 0 MBegin; Eff 0 MBegin MVoid; Ret 0 MVoid])    (* 65 / 66 *)
      | LRun =>                                                                           (* run() has returned *)
          match m_thr s 0 with
          | MIdle => if periodic then Some (m_nto s LTCheck, [Call 0 MEnd; Eff 0 MEnd MVoid; Ret 0 MVoid])
                     else Some (m_nto s LClear, [Call 0 MEnd])
          | _ => None
          end
      | LClear =>                                                                         (* 66-71 *)
          Some (mkM false false true (m_end s) LCheck (m_thr s), [Eff 0 MEnd MVoid; Ret 0 MVoid])
      | LSleep | LTimed | LDone => None
      end
  | XTimeout =>
      match m_nat s with
      | LTimed =>                                                                         (* 55-56 / 55-57 *)
          if negb (m_active s) || m_end s then Some (leave_wait s, [])
          else Some (m_nto s LFire, [Call 0 MDue; Eff 0 MDue MVoid; Ret 0 MVoid])
      | _ => None
      end
  | XNatSpurious =>
      match m_nat s with
      | LSleep => Some (m_nto s LCheck, [])
      | LTimed => Some (m_nto s LTCheck, [])
      | _ => None
      end
  end.

Definition m_idle (s : mst) (t : nat) : Prop := m_thr s t = MIdle.
(** the steps of the calls in progress and of the timer itself *)
Definition m_own_step (l : mlab) : Prop := match l with XStep _ | XNat | XTimeout => True | _ => False end.
(** nothing can move any more *)
Definition m_stuck (periodic : bool) (s : mst) : Prop :=
  (forall t, m_step periodic s (XStep t) = None) /\ m_step periodic s XNat = None /\ m_step periodic s XTimeout = None.
(** counting the steps of the timer thread, and of one caller, in a schedule *)
Definition timer_steps (ls : list mlab) : nat := length (filter (fun l => match l with XNat | XTimeout => true | _ => false end) ls).
Definition steps_of (t : nat) (ls : list mlab) : nat := length (filter (fun l => match l with XStep u => Nat.eqb u t | _ => false end) ls).
