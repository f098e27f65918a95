(** Model of platform/TestDoubleOSWrapper: the doubles of Thread and of the timers, and of mechanism/OSWrapper/MessageQueue.h running
    over doubles of Mutex and EventFlag in a program with one thread (a unit test).  [answers] is what the doubles answer, as a function
    of all calls made on them so far: the doubles of the library always answer OK ([default_answers]), but a test can override them
    (test/TestDoubleOSWrapperTest/OverrideTestDoubleOSWrapperTest.cpp).  Simplified: copying a message does not throw. *)
From Coq Require Import List ZArith Bool.
Import ListNotations.
From Verif Require Import Spec.OSError Spec.MessageQueueSpec Spec.DoubleSpec OS.MessageQueueModel.
Open Scope Z_scope.

(** * TestDoubleThread: TestDoubleThreadFactory.h:10-102 *)
Record tthread := mkTT { tt_runnable : Z; tt_priority : Z; tt_initial : Z; tt_stack : Z; tt_stack_address : Z; tt_name : Z }.
Definition tt_blank : tthread := mkTT 0 0 0 0 0 0.                                                         (* 20-29 *)
Definition tt_create (r pri stack address name : Z) (t : tthread) : tthread := mkTT r pri pri stack address name.   (* 31-39, 110-115 *)
Definition tt_call (t : tthread) (c : tcall) : tthread * dres :=
  match c with
  | TStart => (t, DVoid)                                                                                   (* 43-45 *)
  | TWait | TTryWait | TTimedWait _ => (t, DErr OK)                                                        (* 47-61 *)
  | TIsFinished => (t, DBool false)                                                                        (* 63-66 *)
  | TSetName n => (mkTT (tt_runnable t) (tt_priority t) (tt_initial t) (tt_stack t) (tt_stack_address t) n, DVoid)   (* 68-71 *)
  | TGetName => (t, DNum (tt_name t))                                                                      (* 73-76 *)
  | TSetPriority p => (mkTT (tt_runnable t) p (tt_initial t) (tt_stack t) (tt_stack_address t) (tt_name t), DVoid)   (* 78-81 *)
  | TGetPriority => (t, DNum (tt_priority t))                                                              (* 83-86 *)
  | TGetInitialPriority => (t, DNum (tt_initial t))                                                        (* 88-91 *)
  | TGetStackSize => (t, DNum (tt_stack t))                                                                (* 93-96 *)
  | TGetNativeHandle => (t, DNum 0)                                                                        (* 98-101 *)
  end.
Fixpoint tt_calls (t : tthread) (cs : list tcall) : tthread := match cs with [] => t | c :: cs' => tt_calls (fst (tt_call t c)) cs' end.

(** * TestDoublePeriodicTimer: TestDoublePeriodicTimerFactory.h:10-63; TestDoubleOneShotTimer: TestDoubleOneShotTimerFactory.h:10-56
    (the latter has no period: 0) *)
Record ttimer := mkTI { ti_runnable : Z; ti_period : Z; ti_name : Z }.
Definition ti_blank : ttimer := mkTI 0 0 0.                                                                (* 17-23; 16-21 *)
Definition ti_create (r period name : Z) (t : ttimer) : ttimer := mkTI r period name.                      (* 25-30, 71-76; 23-27, 64-69 *)
Definition ti_call (t : ttimer) (c : icall) : ttimer * dres :=
  match c with
  | IStart _ | IStop => (t, DVoid)                                                                         (* 36-42; 33-40 *)
  | IIsStarted => (t, DBool false)                                                                         (* 44-47; 42-45 *)
  | IGetPeriod => (t, DNum (ti_period t))                                                                  (* 49-52 *)
  | ISetName n => (mkTI (ti_runnable t) (ti_period t) n, DVoid)                                            (* 54-57; 47-50 *)
  | IGetName => (t, DNum (ti_name t))                                                                      (* 59-62; 52-55 *)
  end.
Fixpoint ti_calls (t : ttimer) (cs : list icall) : ttimer := match cs with [] => t | c :: cs' => ti_calls (fst (ti_call t c)) cs' end.

(** * TestDoubleMutex (TestDoubleMutexFactory.h:28-47) and TestDoubleEventFlag (TestDoubleEventFlagFactory.h:28-120): always OK *)
Definition default_answers (l : dlog) (c : dcall) : err := OK.

Definition EV_NOT_EMPTY : Z := 1.                          (* MessageQueue.h:404-405 *)
Definition EV_NOT_FULL : Z := 2.                           (* 407-408 *)

Section Queue.
  Variable V : Type.
  Variable maxSize : Z.
  Variable answers : dlog -> dcall -> err.
  Notation B := (rbBufSize maxSize).

  Record dq := mkDQ { dq_ring : ring V; dq_log : dlog }.
  Definition dq_init : dq := mkDQ ring_init [].                                                            (* 332-337 *)
  (** a call on a double *)
  Definition ask (s : dq) (c : dcall) : dq * err := let e := answers (dq_log s) c in (mkDQ (dq_ring s) (dq_log s ++ [(c, e)]), e).
  Definition tell (s : dq) (c : dcall) : dq := fst (ask s c).                                              (* the answer is ignored *)
  (** LockGuard lock(m_mtxRB): Mutex.cpp:35-41, and its end: Mutex.cpp:51-58 *)
  Definition guard (s : dq) : dq * err := ask s (DLock MRing).
  Definition unguard (s : dq) (e : err) : dq := if err_eqb e OK then tell s (DUnlock MRing) else s.

  (** 376-384 isFull *)
  Definition is_full (s : dq) : dq * bool :=
    let '(s, e) := guard s in
    let b := ring_full V B (dq_ring s) in
    let s := if b then tell s (DReset EV_NOT_FULL) else s in
    (unguard s e, b).
  (** 366-374 isEmpty *)
  Definition is_empty (s : dq) : dq * bool :=
    let '(s, e) := guard s in
    let b := ring_empty V (dq_ring s) in
    let s := if b then tell s (DReset EV_NOT_EMPTY) else s in
    (unguard s e, b).
  (** 386-391 push; None: undefined behaviour *)
  Definition push (s : dq) (v : V) : option dq :=
    let '(s, e) := guard s in
    match ring_push V B (dq_ring s) v with
    | Some r => Some (unguard (tell (mkDQ r (dq_log s)) (DSet EV_NOT_EMPTY)) e)
    | None => None
    end.
  (** 393-398 pop *)
  Definition pop (s : dq) : option (dq * V) :=
    let '(s, e) := guard s in
    match ring_pop V B (dq_ring s) with
    | Some (v, r) => Some (unguard (tell (mkDQ r (dq_log s)) (DSet EV_NOT_FULL)) e, v)
    | None => None
    end.
  (** 123-152 timedSend *)
  Definition timed_send (s : dq) (v : V) (ms : Z) : option (dq * qres V) :=
    let '(s, e) := ask s (DTimedLock MSend ms) in                                                          (* 125 *)
    if negb (err_eqb e OK) then Some (s, RSend e) else                                                     (* 126-128 *)
    let '(s, full) := is_full s in                                                                         (* 131 *)
    let '(s, w) := if full then ask s (DWait EV_NOT_FULL ms) else (s, OK) in                               (* 132 *)
    if negb (err_eqb w OK) then Some (tell s (DUnlock MSend), RSend w) else                                (* 133-135, ~LockGuard *)
    match push s v with                                                                                    (* 142 *)
    | Some s => Some (tell s (DUnlock MSend), RSend OK)                                                    (* 152, ~LockGuard *)
    | None => None
    end.
  (** 204-233 timedReceive *)
  Definition timed_receive (s : dq) (store : bool) (ms : Z) : option (dq * qres V) :=
    let '(s, e) := ask s (DTimedLock MRecv ms) in                                                          (* 206 *)
    if negb (err_eqb e OK) then Some (s, RRecv e None) else                                                (* 207-209 *)
    let '(s, empty) := is_empty s in                                                                       (* 212 *)
    let '(s, w) := if empty then ask s (DWait EV_NOT_EMPTY ms) else (s, OK) in                             (* 213 *)
    if negb (err_eqb w OK) then Some (tell s (DUnlock MRecv), RRecv w None) else                           (* 214-216 *)
    match pop s with                                                                                       (* 223 *)
    | Some (s, v) => Some (tell s (DUnlock MRecv), RRecv OK (if store then Some v else None))              (* 233 *)
    | None => None
    end.
  (** 240-244 getSize, 250-254 getMaxSize *)
  Definition get_size (s : dq) : dq * qres V := let '(s, e) := guard s in (unguard s e, RNum (ring_size V B (dq_ring s))).
  Definition get_max_size (s : dq) : dq * qres V := let '(s, e) := guard s in (unguard s e, RNum (ring_max B)).
  Definition dq_call (s : dq) (c : qcall V) : option (dq * qres V) :=
    match c with
    | QSend v ms => timed_send s v ms
    | QRecv store ms => timed_receive s store ms
    | QGetSize => Some (get_size s)
    | QGetMaxSize => Some (get_max_size s)
    end.
  Fixpoint dq_run (s : dq) (cs : list (qcall V)) : option (dq * list (qres V)) :=
    match cs with
    | [] => Some (s, [])
    | c :: cs' => match dq_call s c with
                  | Some (s, r) => match dq_run s cs' with Some (s, rs) => Some (s, r :: rs) | None => None end
                  | None => None
                  end
    end.
End Queue.
Arguments mkDQ {V}. Arguments dq_ring {V}. Arguments dq_log {V}. Arguments dq_init {V}.
