(** Model of platform/StdCppOSWrapper/StdCppThreadFactory.cpp (class StdCppThread) for any number of client threads.
    Agent 0 is the thread object's own native thread (threadLoop, 15-32); agents 1, 2, ... are clients.
    All shared fields are accessed under m_mutex only, so each critical section is one step; waiting on a condition
    variable releases the mutex and sleeps, a notify moves the sleepers of that variable back to re-checking their
    predicate, and sleepers may also wake spuriously.  Runnable::run is not modelled beyond its begin and its end
    (threadMain never throws: see OS/HandlerModel), and is assumed not to call methods of its own thread object. *)
From Coq Require Import List ZArith Bool Arith.
Import ListNotations.
From Verif Require Import Spec.OSError Spec.Linear Spec.ThreadSpec OS.Sched.
Open Scope Z_scope.

(** the native thread *)
Inductive npc :=
| NCheck        (* 19-24: lock, evaluate the predicate of m_condStarted.wait *)
| NAsleep       (* inside m_condStarted.wait *)
| NRun          (* 25: in threadMain *)
| NClear        (* 26-30: run has returned; about to lock and clear m_isActive *)
| NDone.        (* 22: left the loop *)
(** a client *)
Inductive tpc :=
| TIdle
| TAt (c : tcall)      (* about to lock m_mutex: 65, 85, 99, 53 *)
| TAsleep (c : tcall)  (* inside m_condFinished.wait / wait_for: 87, 89 *)
| TReq                 (* endThread, after wait(): 55 *)
| TJoin                (* endThread, in m_thread.join(): 60 *)
| TRet (r : tres).

Record tst := mkT { t_active : bool; t_end : bool; t_nat : npc; t_thr : nat -> tpc }.
Definition t_init : tst := mkT false false NCheck (fun _ => TIdle).                        (* 34-49 *)

Inductive tlab :=
| TCall (t : nat) (c : tcall)
| TStep (t : nat)
| TTimeout (t : nat)       (* wait_for gives up: 89-91 *)
| TSpurious (t : nat)
| NStep
| NSpurious.

Definition t_go (s : tst) (t : nat) (q : tpc) : tst := mkT (t_active s) (t_end s) (t_nat s) (fupd (t_thr s) t q).
(** m_condFinished.notify_all *)
Definition t_wake (q : tpc) : tpc := match q with TAsleep c => TAt c | _ => q end.
(** m_condStarted.notify_all *)
Definition n_wake (q : npc) : npc := match q with NAsleep => NCheck | _ => q end.
Definition client_call (c : tcall) : bool := match c with TBegin | TEnd => false | _ => true end.
Notation tout := (list (event tcall tres)).

Definition t_step (s : tst) (l : tlab) : option (tst * tout) :=
  match l with
  | TCall t c =>
      match t_thr s t with
      | TIdle => if client_call c && negb (Nat.eqb t 0) then Some (t_go s t (TAt c), [Call t c]) else None
      | _ => None
      end
  | TStep t =>
      match t_thr s t with
      | TAt TStart =>                                                                      (* 63-71 *)
          if t_active s then Some (t_go s t (TRet RVoid), [Eff t TStart RVoid])
          else Some (mkT true (t_end s) (n_wake (t_nat s)) (fupd (t_thr s) t (TRet RVoid)), [Eff t TStart RVoid])
      | TAt (TWait ms) =>                                                                  (* 83-95 *)
          if t_active s then Some (t_go s t (TAsleep (TWait ms)), [])
          else Some (t_go s t (TRet (RErr OK)), [Eff t (TWait ms) (RErr OK)])
      | TAt TIsFinished =>                                                                 (* 97-101 *)
          Some (t_go s t (TRet (RBool (negb (t_active s)))), [Eff t TIsFinished (RBool (negb (t_active s)))])
      | TAt TDestroy =>                                                                    (* 53: wait() *)
          if t_active s then Some (t_go s t (TAsleep TDestroy), []) else Some (t_go s t TReq, [])
      | TReq =>                                                                            (* 54-59 *)
          Some (mkT true true (n_wake (t_nat s)) (fupd (t_thr s) t TJoin), [Eff t TDestroy RVoid])
      | TJoin => match t_nat s with NDone => Some (t_go s t (TRet RVoid), []) | _ => None end   (* 60 *)
      | TRet r => Some (t_go s t TIdle, [Ret t r])
      | _ => None
      end
  | TTimeout t =>
      match t_thr s t with
      | TAsleep (TWait ms) =>                                                              (* 89-92 *)
          if ms =? -1 then None
          else if t_active s then Some (t_go s t (TRet (RErr TimedOut)), [Eff t (TWait ms) (RErr TimedOut)])
          else Some (t_go s t (TRet (RErr OK)), [Eff t (TWait ms) (RErr OK)])
      | _ => None
      end
  | TSpurious t => match t_thr s t with TAsleep c => Some (t_go s t (TAt c), []) | _ => None end
  | NStep =>
      match t_nat s with
      | NCheck =>                                                                          (* 19-24 *)
          if t_active s then
            if t_end s then Some (mkT (t_active s) (t_end s) NDone (t_thr s), [])
            else Some (mkT (t_active s) (t_end s) NRun (t_thr s), [Call 0 TBegin; Eff 0 TBegin RVoid; Ret 0 RVoid])
          else Some (mkT (t_active s) (t_end s) NAsleep (t_thr s), [])
      | NAsleep => None
      | NRun => Some (mkT (t_active s) (t_end s) NClear (t_thr s), [Call 0 TEnd])          (* run() returned *)
      | NClear =>                                                                          (* 26-30 *)
          Some (mkT false (t_end s) NCheck (fun u => t_wake (t_thr s u)), [Eff 0 TEnd RVoid; Ret 0 RVoid])
      | NDone => None
      end
  | NSpurious => match t_nat s with NAsleep => Some (mkT (t_active s) (t_end s) NCheck (t_thr s), []) | _ => None end
  end.

Definition t_idle (s : tst) (t : nat) : Prop := t_thr s t = TIdle.
Definition t_own_step (l : tlab) : Prop := match l with TStep _ | TTimeout _ | NStep => True | _ => False end.
