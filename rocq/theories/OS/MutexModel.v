(** Model of platform/StdCppOSWrapper/StdCppMutexFactory.cpp:8-93 (class StdCppMutex), for any number of threads.
    Platform primitive: std::recursive_timed_mutex, a lock with an owner and a nesting depth of at most [M] (beyond it
    lock() throws and try_lock() / try_lock_for() fail, [thread.mutex.recursive]); lock() may also throw
    std::system_error at any time (label LThrow).  unlock() by a thread that is not the owner is undefined behaviour:
    recorded in [x_ub], the lock being left as it was (what pthread_mutex_unlock does).  try_lock does not fail
    spuriously.  m_lockingCount is read and written in single steps; when two threads really race on it (only possible
    when a thread unlocks without owning the lock) C++ calls it a data race.
    Simplification: time is not modelled, a time-out may strike whenever another thread owns the lock. *)
From Coq Require Import List ZArith Bool Arith.
Import ListNotations.
From Verif Require Import Spec.OSError Spec.Linear Spec.MutexSpec OS.Sched.
Open Scope Z_scope.

Section MX.
  Variable M : nat.

  Inductive mpc :=
  | MIdle
  | MAcq (c : mcall)        (* in m_mutex.lock() / try_lock() / try_lock_for(): 28, 44, 64 *)
  | MInc                    (* owns m_mutex, about to increment m_lockingCount: 29, 45, 65 *)
  | UCheck                  (* 83 *)
  | UDec                    (* 86 *)
  | URel                    (* 87 *)
  | MRet (r : err).

  Record mst := mkM { x_owner : option (nat * nat); x_count : Z; x_ub : bool; x_thr : nat -> mpc }.
  Definition m_init : mst := mkM None 0 false (fun _ => MIdle).                          (* 14-17 *)

  Inductive mlab := MCall (t : nat) (c : mcall) | MStep (t : nat) | MTimeout (t : nat) | MThrow (t : nat).

  Definition sz (x : Z) : Z := x mod 2 ^ 64.     (* std::size_t *)

  (** does the call wait without limit: lock(), and timedLock(FOREVER) which calls lock() (58-60) *)
  Definition waits_forever (c : mcall) : bool := match c with MLock => true | MTimedLock ms => ms =? -1 | _ => false end.

  Definition m_go (s : mst) (t : nat) (q : mpc) : mst := mkM (x_owner s) (x_count s) (x_ub s) (fupd (x_thr s) t q).

  Definition m_step (s : mst) (l : mlab) : option (mst * list (event mcall err)) :=
    match l with
    | MCall t c =>
        match x_thr s t with
        | MIdle => Some (m_go s t (if is_lock c then MAcq c else UCheck), [Call t c])
        | _ => None
        end
    | MStep t =>
        match x_thr s t with
        | MIdle => None
        | MAcq c =>
            match x_owner s with
            | None => Some (mkM (Some (t, 1%nat)) (x_count s) (x_ub s) (fupd (x_thr s) t MInc), [Eff t c OK])
            | Some (u, n) =>
                if Nat.eqb u t then
                  if Nat.ltb n M then Some (mkM (Some (t, S n)) (x_count s) (x_ub s) (fupd (x_thr s) t MInc), [Eff t c OK])
                  else if waits_forever c then Some (m_go s t (MRet OtherError), [Eff t c OtherError])   (* 33-35 *)
                  else Some (m_go s t (MRet TimedOut), [Eff t c TimedOut])                               (* 48, 68 *)
                else None
            end
        | MInc => Some (mkM (x_owner s) (sz (x_count s + 1)) (x_ub s) (fupd (x_thr s) t (MRet OK)), [])  (* 29-30 *)
        | UCheck =>
            if x_count s =? 0 then Some (m_go s t (MRet NotLocked), [Eff t MUnlock NotLocked])           (* 83-85 *)
            else Some (m_go s t UDec, [])
        | UDec => Some (mkM (x_owner s) (sz (x_count s - 1)) (x_ub s) (fupd (x_thr s) t URel), [])       (* 86 *)
        | URel =>                                                                                        (* 87-88 *)
            match x_owner s with
            | Some (u, n) =>
                if Nat.eqb u t then
                  Some (mkM (if Nat.eqb n 1 then None else Some (t, (n - 1)%nat)) (x_count s) (x_ub s) (fupd (x_thr s) t (MRet OK)), [Eff t MUnlock OK])
                else Some (mkM (x_owner s) (x_count s) true (fupd (x_thr s) t (MRet OK)), [Eff t MUnlock OK])
            | None => Some (mkM (x_owner s) (x_count s) true (fupd (x_thr s) t (MRet OK)), [Eff t MUnlock OK])
            end
        | MRet r => Some (m_go s t MIdle, [Ret t r])
        end
    | MTimeout t =>                                                                      (* try_lock, try_lock_for: 48, 68 *)
        match x_thr s t, x_owner s with
        | MAcq c, Some (u, _) => if waits_forever c || Nat.eqb u t then None else Some (m_go s t (MRet TimedOut), [Eff t c TimedOut])
        | _, _ => None
        end
    | MThrow t =>                                                                        (* 33-35, 51-53, 71-73 *)
        match x_thr s t with
        | MAcq c => Some (m_go s t (MRet OtherError), [Eff t c OtherError])
        | _ => None
        end
    end.

  Definition m_idle (s : mst) (t : nat) : Prop := x_thr s t = MIdle.
  Definition m_own_step (l : mlab) : Prop := match l with MCall _ _ => False | _ => True end.
End MX.
