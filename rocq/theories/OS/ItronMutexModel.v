(** Model of platform/ItronOSWrapper/ItronMutexFactory.cpp:13-119 (class ItronMutex) for any number of tasks.
    Kernel primitive: the uITRON mutex, not recursive: tloc_mtx by the owner gives E_ILUSE, by another task waits until
    the owner unlocks or the time is over; tloc_mtx on a ceiling mutex may also give E_ILUSE because the task's priority is
    above the ceiling (label KRefuse); unl_mtx by a task that is not the owner gives E_ILUSE; ref_mtx tells the owner.
    Each kernel call is one step.  Simplifications: all callers are tasks (no E_CTX, get_tid and ref_mtx succeed), time-outs
    are at least -1 (no E_PAR); time is not modelled, a time-out may strike whenever another task owns the mutex; the kernel
    may let any waiting task go first. *)
From Coq Require Import List ZArith Bool Arith.
Import ListNotations.
From Verif Require Import Spec.OSError Spec.Linear Spec.MutexSpec OS.Sched.
Open Scope Z_scope.

Inductive ipc :=
| IIdle
| IAcq (c : mcall)      (* 79: in tloc_mtx *)
| IMine (c : mcall)     (* 90: tloc_mtx gave E_ILUSE; about to ask isLockedByThisThread() *)
| IInc (c : mcall)      (* 91 *)
| UAsk                  (* 102 *)
| UCnt                  (* 103 *)
| UDec                  (* 104 *)
| UUnl                  (* 108 *)
| IRet (r : err).
Record ist := mkI { i_owner : option nat;      (* the kernel mutex *)
                    i_count : Z;               (* m_recursiveCount *)
                    i_thr : nat -> ipc }.
Definition i_init : ist := mkI None 0 (fun _ => IIdle).                                   (* 41-56 *)
Inductive ilab := KCall (t : nat) (c : mcall) | KStep (t : nat) | KTimeout (t : nat) | KRefuse (t : nat).

Definition i_go (s : ist) (t : nat) (q : ipc) : ist := mkI (i_owner s) (i_count s) (fupd (i_thr s) t q).
Definition owns (s : ist) (t : nat) : bool := match i_owner s with Some u => Nat.eqb u t | None => false end.   (* 18-36 *)
Definition forever (c : mcall) : bool := match c with MLock => true | MTimedLock ms => ms =? -1 | _ => false end.   (* 67-70 *)

Definition i_step (s : ist) (l : ilab) : option (ist * list (event mcall err)) :=
  match l with
  | KCall t c =>
      match i_thr s t with IIdle => Some (i_go s t (if is_lock c then IAcq c else UAsk), [Call t c]) | _ => None end
  | KStep t =>
      match i_thr s t with
      | IIdle => None
      | IAcq c =>
          match i_owner s with
          | None => Some (mkI (Some t) (i_count s) (fupd (i_thr s) t (IRet OK)), [Eff t c OK])        (* 81-82 *)
          | Some u => if Nat.eqb u t then Some (i_go s t (IMine c), []) else None                     (* 89 *)
          end
      | IMine c => if owns s t then Some (i_go s t (IInc c), [])                                      (* 90 *)
                   else Some (i_go s t (IRet OtherError), [Eff t c OtherError])                       (* 94 *)
      | IInc c => Some (mkI (i_owner s) ((i_count s + 1) mod 2 ^ 64) (fupd (i_thr s) t (IRet OK)), [Eff t c OK])   (* 91-92 *)
      | UAsk => Some (i_go s t (if owns s t then UCnt else UUnl), [])                                 (* 102 *)
      | UCnt => Some (i_go s t (if i_count s >? 0 then UDec else UUnl), [])                           (* 103 *)
      | UDec => Some (mkI (i_owner s) ((i_count s - 1) mod 2 ^ 64) (fupd (i_thr s) t (IRet OK)), [Eff t MUnlock OK])   (* 104-105 *)
      | UUnl =>                                                                                       (* 108-116 *)
          if owns s t then Some (mkI None (i_count s) (fupd (i_thr s) t (IRet OK)), [Eff t MUnlock OK])
          else Some (i_go s t (IRet NotLocked), [Eff t MUnlock NotLocked])
      | IRet r => Some (i_go s t IIdle, [Ret t r])
      end
  | KTimeout t =>                                                                                     (* 83-84 *)
      match i_thr s t, i_owner s with
      | IAcq c, Some u => if forever c || Nat.eqb u t then None else Some (i_go s t (IRet TimedOut), [Eff t c TimedOut])
      | _, _ => None
      end
  | KRefuse t => match i_thr s t with IAcq c => Some (i_go s t (IMine c), []) | _ => None end
  end.
Definition i_idle (s : ist) (t : nat) : Prop := i_thr s t = IIdle.
Definition i_own_step (l : ilab) : Prop := match l with KCall _ _ => False | _ => True end.
