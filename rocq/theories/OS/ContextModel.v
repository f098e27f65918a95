(** Model of platform/ItronOSWrapper/ItronMutexFactory.cpp:18-36,67-117 (class ItronMutex) when it is also called outside
    tasks: from interrupt handlers and from the callbacks of timers, which run as cyclic and alarm handlers.
    The tasks do the steps of OS/ItronMutexModel.v.  [nt t]: caller [t] is a handler.  Kernel: tloc_mtx and unl_mtx outside a
    task give E_CTX (uITRON 4.0, 2.6.2 and 4.5.1).  get_tid and ref_mtx outside a task give E_CTX too, except in a [lenient]
    kernel, which treats them as iget_tid and a plain reading: they name the task that was interrupted (label [run]).
    Each kernel call and each access of m_recursiveCount is one step, and any step of the tasks or of another handler may come
    between two steps of a handler; really only handlers of higher priority can, so this allows more executions. *)
From Coq Require Import List ZArith Bool Arith.
Import ListNotations.
From Verif Require Import Spec.OSError Spec.Linear Spec.MutexSpec OS.Sched OS.ItronMutexModel.
Open Scope Z_scope.

Inductive hpc :=
| HIdle
| HLoc (c : mcall)     (* 79: in tloc_mtx *)
| HAsk                 (* 102: isLockedByThisThread() *)
| HCnt                 (* 103 *)
| HDec                 (* 104 *)
| HUnl                 (* 108 *)
| HRet (r : err).
Record xst := mkX { x_i : ist; x_h : nat -> hpc }.
Definition x_init : xst := mkX i_init (fun _ => HIdle).                                             (* 41-56 *)
Inductive xlab := XTask (l : ilab) | XCall (h : nat) (c : mcall) | XStep (h run : nat).
(** the task that moves *)
Definition ilab_who (l : ilab) : nat := match l with KCall t _ => t | KStep t => t | KTimeout t => t | KRefuse t => t end.

Section Handlers.
  Variable nt : nat -> bool.
  Variable lenient : bool.
  Definition x_go (s : xst) (h : nat) (q : hpc) : xst := mkX (x_i s) (fupd (x_h s) h q).
  (* 18-36, outside a task *)
  Definition h_owns (s : xst) (run : nat) : bool := lenient && owns (x_i s) run.
  Definition x_step (s : xst) (l : xlab) : option (xst * list (event mcall err)) :=
    match l with
    | XTask l =>
        if nt (ilab_who l) then None
        else match i_step (x_i s) l with Some (i, es) => Some (mkX i (x_h s), es) | None => None end
    | XCall h c =>
        if nt h then
          match x_h s h with HIdle => Some (x_go s h (if is_lock c then HLoc c else HAsk), [Call h c]) | _ => None end
        else None
    | XStep h run =>
        if nt h then
          match x_h s h with
          | HIdle => None
          | HLoc c => Some (x_go s h (HRet CalledByNonThread), [Eff h c CalledByNonThread])          (* 85-86: E_CTX *)
          | HAsk => Some (x_go s h (if h_owns s run then HCnt else HUnl), [])                         (* 102 *)
          | HCnt => Some (x_go s h (if i_count (x_i s) >? 0 then HDec else HUnl), [])                 (* 103 *)
          | HDec => Some (mkX (mkI (i_owner (x_i s)) ((i_count (x_i s) - 1) mod 2 ^ 64) (i_thr (x_i s))) (fupd (x_h s) h (HRet OK)),
                          [Eff h MUnlock OK])                                                         (* 104-105 *)
          | HUnl => Some (x_go s h (HRet OtherError), [Eff h MUnlock OtherError])                     (* 114-115: E_CTX *)
          | HRet r => Some (x_go s h HIdle, [Ret h r])
          end
        else None
    end.
End Handlers.

(** handler 9 runs; tasks are 1 and 2 *)
Definition c87_nt (t : nat) : bool := Nat.eqb t 9.
(** tryLock and unlock by the handler *)
Definition c87_undocumented : list xlab :=
  [XCall 9 MTryLock; XStep 9 0; XStep 9 0; XCall 9 MUnlock; XStep 9 0; XStep 9 0; XStep 9 0].
(** unlock by the handler while task 1, which locked twice, is interrupted *)
Definition c87_steal : list xlab :=
  [XTask (KCall 1 MLock); XTask (KStep 1); XTask (KStep 1); XTask (KCall 1 MLock); XTask (KStep 1); XTask (KStep 1); XTask (KStep 1); XTask (KStep 1)] ++
  [XCall 9 MUnlock; XStep 9 1; XStep 9 1; XStep 9 1; XStep 9 1] ++
  [XTask (KCall 1 MUnlock); XTask (KStep 1); XTask (KStep 1); XTask (KStep 1); XTask (KStep 1)] ++
  [XTask (KCall 2 MLock); XTask (KStep 2); XTask (KStep 2)].
