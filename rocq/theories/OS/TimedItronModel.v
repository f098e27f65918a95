(** The clock of OS/TimedModel beside the uITRON objects: the kernel computes the end of a wait when the task enters the system call
    (uITRON4.0, "timeout": the time passed since the call), and ends it when that time has come.
    Simplifications: the unit is the millisecond, so is TMO here (ItronMutexFactory.cpp:65-79, ItronEventFlagFactory.cpp:94-97 pass the
    milliseconds of Timeout to the kernel unchanged); the kernel's rounding up to its tick is not modelled. *)
From Coq Require Import List ZArith Bool Arith.
Import ListNotations.
From Verif Require Import Spec.OSError Spec.Linear Spec.EventFlagSpec Spec.MutexSpec OS.Sched OS.EventFlagModel OS.ItronMutexModel OS.ItronEventFlagModel OS.TimedModel.
Open Scope Z_scope.

(** ** ItronMutex (ItronMutexFactory.cpp:58-97): tloc_mtx(id, tmout) *)
Definition im_who (l : ilab) : nat := match l with KCall t _ | KStep t | KTimeout t | KRefuse t => t end.
(** 79: nothing but the choice of the time-out precedes tloc_mtx *)
Definition im_starts (s : ist) (l : ilab) : bool := match l with KCall _ _ => true | _ => false end.
Definition im_expiry (s : ist) (l : ilab) : option Z :=
  match l with
  | KTimeout t => match i_thr s t with IAcq (MTimedLock ms) => Some ms | IAcq MTryLock => Some 0 (* 58-62: TMO_POL *) | _ => None end
  | _ => None
  end.
Section IM.
  Variable n : nat.
  Definition im_timed (may_tick : tst ist -> bool) := t_step ist ilab mcall err i_step im_who n im_starts im_expiry may_tick.
  Definition im_urgent : tst ist -> bool := urgent i_step im_who n im_expiry KStep KTimeout.
End IM.

(** ** ItronEventFlag (ItronEventFlagFactory.cpp:85-112): twai_flg(.., tmout) after the checks of the arguments *)
Definition if_who (l : iflab) : nat := match l with FCall t _ | FStep t _ | FTimeout t => t end.
Definition if_starts (s : ifst) (l : iflab) : bool :=
  match l with FStep t _ => match f_thr s t with FKern _ (OWait _ _ _ _) => true | _ => false end | _ => false end.
Definition if_expiry (s : ifst) (l : iflab) : option Z :=
  match l with FTimeout t => match f_thr s t with FQueued _ (OWait _ _ _ tm) => Some tm | _ => None end | _ => None end.
Section IF.
  Variables (w wf : Z) (dbg autoReset : bool) (n : nat).
  Definition if_timed (may_tick : tst ifst -> bool) :=
    t_step ifst iflab ecall eres (f_step w wf dbg autoReset) if_who n if_starts if_expiry may_tick.
  Definition if_urgent : tst ifst -> bool := urgent (f_step w wf dbg autoReset) if_who n if_expiry (fun t => FStep t 0) FTimeout.
End IF.
