(** The Windows one-shot and periodic timers (OS/WinTimerModel.v: WindowsOneShotTimerFactory.cpp, WindowsPeriodicTimerFactory.cpp) with the
    system's clock.  timeSetEvent(time, ...) (59 / 53) sets the expiry of the new timer to [ms] milliseconds from now; a timer expires at its
    time or later, and a periodic one is then due again [ms] milliseconds after the time it was due.
    Simplifications: the unit of time is the millisecond; timeSetEvent's resolution (its second argument, 1) is not modelled; the worker thread
    of the process runs no callbacks of other timers (if it does, expiries of this one are late as if by a longer callback of its own);
    an expiry that comes due during a callback is not lost. *)
From Coq Require Import List ZArith Bool Arith.
Import ListNotations.
From Verif Require Import Spec.Linear Spec.WinTimerSpec Spec.WinTimeSpec OS.Sched OS.WinTimerModel.
Open Scope Z_scope.

Record vst := mkV { v_w : wst; v_now : Z; v_due : nat -> Z (* when a registered timer expires *) }.
Definition v_init : vst := mkV w_init 0 (fun _ => 0).
Inductive vlab := VL (l : wlab) | VTick.

Section Win.
  Variable periodic : bool.
  Variable ms : Z.                     (* m_timeInMillis / m_periodInMillis *)
  Variable may_tick : vst -> bool.
  (** the expiry times after a step: 59 / 53 if timeSetEvent gave a timer (its id is the fresh one); 31 / 26 for the next period *)
  Definition v_sched (s : vst) (l : wlab) (w : wst) : nat -> Z :=
    match l with
    | YDue i => if periodic then fupd (v_due s) i (v_due s i + ms) else v_due s
    | _ => if Nat.eqb (w_next w) (w_next (v_w s)) then v_due s else fupd (v_due s) (w_next (v_w s)) (v_now s + ms)
    end.
  Definition v_may (s : vst) (l : wlab) : bool := match l with YDue i => v_due s i <=? v_now s | _ => true end.
  Definition v_step (s : vst) (l : vlab) : option (vst * stamped) :=
    match l with
    | VL l =>
        if v_may s l then
          match w_step periodic (v_w s) l with
          | Some (w, e) => Some (mkV w (v_now s) (v_sched s l w), map (fun x => (v_now s, x)) e)
          | None => None
          end
        else None
    | VTick => if may_tick s then Some (mkV (v_w s) (v_now s + 1) (v_due s), []) else None
    end.
End Win.
(** time passes while a callback runs or the worker has nothing to do, and none of the [n] threads is in a call, except for the destructor's
    wait for the callback; not after the object was deleted *)
Definition v_worker_rests (s : vst) : bool :=
  match w_wk (v_w s) with
  | KFree => negb (existsb (fun i => v_due s i <=? v_now s) (w_armed (v_w s)))
  | KRun _ => true
  | _ => false
  end.
Definition v_thread_rests (s : vst) (t : nat) : bool :=
  match w_thr (v_w s) t with CIdle => true | CWait => negb (w_ev (v_w s)) | _ => false end.
Definition v_urgent (n : nat) (s : vst) : bool :=
  negb (w_freed (v_w s)) && v_worker_rests s && forallb (v_thread_rests s) (seq 0 n).
(** steps of calls in progress, of the system and of the worker *)
Definition v_own (l : vlab) : Prop := match l with VL (YCall _ _) | VTick => False | VL _ => True end.
