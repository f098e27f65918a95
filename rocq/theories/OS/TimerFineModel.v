(** Model of classes StdCppOneShotTimer and StdCppPeriodicTimer (platform/StdCppOSWrapper/StdCppOneShotTimerFactory.cpp:43-135,
    StdCppPeriodicTimerFactory.cpp:43-132; line numbers as one-shot / periodic, [periodic] selects the class) in which every access to a
    shared field is a step of its own (OS/Monitor).  Agent 0 is the timer's own thread, agent [S t] is caller [t] (caller 0: the callback).
    As in OS/TimerModel: time, the times and the names are not modelled; the wait_for of an armed timer may give up at any moment.  Here that
    is two steps: the thread wakes (VTimeout), then it must lock the mutex again to evaluate the predicate. *)
From Coq Require Import List Bool Arith.
Import ListNotations.
From Verif Require Import Spec.Linear Spec.TimerSpec OS.Sched OS.Monitor OS.TimerModel.

(** m_isActive, m_started, m_stopped, m_endThreadRequested; m_condActive, m_condStarted, m_condStopped *)
Inductive vfld := VActive | VStarted | VStopped | VEnd.
Inductive vcnd := NActive | NStarted | NStopped.
Definition vfld_eqb (f g : vfld) : bool :=
  match f, g with VActive, VActive | VStarted, VStarted | VStopped, VStopped | VEnd, VEnd => true | _, _ => false end.
(** where an agent is outside of the mutex: the places of OS/TimerModel, and one more *)
Inductive vpc :=
| VN (n : lpc)                  (* the timer thread *)
| VTmo                          (* the timer thread: wait_for has timed out, about to lock m_mutex and evaluate the predicate: 55-56 / 55-57 *)
| VC (t : nat) (q : mpc).       (* caller t *)
Inductive vlab :=
| VCall (t : nat) (c : mcall)
| VSpurious (t : nat)
| VJoin (t : nat)
| VRet (t : nat)
| VTimeout
| VFire                         (* Runnable::run is called *)
| VRunEnd                       (* Runnable::run returns *)
| VNSpurious.
Notation vev := (event mcall mres).
Notation vcode := (code vfld bool vcnd vpc vev).

(** wait_for has returned true: 57-62 / 58-63 *)
Definition v_leave : vcode := Wr VStopped true (Ntf NStopped (Rd VEnd (fun e : bool => if e then Exit (VN LDone) [] else Exit (VN LCheck) []))).
(** the predicate of wait_for, [] { return !m_isActive || m_endThreadRequested; }: 56 / 57 *)
Definition v_pred (yes no : vcode) : vcode := Rd VActive (fun a : bool => if a then Rd VEnd (fun e : bool => if e then yes else no) else yes).
(** start from m_condStopped.wait on: 112-116 / 110-113 *)
Definition v_start (t : nat) : vcode :=
  Rd VStopped (fun x : bool => if x then Wr VStopped false (Wr VActive true (Ntf NActive (Exit (VC t (MRet MVoid)) [Eff t MStart MVoid])))
                               else Exit (VC t (MAsleep MStart)) []).
(** stop from m_condStarted.wait on: 125-128 / 122-125 *)
Definition v_stop (t : nat) : vcode :=
  Rd VStarted (fun x : bool => if x then Wr VStarted false (Wr VActive false (Ntf NActive (Exit (VC t (MRet MVoid)) [Eff t MStop MVoid])))
                               else Exit (VC t (MAsleep MStop)) []).

Section Timer.
  Variable periodic : bool.
  (** the critical sections *)
  Definition v_section (p : vpc) : option vcode :=
    match p with
    | VN LCheck =>                                          (* 47-56 / 47-53 *)
        let go_on := Wr VStarted true (Ntf NStarted (Rd VEnd (fun e : bool =>
                       if e then Exit (VN LDone) []
                       else if periodic then Exit (VN LTCheck) []
                       else v_pred v_leave (Exit (VN LTimed) [])))) in
        Some (Rd VActive (fun a : bool => if a then go_on else Rd VEnd (fun e : bool => if e then go_on else Exit (VN LSleep) [])))
    | VN LTCheck => Some (v_pred v_leave (Exit (VN LTimed) []))                                          (* 55-63 / 55-64 *)
    | VTmo => Some (v_pred v_leave (Exit (VN LFire) [Call 0 MDue; Eff 0 MDue MVoid; Ret 0 MVoid]))       (* 55-63 / 55-65 *)
    | VN LClear =>                                                                                       (* 67-70 *)
        Some (Wr VStarted false (Wr VStopped true (Wr VActive false (Exit (VN LCheck) [Eff 0 MEnd MVoid; Ret 0 MVoid]))))
    | VC t (MAt MStart) => Some (Rd VActive (fun a : bool => if a then Exit (VC t (MRet MVoid)) [Eff t MStart MVoid] else v_start t))   (* 108-116 / 106-113 *)
    | VC t (MWoken MStart) => Some (v_start t)
    | VC t (MAt MStop) => Some (Rd VActive (fun a : bool => if a then v_stop t else Exit (VC t (MRet MVoid)) [Eff t MStop MVoid]))      (* 121-128 / 118-125 *)
    | VC t (MWoken MStop) => Some (v_stop t)
    | VC t (MAt MIsStarted) => Some (Rd VActive (fun a : bool => Exit (VC t (MRet (MBool a))) [Eff t MIsStarted (MBool a)]))            (* 133-134 / 130-131 *)
    | VC t (MAt MDestroy) => Some (Wr VEnd true (Ntf NActive (Exit (VC t MJoin) [Eff t MDestroy MVoid])))                               (* 99-101 / 97-99 *)
    | _ => None
    end.
  Definition v_wake (c : vcnd) (p : vpc) : vpc :=
    match c, p with
    | NActive, VN n => VN (wake_active n)
    | NStarted, VC t q => VC t (wake_started q)
    | NStopped, VC t q => VC t (wake_stopped q)
    | _, _ => p
    end.
  Definition v_actor (l : vlab) : nat :=
    match l with VCall t _ | VSpurious t | VJoin t | VRet t => S t | VTimeout | VFire | VRunEnd | VNSpurious => 0 end.
  (** a call by the callback needs the timer thread in run; join waits for the end of the timer thread; run returns when its calls have returned *)
  Definition v_peer (l : vlab) : nat := match l with VRunEnd => 1 | _ => 0 end.
  Definition v_test (l : vlab) (p : vpc) : bool :=
    match l, p with
    | VCall _ _, VN LRun => true
    | VJoin _, VN LDone => true
    | VRunEnd, VC _ MIdle => true
    | _, _ => false
    end.
  Definition v_callable (t : nat) (in_run : bool) (c : mcall) : bool :=
    match c with
    | MStart | MStop | MIsStarted => if Nat.eqb t 0 then in_run else true
    | MDestroy => negb (Nat.eqb t 0)
    | _ => false
    end.
  (** the steps outside of the mutex *)
  Definition v_outer (l : vlab) (p : vpc) (b : bool) : option (vpc * list vev) :=
    match l, p with
    | VCall t c, VC _ MIdle => if v_callable t b c then Some (VC t (MAt c), [Call t c]) else None
    | VSpurious t, VC _ (MAsleep MStart) => Some (VC t (MWoken MStart), [])
    | VSpurious t, VC _ (MAsleep MStop) => Some (VC t (MWoken MStop), [])
    | VJoin t, VC _ MJoin => if b then Some (VC t (MRet MVoid), []) else None                                     (* 103 / 101 *)
    | VRet t, VC _ (MRet r) => Some (VC t MIdle, [Ret t r])
    | VTimeout, VN LTimed => Some (VTmo, [])
    | VFire, VN LFire => Some (VN LRun, [Call 0 MBegin; Eff 0 MBegin MVoid; Ret 0 MVoid])                         (* 65 / 66 *)
    | VRunEnd, VN LRun =>
        if b then Some (if periodic then (VN LTCheck, [Call 0 MEnd; Eff 0 MEnd MVoid; Ret 0 MVoid]) else (VN LClear, [Call 0 MEnd])) else None
    | VNSpurious, VN LSleep => Some (VN LCheck, [])
    | VNSpurious, VN LTimed => Some (VN LTCheck, [])
    | _, _ => None
    end.
  Definition v_step := f_step (Ev := vev) vfld_eqb v_section v_wake v_actor v_peer v_test v_outer.
  (** nothing can move without a new call or a spurious wake-up *)
  Definition v_own_step (l : flab vlab) : Prop :=
    match l with FOuter (VCall _ _) | FOuter (VSpurious _) | FOuter VNSpurious => False | _ => True end.
  Definition v_stuck (s : fstate vfld bool vcnd vpc vev) : Prop := forall l, v_own_step l -> v_step s l = None.
End Timer.
(** 75-82 / 73-80, after beginThread *)
Definition v_fld0 (f : vfld) : bool := match f with VStopped => true | _ => false end.
Definition v_pc0 (u : nat) : vpc := match u with O => VN LCheck | S t => VC t MIdle end.
Definition v_init : fstate vfld bool vcnd vpc vev := f_init v_fld0 v_pc0.
Definition v_idle (s : fstate vfld bool vcnd vpc vev) (t : nat) : Prop := f_pc s (S t) = FOut (VC t MIdle).
