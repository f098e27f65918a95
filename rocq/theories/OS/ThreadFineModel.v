(** Model of class StdCppThread (platform/StdCppOSWrapper/StdCppThreadFactory.cpp:15-101) in which every access to a shared field is a
    step of its own (OS/Monitor).  Agent 0 is the object's own native thread (threadLoop, 15-32); agent [S t] is client [t].
    As in OS/ThreadModel: Runnable::run is not modelled beyond its begin and its end; the call of threadMain is counted from the release
    of the mutex before it; sleepers may wake spuriously, and a timed wait may time out at any moment.  A time-out is here two steps: the
    sleeper wakes (OTimeout), then it must lock the mutex again to evaluate the predicate (89-91). *)
From Coq Require Import List ZArith Bool Arith.
Import ListNotations.
From Verif Require Import Spec.OSError Spec.Linear Spec.ThreadSpec OS.Sched OS.Monitor OS.ThreadModel.
Open Scope Z_scope.

(** m_isActive, m_endThreadRequested; m_condStarted, m_condFinished *)
Inductive xfld := FActive | FEnd.
Inductive xcnd := CStarted | CFinished.
Definition xfld_eqb (f g : xfld) : bool := match f, g with FActive, FActive | FEnd, FEnd => true | _, _ => false end.
(** where an agent is outside of the mutex: the places of OS/ThreadModel, and one more *)
Inductive xpc :=
| XN (n : npc)                  (* the native thread *)
| XC (t : nat) (q : tpc)        (* client t *)
| XTmo (t : nat) (ms : Z).      (* client t: wait_for has timed out, about to lock m_mutex and evaluate the predicate: 89-91 *)
Inductive xlab :=
| OCall (t : nat) (c : tcall)
| OTimeout (t : nat)
| OSpurious (t : nat)
| OJoin (t : nat)
| ORet (t : nat)
| ORunEnd                       (* Runnable::run returns *)
| ONSpurious.
Notation xev := (event tcall tres).
Notation xcode := (code xfld bool xcnd xpc xev).

(** the critical sections *)
Definition x_section (p : xpc) : option xcode :=
  match p with
  | XN NCheck =>                                             (* 19-24: wait(lock, [] { return m_isActive; }); if (m_endThreadRequested) break; *)
      Some (Rd FActive (fun a : bool =>
              if a then Rd FEnd (fun e : bool => if e then Exit (XN NDone) []
                                          else Exit (XN NRun) [Call 0%nat TBegin; Eff 0%nat TBegin RVoid; Ret 0%nat RVoid])
              else Exit (XN NAsleep) []))
  | XN NClear =>                                             (* 27-29: m_isActive = false; m_condFinished.notify_all(); *)
      Some (Wr FActive false (Ntf CFinished (Exit (XN NCheck) [Eff 0%nat TEnd RVoid; Ret 0%nat RVoid])))
  | XC t (TAt TStart) =>                                     (* 65-70 *)
      Some (Rd FActive (fun a : bool =>
              if a then Exit (XC t (TRet RVoid)) [Eff t TStart RVoid]
              else Wr FActive true (Ntf CStarted (Exit (XC t (TRet RVoid)) [Eff t TStart RVoid]))))
  | XC t (TAt (TWait ms)) =>                                 (* 85-94 *)
      Some (Rd FActive (fun a : bool =>
              if a then Exit (XC t (TAsleep (TWait ms))) [] else Exit (XC t (TRet (RErr OK))) [Eff t (TWait ms) (RErr OK)]))
  | XTmo t ms =>                                             (* 89-94 *)
      Some (Rd FActive (fun a : bool =>
              if a then Exit (XC t (TRet (RErr TimedOut))) [Eff t (TWait ms) (RErr TimedOut)]
              else Exit (XC t (TRet (RErr OK))) [Eff t (TWait ms) (RErr OK)]))
  | XC t (TAt TIsFinished) =>                                (* 99-100 *)
      Some (Rd FActive (fun a : bool => Exit (XC t (TRet (RBool (negb a)))) [Eff t TIsFinished (RBool (negb a))]))
  | XC t (TAt TDestroy) =>                                   (* 53 *)
      Some (Rd FActive (fun a : bool => if a then Exit (XC t (TAsleep TDestroy)) [] else Exit (XC t TReq) []))
  | XC t TReq =>                                             (* 55-58 *)
      Some (Wr FEnd true (Wr FActive true (Ntf CStarted (Exit (XC t TJoin) [Eff t TDestroy RVoid]))))
  | _ => None
  end.
(** notify_all of m_condStarted and m_condFinished (only wait, timedWait and destroy sleep on the latter) *)
Definition x_wake (c : xcnd) (p : xpc) : xpc :=
  match c, p with
  | CStarted, XN n => XN (n_wake n)
  | CFinished, XC t (TAsleep (TWait ms)) => XC t (TAt (TWait ms))
  | CFinished, XC t (TAsleep TDestroy) => XC t (TAt TDestroy)
  | _, _ => p
  end.
Definition x_actor (l : xlab) : nat :=
  match l with OCall t _ | OTimeout t | OSpurious t | OJoin t | ORet t => S t | ORunEnd | ONSpurious => 0%nat end.
(** join waits for the native thread *)
Definition x_peer (l : xlab) : nat := 0%nat.
Definition x_test (l : xlab) (p : xpc) : bool := match p with XN NDone => true | _ => false end.
(** the steps outside of the mutex *)
Definition x_outer (l : xlab) (p : xpc) (ended : bool) : option (xpc * list xev) :=
  match l, p with
  | OCall t c, XC _ TIdle => if client_call c && negb (Nat.eqb t 0) then Some (XC t (TAt c), [Call t c]) else None
  | OTimeout t, XC _ (TAsleep (TWait ms)) => if ms =? -1 then None else Some (XTmo t ms, [])       (* 86-87: no time-out if FOREVER *)
  | OSpurious t, XC _ (TAsleep c) => Some (XC t (TAt c), [])
  | OJoin t, XC _ TJoin => if ended then Some (XC t (TRet RVoid), []) else None                     (* 60 *)
  | ORet t, XC _ (TRet r) => Some (XC t TIdle, [Ret t r])
  | ORunEnd, XN NRun => Some (XN NClear, [Call 0%nat TEnd])                                         (* 25 *)
  | ONSpurious, XN NAsleep => Some (XN NCheck, [])
  | _, _ => None
  end.
Definition x_step := f_step (Ev := xev) xfld_eqb x_section x_wake x_actor x_peer x_test x_outer.
(** 34-39, after create *)
Definition x_pc0 (u : nat) : xpc := match u with O => XN NCheck | S t => XC t TIdle end.
Definition x_init : fstate xfld bool xcnd xpc xev := f_init (fun _ => false) x_pc0.
Definition x_own_step (l : flab xlab) : Prop :=
  match l with FOuter (OCall _ _) | FOuter (OSpurious _) | FOuter ONSpurious => False | _ => True end.
Definition x_idle (s : fstate xfld bool xcnd xpc xev) (t : nat) : Prop := f_pc s (S t) = FOut (XC t TIdle).
(** nothing can move without a new call (spurious wake-ups and time-outs aside) *)
Definition x_stuck (s : fstate xfld bool xcnd xpc xev) : Prop :=
  forall l, x_own_step l -> (forall t, l <> FOuter (OTimeout t)) -> x_step s l = None.
