(** Model of one ItronPeriodicTimer (platform/ItronOSWrapper/ItronPeriodicTimerFactory.cpp:9-83, PeriodicTimer.cpp:39-62) with the kernel's clock,
    for any number of tasks.  The kernel's cyclic handler (uITRON 4.0, 4.7.1), created with cyctim = the period, cycphs = 0 and neither TA_STA nor
    TA_PHS (29-35): sta_cyc sets the next activation to one period from now, also when the handler is started already; stp_cyc stops it; when
    the time of the next activation has come the handler is activated, and the next activation is one period after that time.
    Simplifications: the unit of time is the millisecond; the kernel's rounding to its tick is not modelled; handlers have precedence over tasks,
    so no task takes a step while the callback runs; an activation that comes due while the callback runs begins when it ends; the callback makes
    no calls on its own timer but the stop() of handleException (PeriodicTimer.cpp:50-62) when it throws.  Creation and destruction are in
    OS/ItronObjectModel.v. *)
From Coq Require Import List ZArith Bool Arith.
Import ListNotations.
From Verif Require Import Spec.Linear Spec.CyclicSpec OS.Sched.
Open Scope Z_scope.

Inductive ypc := YIdle | YAt (c : ycall) | YRet (r : yres).
(** the clock; cycstat; the time of the next activation; the callback runs *)
Record yst := mkY { y_now : Z; y_on : bool; y_due : Z; y_cb : bool; y_thr : nat -> ypc }.
Definition y_init : yst := mkY 0 false 0 false (fun _ => YIdle).
Inductive ylab :=
| LCall (t : nat) (c : ycall)
| LStep (t : nat)
| LFire                      (* the kernel activates the handler: 16-22 *)
| LEnd (throws : bool)       (* the callback ends *)
| LTick.                     (* a millisecond passes *)

Section Cyc.
  Variable ms : Z.                     (* m_periodInMillis *)
  Variable may_tick : yst -> bool.
  Definition y_at (s : yst) (e : list (event ycall yres)) : yevents := map (fun e => (y_now s, e)) e.
  Definition y_act (s : yst) (c : ycall) : yevents := y_at s [Call 0 c; Eff 0 c YVoid; Ret 0 YVoid].
  Definition y_step (s : yst) (l : ylab) : option (yst * yevents) :=
    match l with
    | LCall t c =>
        match y_thr s t, c with
        | YIdle, (YStart | YStop | YIsStarted) =>
            if (0 <? t)%nat && negb (y_cb s) then Some (mkY (y_now s) (y_on s) (y_due s) (y_cb s) (fupd (y_thr s) t (YAt c)), y_at s [Call t c]) else None
        | _, _ => None
        end
    | LStep t =>
        if y_cb s then None else
        match y_thr s t with
        | YIdle => None
        | YAt c =>
            let q := fupd (y_thr s) t (YRet (match c with YIsStarted => YBool (y_on s) | _ => YVoid end)) in
            match c with
            | YStart => Some (mkY (y_now s) true (y_now s + ms) (y_cb s) q, y_at s [Eff t c YVoid])                    (* 51-54: sta_cyc *)
            | YStop => Some (mkY (y_now s) false (y_due s) (y_cb s) q, y_at s [Eff t c YVoid])                         (* 56-59: stp_cyc *)
            | YIsStarted => Some (mkY (y_now s) (y_on s) (y_due s) (y_cb s) q, y_at s [Eff t c (YBool (y_on s))])      (* 61-69: ref_cyc *)
            | _ => None
            end
        | YRet r => Some (mkY (y_now s) (y_on s) (y_due s) (y_cb s) (fupd (y_thr s) t YIdle), y_at s [Ret t r])
        end
    | LFire =>
        if y_on s && negb (y_cb s) && (y_due s <=? y_now s) then Some (mkY (y_now s) true (y_due s + ms) true (y_thr s), y_act s YBegin) else None
    | LEnd b =>
        if y_cb s then Some (mkY (y_now s) (if b then false else y_on s) (y_due s) false (y_thr s), y_act s (if b then YThrow else YEnd)) else None
    | LTick => if may_tick s then Some (mkY (y_now s + 1) (y_on s) (y_due s) (y_cb s) (y_thr s), []) else None
    end.
  Definition y_idle (s : yst) (t : nat) : Prop := y_thr s t = YIdle.
End Cyc.
(** time passes while the callback runs, or when no task of the [n] is in a call and no activation is due *)
Definition y_urgent (n : nat) (s : yst) : bool :=
  y_cb s || (forallb (fun t => match y_thr s t with YIdle => true | _ => false end) (seq 0 n) && negb (y_on s && (y_due s <=? y_now s))).
(** tasks beyond the first [n] make no calls *)
Definition y_label_ok (n : nat) (l : ylab) : Prop := match l with LCall t _ => (t < n)%nat | _ => True end.
Definition y_own (l : ylab) : Prop := match l with LStep _ | LFire => True | _ => False end.
