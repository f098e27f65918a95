(** Model of platform/WindowsOSWrapper/WindowsOneShotTimerFactory.cpp and WindowsPeriodicTimerFactory.cpp (classes
    WindowsOneShotTimer, WindowsPeriodicTimer) for any number of client threads; [periodic] selects the class and line numbers
    are given as one-shot / periodic.
    The Windows multimedia timers (environment, not in /repo): timeSetEvent registers a timer and returns a fresh id, or fails;
    an expired timer is dispatched to the one worker thread of the process, which executes one callback at a time; a one-shot
    timer is unregistered when it is dispatched; timeKillEvent unregisters a registered timer.  For a one-shot timer that has been
    dispatched and whose callback has not finished timeKillEvent may succeed or fail, and does not prevent the callback (the flag
    TIME_KILL_SYNCHRONOUS is not used: 59 / 53).  Reuse of ids, missed ticks of a busy worker and time itself are not modelled: a
    registered timer may expire at any moment.
    Agent 0 is the callback (on the worker thread), which may itself call start, stop and isStarted; agents 1, 2, ... are clients.
    All fields except m_evFinished are accessed under m_mutex only, so each critical section is one step, except that of
    timerFunc (33-36), whose unlocking is a step of its own because it comes after setAll.  The event flag m_evFinished is atomic
    (its own properties: C18-C22).  Names and times are not modelled. *)
From Coq Require Import List Arith Bool.
Import ListNotations.
From Verif Require Import Spec.Linear Spec.WinTimerSpec OS.Sched.

(** the worker thread, for this timer *)
Inductive wpc :=
| KFree                (* not in a callback of this timer *)
| KDisp (i : nat)      (* timerCallback entered for timer i, about to resetAll: 23-25, 31 / 24-26 *)
| KReset (i : nat)     (* about to call timerMain: 32 / 27 *)
| KRun (i : nat)       (* in Runnable::run *)
| KTail (i : nat)      (* run has returned: about to lock (33) / about to setAll (28) *)
| KUnlock.             (* one-shot: m_started cleared and setAll done, m_mutex still held: 36 *)
(** a caller *)
Inductive cpc :=
| CIdle
| CAt (c : wcall)      (* about to lock m_mutex *)
| CAtD                 (* destructor, in stop(), about to lock m_mutex: 49 / 43 *)
| CWait                (* destructor, in m_evFinished->waitAny(): 50 / 44 *)
| CFree                (* destructor body done: the members and the object are about to be freed: 125 / 124 *)
| CRet (r : wres).

Record wst := mkW { w_on : bool;              (* m_started *)
                    w_id : nat;               (* m_timer *)
                    w_next : nat;             (* next fresh id of the system *)
                    w_armed : list nat;       (* registered timers of this object *)
                    w_wk : wpc;
                    w_ev : bool;              (* m_evFinished is set *)
                    w_freed : bool;           (* the object has been deleted *)
                    w_thr : nat -> cpc }.
Definition w_init : wst := mkW false 0 1 [] KFree true false (fun _ => CIdle).                  (* 39-45 / 33-39 *)

Inductive wlab :=
| YCall (t : nat) (c : wcall)
| YStep (t : nat) (ok : bool)        (* [ok]: timeSetEvent succeeds; timeKillEvent of a dispatched one-shot timer succeeds *)
| YDue (i : nat)                     (* timer i expires and is dispatched *)
| YWork.                             (* a step of the worker *)

Definition w_go (s : wst) (t : nat) (q : cpc) : wst :=
  mkW (w_on s) (w_id s) (w_next s) (w_armed s) (w_wk s) (w_ev s) (w_freed s) (fupd (w_thr s) t q).
Definition w_kto (s : wst) (k : wpc) (e : bool) : wst :=
  mkW (w_on s) (w_id s) (w_next s) (w_armed s) k e (w_freed s) (w_thr s).
Definition w_mem (i : nat) (l : list nat) : bool := existsb (Nat.eqb i) l.
Definition w_del (i : nat) (l : list nat) : list nat := filter (fun j => negb (Nat.eqb i j)) l.
(** m_mutex is held between steps only by the worker in timerFunc *)
Definition w_locked (s : wst) : bool := match w_wk s with KUnlock => true | _ => false end.
Definition w_callable (t : nat) (k : wpc) (c : wcall) : bool :=
  match c with
  | WStart | WStop | WIsStarted => if Nat.eqb t 0 then match k with KRun _ => true | _ => false end else true
  | WDestroy => negb (Nat.eqb t 0)
  | _ => false
  end.
Notation wout := (list (event wcall wres)).
Definition w_act (c : wcall) (r : wres) : wout := [Call 0 c; Eff 0 c r; Ret 0 r].

(** start: 53-65 / 47-59 *)
Definition w_start (s : wst) (ok : bool) : wst * wres :=
  if w_on s then (s, RNone)                                                                  (* 56-58 / 50-52 *)
  else if ok then (mkW true (w_next s) (S (w_next s)) (w_next s :: w_armed s) (w_wk s) (w_ev s) (w_freed s) (w_thr s), RDone)   (* 59, 63-64 / 53, 57-58 *)
  else (s, RRefused).                                                                        (* 60-62 / 54-56 *)
Definition w_off (s : wst) (l : list nat) : wst := mkW false (w_id s) (w_next s) l (w_wk s) (w_ev s) (w_freed s) (w_thr s).
(** stop: 67-78 / 61-72 *)
Definition w_stop (s : wst) (ok : bool) : wst * wres :=
  if negb (w_on s) then (s, RNone)                                                           (* 70-72 / 64-66 *)
  else if w_mem (w_id s) (w_armed s) then (w_off s (w_del (w_id s) (w_armed s)), RDone)      (* 73, 77 / 67, 71 *)
  else if ok then (w_off s (w_armed s), RLate)                                               (* 73, 77 *)
  else (s, RMissed).                                                                         (* 74-76 *)

Definition w_step (periodic : bool) (s : wst) (l : wlab) : option (wst * wout) :=
  match l with
  | YCall t c =>
      match w_thr s t with
      | CIdle => if w_callable t (w_wk s) c && negb (w_freed s) then
                   match c with
                   | WDestroy => Some (w_go s t CAtD, [Call t WStop])                        (* ~WindowsOneShotTimer: 49 / 43 *)
                   | _ => Some (w_go s t (CAt c), [Call t c])
                   end
                 else None
      | _ => None
      end
  | YStep t ok =>
      match w_thr s t with
      | CRet r => Some (w_go s t CIdle, [Ret t r])
      | CIdle => None
      | q =>
          if w_freed s then None                                                             (* undefined behaviour: see [dangling] *)
          else
          match q with
          | CAt WStart =>
              if w_locked s then None else let '(s1, r) := w_start s ok in Some (w_go s1 t (CRet r), [Eff t WStart r])
          | CAt WStop =>
              if w_locked s then None else let '(s1, r) := w_stop s ok in Some (w_go s1 t (CRet r), [Eff t WStop r])
          | CAt WIsStarted =>                                                                (* 80-84 / 74-78 *)
              if w_locked s then None else Some (w_go s t (CRet (RBool (w_on s))), [Eff t WIsStarted (RBool (w_on s))])
          | CAtD =>                                                                          (* 49-50 / 43-44 *)
              if w_locked s then None else let '(s1, r) := w_stop s ok in Some (w_go s1 t CWait, [Eff t WStop r; Ret t r; Call t WDestroy])
          | CWait => if w_ev s then Some (w_go s t CFree, []) else None                      (* 50 / 44 *)
          | CFree =>                                                                         (* 125 / 124 *)
              Some (mkW (w_on s) (w_id s) (w_next s) (w_armed s) (w_wk s) (w_ev s) true (fupd (w_thr s) t (CRet RDone)), [Eff t WDestroy RDone])
          | _ => None
          end
      end
  | YDue i =>                                                                                (* the system calls timerCallback *)
      match w_wk s with
      | KFree =>
          if w_mem i (w_armed s) && negb (w_freed s) then
            Some (mkW (w_on s) (w_id s) (w_next s) (if periodic then w_armed s else w_del i (w_armed s)) (KDisp i) (w_ev s) (w_freed s) (w_thr s),
                  w_act WDue (RBool (w_on s && Nat.eqb i (w_id s))))
          else None
      | _ => None
      end
  | YWork =>
      if w_freed s then None                                                                 (* undefined behaviour: see [dangling] *)
      else
      match w_wk s with
      | KFree => None
      | KDisp i => Some (w_kto s (KReset i) false, [])                                       (* 31 / 26 *)
      | KReset i => Some (w_kto s (KRun i) (w_ev s), w_act WBegin RDone)                     (* 32 / 27 *)
      | KRun i =>
          match w_thr s 0 with
          | CIdle => if periodic then Some (w_kto s (KTail i) (w_ev s), w_act WEnd RDone) else Some (w_kto s (KTail i) (w_ev s), [Call 0 WEnd])
          | _ => None
          end
      | KTail i =>
          if periodic then Some (w_kto s KFree true, [])                                     (* 28 *)
          else Some (mkW false (w_id s) (w_next s) (w_armed s) KUnlock true (w_freed s) (w_thr s), [Eff 0 WEnd RDone; Ret 0 RDone])   (* 33-35 *)
      | KUnlock => Some (w_kto s KFree (w_ev s), [])                                         (* 36 *)
      end
  end.

Definition w_idle (s : wst) (t : nat) : Prop := w_thr s t = CIdle.
(** a call that is using the object *)
Definition w_inside (q : cpc) : Prop := match q with CIdle | CRet _ => False | _ => True end.
(** the object has been deleted although a callback or a call is still using it, or a timer is registered that will use it *)
Definition dangling (s : wst) : Prop :=
  w_freed s = true /\ (w_wk s <> KFree \/ w_armed s <> [] \/ exists t, w_inside (w_thr s t)).
(** the steps of the calls in progress, of the system and of the worker *)
Definition w_own_step (l : wlab) : Prop := match l with YCall _ _ => False | _ => True end.
Definition w_stuck (periodic : bool) (s : wst) : Prop :=
  (forall t ok, w_step periodic s (YStep t ok) = None) /\ w_step periodic s YWork = None /\ (forall i, w_step periodic s (YDue i) = None).
Definition w_steps_of (t : nat) (ls : list wlab) : nat := length (filter (fun l => match l with YStep u _ => Nat.eqb u t | _ => false end) ls).
