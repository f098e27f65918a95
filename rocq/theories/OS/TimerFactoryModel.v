(** Model of the timer factories of StdCpp and Windows.
    platform/StdCppOSWrapper/StdCppOneShotTimerFactory.cpp (constructor 76-83, beginThread 89-94, endThread 96-104, create 157-172, destroy 174-180),
    StdCppPeriodicTimerFactory.cpp (74-81, 87-92, 94-102, 159-174, 176-182),
    platform/WindowsOSWrapper/WindowsOneShotTimerFactory.cpp (39-45, 47-51, create 106-120, destroy 122-126),
    WindowsPeriodicTimerFactory.cpp (33-39, 41-45, create 105-119, destroy 121-125).
    One-shot and periodic factories are the same but for the parameters. *)
From Coq Require Import List Bool Arith.
Import ListNotations.
From Verif Require Import Spec.Resource OS.Resources.

(** * One create and destroy, with every request answered by the platform *)
(** [Crash]: a null pointer is dereferenced *)
Inductive tc_out := TNull | TTimer (mem sub : nat) | Crash.
Section C.
  Variable orc : nat -> bool.
  (** memory from the heap *)
  Definition KHeap : kind := KBlock 0.
  (** StdCpp create: requests 0 = memory, 1 = Thread::create, 2 = mutex and condition variables (their constructors may throw),
      3 = setPriority of the thread (may throw: std::system_error of its lock; Posix: Assertion::Failure, and std::out_of_range of m_prioMap.at,
      PosixThreadFactory.cpp 15-51, if pthread_getschedparam failed in the factory's constructor and the map is empty) *)
  Definition std_timer_create (s : rst) : tc_out * rst :=
    match acquire orc KHeap s with
    | (None, s) => (TNull, s)                                                       (* bad_alloc; 167-169 *)
    | (Some m, s) =>
        let '(th, s) := acquire orc KThread s in                                    (* 79: null if it fails *)
        if orc (rs_req s) then                                                      (* 80 *)
          let s := mkRs (rs_next s) (S (rs_req s)) (rs_tr s) in
          match th with
          | None => (Crash, s)                                                      (* 92: m_thread-> *)
          | Some th =>
              if orc (rs_req s) then (TTimer m th, mkRs (rs_next s) (S (rs_req s)) (rs_tr s))
              else (TNull, mkRs (rs_next s) (S (rs_req s)) (rs_tr s))               (* 92 throws; 167-169: t is not deleted *)
          end
        else                                                                        (* unwinding of the new-expression *)
          (TNull, release KHeap m (release_opt KThread th (mkRs (rs_next s) (S (rs_req s)) (rs_tr s))))
    end.
  (** destroy: the thread has ended (endThread); delete destroys m_thread and frees the memory *)
  Definition std_timer_destroy (m th : nat) (s : rst) : rst := release KHeap m (release KThread th s).
  (** Windows create: requests 0 = memory, 1 = EventFlag::create *)
  Definition win_timer_create (s : rst) : tc_out * rst :=
    match acquire orc KHeap s with
    | (None, s) => (TNull, s)
    | (Some m, s) =>
        match acquire orc KEvent s with
        | (None, s) => (Crash, s)                                                   (* 44: m_evFinished->setAll() *)
        | (Some e, s) => (TTimer m e, s)
        end
    end.
  Definition win_timer_destroy (m e : nat) (s : rst) : rst := release KHeap m (release KEvent e s).
End C.

(** * The factory's lock, with callbacks that use the factory themselves
    Agents: threads of the program, and the callback of each timer (while it runs).  What the timers themselves do is in OS/TimerModel.v and
    OS/WinTimerModel.v; here a callback of a timer that exists may begin at any time, and what destroy waits for is that it is over.
    [win]: destroy takes the lock first and waits inside (~WindowsOneShotTimer); otherwise it waits first (endThread).
    Clients destroy a timer once ([g_st], not in the program). *)
Inductive agent := Cl (t : nat) | Cb (x : nat).
Definition agent_eqb (a b : agent) : bool := match a, b with Cl x, Cl y => x =? y | Cb x, Cb y => x =? y | _, _ => false end.
Inductive gcall := GCreate | GDestroy (x : nat).
Inductive gpc :=
| GIdle
| GLockC                      (* create: take the lock *)
| GNew                        (* create: construct *)
| GWait (x : nat)             (* destroy: wait for the callback *)
| GLockD (x : nat)            (* destroy: take the lock *)
| GDel (x : nat)              (* destroy: delete *)
| GUnl                        (* release the lock *)
| GRet.
Inductive gstage := TNone | TLive | TDying | TEnded.
Record gst := mkG { g_lock : option agent; g_st : nat -> gstage; g_run : nat -> bool; g_pc : agent -> gpc }.
Definition aupd (f : agent -> gpc) (a : agent) (q : gpc) : agent -> gpc := fun b => if agent_eqb b a then q else f b.
Definition nupd {A : Type} (f : nat -> A) (x : nat) (v : A) : nat -> A := fun y => if y =? x then v else f y.
Definition g_init : gst := mkG None (fun _ => TNone) (fun _ => false) (fun _ => GIdle).
Inductive glab :=
| WCall (a : agent) (c : gcall)
| WStep (a : agent)
| WNew (a : agent) (x : nat)      (* construction gives timer x *)
| WFire (x : nat)                 (* the callback of x begins *)
| WEnd (x : nat).                 (* it ends *)
Definition can_call (s : gst) (a : agent) : bool := match a with Cl _ => true | Cb x => g_run s x end.
Definition g_step (win : bool) (s : gst) (l : glab) : option (gst * list unit) :=
  match l with
  | WCall a c =>
      match g_pc s a with
      | GIdle =>
          if can_call s a then
            match c with
            | GCreate => Some (mkG (g_lock s) (g_st s) (g_run s) (aupd (g_pc s) a GLockC), [])
            | GDestroy x =>
                match g_st s x with
                | TLive => Some (mkG (g_lock s) (nupd (g_st s) x TDying) (g_run s) (aupd (g_pc s) a (if win then GLockD x else GWait x)), [])
                | _ => None
                end
            end
          else None
      | _ => None
      end
  | WStep a =>
      match g_pc s a with
      | GLockC => match g_lock s with None => Some (mkG (Some a) (g_st s) (g_run s) (aupd (g_pc s) a GNew), []) | Some _ => None end
      | GNew => Some (mkG (g_lock s) (g_st s) (g_run s) (aupd (g_pc s) a GUnl), [])                                   (* construction throws *)
      | GWait x =>
          if g_run s x then None
          else Some (mkG (g_lock s) (nupd (g_st s) x TEnded) (g_run s) (aupd (g_pc s) a (if win then GDel x else GLockD x)), [])
      | GLockD x => match g_lock s with None => Some (mkG (Some a) (g_st s) (g_run s) (aupd (g_pc s) a (if win then GWait x else GDel x)), []) | Some _ => None end
      | GDel x => Some (mkG (g_lock s) (nupd (g_st s) x TNone) (g_run s) (aupd (g_pc s) a GUnl), [])
      | GUnl => Some (mkG None (g_st s) (g_run s) (aupd (g_pc s) a GRet), [])
      | GRet => Some (mkG (g_lock s) (g_st s) (g_run s) (aupd (g_pc s) a GIdle), [])
      | GIdle => None
      end
  | WNew a x =>
      match g_pc s a, g_st s x with
      | GNew, TNone => Some (mkG (g_lock s) (nupd (g_st s) x TLive) (g_run s) (aupd (g_pc s) a GUnl), [])
      | _, _ => None
      end
  | WFire x =>
      match g_st s x with
      | TLive | TDying => if g_run s x then None else Some (mkG (g_lock s) (g_st s) (nupd (g_run s) x true) (g_pc s), [])
      | _ => None
      end
  | WEnd x =>
      match g_pc s (Cb x) with
      | GIdle => if g_run s x then Some (mkG (g_lock s) (g_st s) (nupd (g_run s) x false) (g_pc s), []) else None
      | _ => None
      end
  end.
(** nobody in a call can go on and no callback can end *)
Definition g_stuck (win : bool) (s : gst) : Prop := forall l, match l with WStep _ | WNew _ _ | WEnd _ => g_step win s l = None | _ => True end.
Definition g_quiet (s : gst) : Prop := (forall a, g_pc s a = GIdle) /\ forall x, g_run s x = false.
