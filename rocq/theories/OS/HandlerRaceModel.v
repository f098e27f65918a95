(** Uncaught-exception handlers that are set while threads and timers run: Thread::setUncaughtExceptionHandler,
    setDefaultUncaughtExceptionHandler, the getters and handleException (mechanism/OSWrapper/Thread.cpp:83-119), the same of the timers
    (OneShotTimer.cpp:19-56, PeriodicTimer.cpp:19-56) and ThreadPool::setUncaughtExceptionHandler (ThreadPool.cpp:212-223).
    None of these functions locks anything, so every access to a handler pointer is a step of its own; as in all models here accesses are
    sequentially consistent (on hardware that is not, unsynchronised accesses are worse still: undefined behaviour in C++).
    Objects 0 .. are threads or timers (one system thread each); in [pool] objects 0 .. N-1 are the threads of a ThreadPool; agents that
    are no objects (N and above) are other threads.  User code (run, the handlers) is not modelled beyond its begin, its end and the calls
    it makes.  OS/HandlerModel has the same dispatch for one thread alone. *)
From Coq Require Import String List Bool Arith.
Import ListNotations.
From Verif Require Import Spec.HandlerSpec Spec.HandlerRaceSpec OS.Sched.

(** where the system thread of an object is *)
Inductive phase :=
| Off
| Run                                   (* in Runnable::run *)
| Stopping (x : exn)                    (* a timer: in stop(), OneShotTimer.cpp:43 *)
| TestOwn (x : exn)                     (* if (m_uncaughtExceptionHandler != 0): Thread.cpp:107, OneShotTimer.cpp:44 *)
| CallOwn (x : exn)                     (* m_uncaughtExceptionHandler->handle(this, msg): 108; 45 *)
| TestDflt (x : exn)                    (* else if (m_defaultUncaughtExceptionHandler != 0): 109; 46 *)
| CallDflt (x : exn)                    (* m_defaultUncaughtExceptionHandler->handle(this, msg): 110; 47 *)
| Handling                              (* in UncaughtExceptionHandler::handle *)
| Crashed.                              (* called through a null pointer *)
Record hst := mkH { h_own : nat -> option nat;         (* m_uncaughtExceptionHandler of the objects *)
                    h_dflt : class -> option nat;      (* the static m_defaultUncaughtExceptionHandler of the three classes *)
                    h_pool : option nat;               (* ThreadPool::m_uncaughtExceptionHandler *)
                    h_phase : nat -> phase;
                    h_loop : nat -> option (nat * option nat) }.   (* agent t is in the pool's loop: next index, handler *)
Inductive hlab :=
| HBegin (r : nat)                           (* the object's thread calls run *)
| HEnd (r : nat) (x : option exn)            (* run or the handler returns, or throws x *)
| HStep (r : nat)                            (* a step of handleException *)
| HStopThrows (r : nat)                      (* stop() throws *)
| HSet (t : nat) (p : place) (h : option nat)
| HGet (t : nat) (p : place)
| HPoolSet (t : nat) (h : option nat)
| HLoop (t : nat).                           (* a step of the pool's loop *)

Section Model.
  Variable N : nat.              (* threads of the pool *)
  Variable class_of : nat -> option class.    (* the class of object r; None: the agent is no object *)
  Definition timer (r : nat) : bool := match class_of r with Some ThreadC | None => false | _ => true end.

  Definition h_init : hst := mkH (fun _ => None) (fun _ => None) None (fun _ => Off) (fun _ => None).

  Definition to_phase (s : hst) (r : nat) (q : phase) : hst := mkH (h_own s) (h_dflt s) (h_pool s) (fupd (h_phase s) r q) (h_loop s).
  Definition to_loop (s : hst) (t : nat) (q : option (nat * option nat)) : hst := mkH (h_own s) (h_dflt s) (h_pool s) (h_phase s) (fupd (h_loop s) t q).
  (** agent t is in user code and not in a call of the library *)
  Definition may_call (s : hst) (t : nat) : bool :=
    match h_loop s t with Some _ => false | None => match class_of t with Some _ => match h_phase s t with Run | Handling => true | _ => false end | None => true end end.
  (** the setters: Thread.cpp:85, 95; OneShotTimer.cpp:21, 31; ThreadPool.cpp:214 *)
  Definition set_handler (s : hst) (p : place) (h : option nat) : hst :=
    match p with
    | OfObject r => mkH (fupd (h_own s) r h) (h_dflt s) (h_pool s) (h_phase s) (h_loop s)
    | Default k => mkH (h_own s) (fun j => if class_eqb j k then h else h_dflt s j) (h_pool s) (h_phase s) (h_loop s)
    | OfPool => mkH (h_own s) (h_dflt s) h (h_phase s) (h_loop s)
    end.
  (** the getters: Thread.cpp:90, 100; OneShotTimer.cpp:26, 36; ThreadPool.cpp:222 *)
  Definition get_handler (s : hst) (p : place) : option nat :=
    match p with OfObject r => h_own s r | Default k => h_dflt s k | OfPool => h_pool s end.

  (** handleException reads the default of the object's class *)
  Definition dflt_of (s : hst) (r : nat) : option nat := match class_of r with Some k => h_dflt s k | None => None end.

  Definition h_step (s : hst) (l : hlab) : option (hst * list hev) :=
    match l with
    | HBegin r => match h_phase s r with Off => match class_of r with Some _ => Some (to_phase s r Run, [EvBegin r]) | None => None end | _ => None end
    | HEnd r x =>
        match h_loop s r with
        | Some _ => None
        | None =>
            match h_phase s r, x with
            | Run, None => Some (to_phase s r Off, [EvEnd r])
            | Run, Some x => Some (to_phase s r (if timer r then Stopping x else TestOwn x), [EvThrow r x])  (* Thread.cpp:135-143 *)
            | Handling, _ => Some (to_phase s r Off, [EvHandled r])                                          (* 113-115: exceptions are ignored *)
            | _, _ => None
            end
        end
    | HStep r =>
        match h_phase s r with
        | Stopping x => Some (to_phase s r (TestOwn x), [])
        | TestOwn x => Some (to_phase s r (match h_own s r with Some _ => CallOwn x | None => TestDflt x end), [])
        | CallOwn x => match h_own s r with
                       | Some h => Some (to_phase s r Handling, [EvHandle r h (message_of x)])
                       | None => Some (to_phase s r Crashed, [])
                       end
        | TestDflt x => match dflt_of s r with
                        | Some _ => Some (to_phase s r (CallDflt x), [])
                        | None => Some (to_phase s r Off, [EvUnhandled r])
                        end
        | CallDflt x => match dflt_of s r with
                        | Some h => Some (to_phase s r Handling, [EvHandle r h (message_of x)])
                        | None => Some (to_phase s r Crashed, [])
                        end
        | _ => None
        end
    | HStopThrows r => match h_phase s r with Stopping x => Some (to_phase s r Off, [EvStopThrew r]) | _ => None end    (* OneShotTimer.cpp:43, 50-52 *)
    | HSet t p h => if may_call s t && match p with OfPool => false | _ => true end then Some (set_handler s p h, [EvSet t p h]) else None
    | HGet t p => if may_call s t then Some (s, [EvGet t p (get_handler s p)]) else None
    | HPoolSet t h =>                                                                                        (* ThreadPool.cpp:214 *)
        if may_call s t then Some (to_loop (set_handler s OfPool h) t (Some (0, h)), [EvPoolSet t h; EvSet t OfPool h]) else None
    | HLoop t =>                                                                                             (* 215-217 *)
        match h_loop s t with
        | Some (i, h) => if i <? N then Some (to_loop (set_handler s (OfObject i) h) t (Some (S i, h)), [EvSet t (OfObject i) h])
                         else Some (to_loop s t None, [EvPoolDone t])
        | None => None
        end
    end.
End Model.
