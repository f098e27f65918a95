(** Model of the static create / destroy / query methods: mechanism/OSWrapper/Mutex.cpp:7-31, EventFlag.cpp:7-25,
    Thread.cpp:71-76 and 147-209, OneShotTimer.cpp:9-14 and 84-98, PeriodicTimer.cpp:9-14 and 84-101,
    FixedMemoryPool.cpp:7-31, VariableMemoryPool.cpp:7-25.  Each class has its own static s_factory.  A failed
    CHECK_ASSERT ends the call (it throws Assertion::Failure, or a handler that must not return is called).
    [fac f c] is what factory [f] answers to request [c]. *)
From Coq Require Import List ZArith Bool.
Import ListNotations.
From Verif Require Import Spec.FacadeSpec.
Open Scope Z_scope.

Record statics := mkS { s_mutex : Z; s_flag : Z; s_thread : Z; s_oneshot : Z; s_periodic : Z; s_fixed : Z; s_variable : Z }.
Definition s_init : statics := mkS 0 0 0 0 0 0 0.                       (* Mutex.cpp:7 and the like *)

(** Mutex.cpp:9-12, EventFlag.cpp:9-12, Thread.cpp:73-76, OneShotTimer.cpp:11-14, PeriodicTimer.cpp:11-14, FixedMemoryPool.cpp:9-12, VariableMemoryPool.cpp:9-12 *)
Definition register (s : statics) (k : kind) (f : Z) : statics :=
  match k with
  | KMutex => mkS f (s_flag s) (s_thread s) (s_oneshot s) (s_periodic s) (s_fixed s) (s_variable s)
  | KEventFlag => mkS (s_mutex s) f (s_thread s) (s_oneshot s) (s_periodic s) (s_fixed s) (s_variable s)
  | KThread => mkS (s_mutex s) (s_flag s) f (s_oneshot s) (s_periodic s) (s_fixed s) (s_variable s)
  | KOneShot => mkS (s_mutex s) (s_flag s) (s_thread s) f (s_periodic s) (s_fixed s) (s_variable s)
  | KPeriodic => mkS (s_mutex s) (s_flag s) (s_thread s) (s_oneshot s) f (s_fixed s) (s_variable s)
  | KFixed => mkS (s_mutex s) (s_flag s) (s_thread s) (s_oneshot s) (s_periodic s) f (s_variable s)
  | KVariable => mkS (s_mutex s) (s_flag s) (s_thread s) (s_oneshot s) (s_periodic s) (s_fixed s) f
  end.

Section Facade.
  Variable fac : Z -> api -> Z.
  (** CHECK_ASSERT(s_factory) then [body] *)
  Definition check_assert (f : Z) (body : res * list (Z * api)) : res * list (Z * api) := if f =? 0 then (AssertionFails, []) else body.
  Definition forward (f : Z) (c : api) : res * list (Z * api) := (Value (fac f c), [(f, c)]).
  Definition forward_void (f : Z) (c : api) : res * list (Z * api) := (Value 0, [(f, c)]).
  (** if ((s_factory != 0) && (p != 0)) s_factory->destroy(p): Mutex.cpp:26-31 and the like *)
  Definition destroy (f p : Z) (c : api) : res * list (Z * api) := if negb (f =? 0) && negb (p =? 0) then forward_void f c else (Value 0, []).

  Definition call (s : statics) (c : api) : statics * (res * list (Z * api)) :=
    match c with
    | Register k f => (register s k f, (Value 0, []))
    | Destroy KMutex p => (s, destroy (s_mutex s) p c)                                                  (* Mutex.cpp:26-31 *)
    | Destroy KEventFlag p => (s, destroy (s_flag s) p c)                                               (* EventFlag.cpp:20-25 *)
    | Destroy KThread p => (s, destroy (s_thread s) p c)                                                (* Thread.cpp:156-161 *)
    | Destroy KOneShot p => (s, destroy (s_oneshot s) p c)                                              (* OneShotTimer.cpp:93-98 *)
    | Destroy KPeriodic p => (s, destroy (s_periodic s) p c)                                            (* PeriodicTimer.cpp:96-101 *)
    | Destroy KFixed p => (s, destroy (s_fixed s) p c)                                                  (* FixedMemoryPool.cpp:20-25 *)
    | Destroy KVariable p => (s, destroy (s_variable s) p c)                                            (* VariableMemoryPool.cpp:20-25 *)
    | MutexCreate | MutexCreateCeiling _ => (s, check_assert (s_mutex s) (forward (s_mutex s) c))       (* Mutex.cpp:14-24 *)
    | EventFlagCreate _ => (s, check_assert (s_flag s) (forward (s_flag s) c))                          (* EventFlag.cpp:14-18 *)
    | ThreadCreate r _ _ _ _ =>                                                                         (* Thread.cpp:147-154 *)
        (s, check_assert (s_thread s) (if r =? 0 then (Value 0, []) else forward (s_thread s) c))
    | ThreadSleep _ | ThreadYield | ThreadCurrent | ThreadMax | ThreadMin | ThreadHighest | ThreadLowest =>   (* Thread.cpp:163-191, 199-209 *)
        (s, check_assert (s_thread s) (forward (s_thread s) c))
    | OneShotCreate r _ =>                                                                              (* OneShotTimer.cpp:84-91 *)
        (s, check_assert (s_oneshot s) (if r =? 0 then (Value 0, []) else forward (s_oneshot s) c))
    | PeriodicCreate r ms _ =>                                                                          (* PeriodicTimer.cpp:84-94 *)
        (s, check_assert (s_periodic s) (if r =? 0 then (Value 0, []) else if ms =? 0 then (Value 0, []) else forward (s_periodic s) c))
    | FixedCreate _ _ _ | FixedRequired _ _ => (s, check_assert (s_fixed s) (forward (s_fixed s) c))    (* FixedMemoryPool.cpp:14-18, 27-31 *)
    | VariableCreate _ _ => (s, check_assert (s_variable s) (forward (s_variable s) c))                 (* VariableMemoryPool.cpp:14-18 *)
    end.
  Fixpoint calls (s : statics) (cs : list api) : statics :=
    match cs with [] => s | c :: cs' => calls (fst (call s c)) cs' end.
End Facade.
