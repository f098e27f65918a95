(** The library and objects of static storage duration: what a program does from its start to its end, and what it gets.
    (platform/*OSWrapper/*OSWrapper.cpp: init and its function-local static factories; mechanism/OSWrapper/Timeout.cpp: the constants;
    mechanism/OSWrapper/Mutex.cpp, EventFlag.cpp, Thread.cpp, ...: create, destroy.) *)
From Coq Require Import List ZArith Bool Arith.
Import ListNotations.
From Verif Require Import Spec.FacadeSpec.

Inductive served :=
| Served           (* by the platform's factory, which is alive *)
| AssertionFailed  (* CHECK_ASSERT(s_factory) *)
| NoEffect         (* destroy does nothing *)
| Dead.            (* undefined behaviour: a virtual call on a factory that has been destroyed *)
Inductive happened :=
| EConst                                       (* Timeout::POLLING, Timeout::FOREVER have got their values *)
| EBuilt (u : nat)                             (* the construction of the program's static object [u] is complete *)
| EInit                                        (* init of the platform has returned *)
| EUse (k : kind) (create : bool) (r : served) (* create or another request; destroy of an object *)
| ERead (v : Z)                                (* the value of Timeout::FOREVER *)
| EMain                                        (* main begins *)
| EExit                                        (* main has returned, or exit was called *)
| EGone (u : nat).                             (* the destructor of [u] begins *)
Notation life := (list happened).
Definition is_init (e : happened) : bool := match e with EInit => true | _ => false end.
(** init has been called *)
Definition inited (es : life) : bool := existsb is_init es.
(** [u] was built after init had been called *)
Fixpoint after_init (i : bool) (u : nat) (es : life) : bool :=
  match es with
  | [] => false
  | EInit :: es => after_init true u es
  | EBuilt v :: es => if Nat.eqb v u then i else after_init i u es
  | _ :: es => after_init i u es
  end.
Definition built_after_init : nat -> life -> bool := after_init false.
(** whose destructor is running, if the program is ending *)
Definition ending (es : life) : option nat := fold_left (fun o e => match e with EGone u => Some u | _ => o end) es None.
(** what a use of class [k] must get after [es] *)
Definition due (serves : bool) (create : bool) (es : life) : served :=
  if inited es && serves then
    match ending es with
    | Some u => if built_after_init u es then Served else Dead
    | None => Served
    end
  else if create then AssertionFailed else NoEffect.
