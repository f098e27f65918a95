(** Specification of the static methods of the OSWrapper classes as doors to the registered factory.
    Addresses are integers, 0 is null.  A request that reaches a factory is the call itself, with its arguments. *)
From Coq Require Import List ZArith.
Import ListNotations.
Open Scope Z_scope.

Inductive kind := KMutex | KEventFlag | KThread | KOneShot | KPeriodic | KFixed | KVariable.
Definition kind_eqb (a b : kind) : bool :=
  match a, b with
  | KMutex, KMutex | KEventFlag, KEventFlag | KThread, KThread | KOneShot, KOneShot | KPeriodic, KPeriodic | KFixed, KFixed | KVariable, KVariable => true
  | _, _ => false
  end.
Inductive api :=
| Register (k : kind) (f : Z)
| Destroy (k : kind) (p : Z)
| MutexCreate
| MutexCreateCeiling (pri : Z)
| EventFlagCreate (auto_reset : bool)
| ThreadCreate (r pri stack_size stack_address name : Z)
| ThreadSleep (ms : Z)
| ThreadYield
| ThreadCurrent
| ThreadMax
| ThreadMin
| ThreadHighest
| ThreadLowest
| OneShotCreate (r name : Z)
| PeriodicCreate (r ms name : Z)
| FixedCreate (block_size pool_size address : Z)
| FixedRequired (block_size blocks : Z)
| VariableCreate (pool_size address : Z).
Inductive res := AssertionFails | Value (v : Z).      (* void calls give 0 *)

Definition kind_of (c : api) : kind :=
  match c with
  | Register k _ | Destroy k _ => k
  | MutexCreate | MutexCreateCeiling _ => KMutex
  | EventFlagCreate _ => KEventFlag
  | ThreadCreate _ _ _ _ _ | ThreadSleep _ | ThreadYield | ThreadCurrent | ThreadMax | ThreadMin | ThreadHighest | ThreadLowest => KThread
  | OneShotCreate _ _ => KOneShot
  | PeriodicCreate _ _ _ => KPeriodic
  | FixedCreate _ _ _ | FixedRequired _ _ => KFixed
  | VariableCreate _ _ => KVariable
  end.
(** the factory registered last for a class, 0 if none *)
Definition registered (k : kind) (hist : list api) : Z :=
  fold_left (fun f c => match c with Register k' f' => if kind_eqb k' k then f' else f | _ => f end) hist 0.
(** arguments no platform can serve *)
Definition refused (c : api) : Prop :=
  match c with
  | ThreadCreate r _ _ _ _ => r = 0
  | OneShotCreate r _ => r = 0
  | PeriodicCreate r ms _ => r = 0 \/ ms = 0
  | _ => False
  end.
(** [facade hist c fac r reqs]: after [hist], call [c] gives [r] and reaches factories by [reqs] *)
Inductive facade (hist : list api) (fac : Z -> api -> Z) : api -> res -> list (Z * api) -> Prop :=
| f_register k f : facade hist fac (Register k f) (Value 0) []
| f_destroy k p : registered k hist <> 0 -> p <> 0 -> facade hist fac (Destroy k p) (Value 0) [(registered k hist, Destroy k p)]
| f_destroy_not k p : registered k hist = 0 \/ p = 0 -> facade hist fac (Destroy k p) (Value 0) []
| f_unregistered c : (forall k f, c <> Register k f) -> (forall k p, c <> Destroy k p) -> registered (kind_of c) hist = 0 -> facade hist fac c AssertionFails []
| f_refused c : registered (kind_of c) hist <> 0 -> refused c -> facade hist fac c (Value 0) []
| f_forward c : (forall k f, c <> Register k f) -> (forall k p, c <> Destroy k p) -> registered (kind_of c) hist <> 0 -> ~ refused c ->
    facade hist fac c (Value (fac (registered (kind_of c) hist) c)) [(registered (kind_of c) hist, c)].
