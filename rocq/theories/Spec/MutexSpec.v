(** Specification of OSWrapper::Mutex (mechanism/OSWrapper/Mutex.h:24-90): a recursive mutex with atomic operations.
    The state is the owner with its nesting depth.  [M] is the deepest nesting the platform supports. *)
From Coq Require Import List Arith Bool.
Import ListNotations.
From Coq Require Import ZArith.
From Verif Require Import Spec.OSError Spec.Linear.

Inductive mcall := MLock | MTryLock | MTimedLock (ms : Z) | MUnlock.   (* -1 is Timeout::FOREVER *)
Definition is_lock (c : mcall) : bool := match c with MUnlock => false | _ => true end.
Definition unlimited (c : mcall) : Prop := match c with MLock => True | MTimedLock ms => ms = (-1)%Z | _ => False end.

Section Spec.
  Variable M : nat.
  Definition mspec (s : option (nat * nat)) (t : nat) (c : mcall) (r : err) (s' : option (nat * nat)) : Prop :=
    if is_lock c then
      match r with
      | OK => (s = None /\ s' = Some (t, 1)) \/ (exists n, s = Some (t, n) /\ n < M /\ s' = Some (t, S n))
      | TimedOut => ~ unlimited c /\ s' = s /\ exists u n, s = Some (u, n) /\ (u <> t \/ n = M)
      | OtherError => s' = s                        (* the platform refused: no effect *)
      | _ => False
      end
    else
      match s with
      | Some (u, n) => if Nat.eqb u t then r = OK /\ s' = (if Nat.eqb n 1 then None else Some (t, n - 1))
                       else r = NotLocked /\ s' = s
      | None => r = NotLocked /\ s' = s
      end.
End Spec.

(** what a thread holds, as far as it can know: lock calls that returned OK minus unlock calls made *)
Fixpoint holds_from (t : nat) (cur : option mcall) (d : nat) (h : list (event mcall err)) : nat :=
  match h with
  | [] => d
  | Call u c :: h' => if Nat.eqb u t then holds_from t (Some c) (if is_lock c then d else d - 1) h' else holds_from t cur d h'
  | Ret u r :: h' =>
      if Nat.eqb u t then
        holds_from t None (match cur, r with Some c, OK => if is_lock c then S d else d | _, _ => d end) h'
      else holds_from t cur d h'
  | Eff _ _ _ :: h' => holds_from t cur d h'
  end.
Definition holds (t : nat) (h : list (event mcall err)) : nat := holds_from t None 0 h.
(** every unlock call is made by a thread that holds the mutex *)
Definition disciplined (h : list (event mcall err)) : Prop :=
  forall h1 t h2, h = h1 ++ Call t MUnlock :: h2 -> 0 < holds t h1.
