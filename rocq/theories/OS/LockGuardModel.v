(** Model of LockGuard, mechanism/OSWrapper/Mutex.cpp:35-57, inside arbitrary programs: guards as local variables of
    nested scopes, statements that may throw, and try/catch.  The results of lock() come from an oracle. *)
From Coq Require Import List.
Import ListNotations.
From Verif Require Import Spec.OSError Spec.GuardSpec.

Inductive prog :=
| PAct (a : nat) (throws : bool)
| PSeq (p q : prog)
| PGuard (m : option nat) (body : prog)      (* { LockGuard lock(m); body } ; None: null pointer *)
| PAdopt (m : option nat) (body : prog)      (* { LockGuard lock(m, ADOPT_LOCK); body } *)
| PTry (p h : prog).                         (* try { p } catch (...) { h } *)

(** how a scope is left *)
Inductive leave := Normally | ByException.

Record guard := mkG { g_mutex : option nat; g_lockErr : err }.

(** 35-41 LockGuard(Mutex* m); the oracle gives the result of the next lock() *)
Definition guard_ctor (m : option nat) (oracle : list err) : guard * list gevent * list err :=
  let g := mkG m OtherError in
  match g_mutex g with
  | None => (g, [], oracle)
  | Some x => let r := hd OK oracle in (mkG m r, [GLock x r], tl oracle)
  end.
(** 45-49 LockGuard(Mutex* m, AdoptLock) *)
Definition guard_adopt (m : option nat) : guard * list gevent :=
  (mkG m OK, match m with None => [] | Some x => [GAdopt x] end).
(** 51-57 ~LockGuard() *)
Definition guard_dtor (g : guard) : list gevent :=
  match g_mutex g with
  | None => []
  | Some x => if err_eqb (g_lockErr g) OK then [GUnlock x] else []
  end.

(** the destructor of a local variable runs however the scope is left *)
Fixpoint prun (p : prog) (oracle : list err) : list gevent * leave * list err :=
  match p with
  | PAct a throws => ([GAct a], if throws then ByException else Normally, oracle)
  | PSeq p q =>
      match prun p oracle with
      | (w1, ByException, o1) => (w1, ByException, o1)
      | (w1, Normally, o1) => let '(w2, l2, o2) := prun q o1 in (w1 ++ w2, l2, o2)
      end
  | PGuard m body =>
      let '(g, w0, o0) := guard_ctor m oracle in
      let '(w1, l, o1) := prun body o0 in (w0 ++ w1 ++ guard_dtor g, l, o1)
  | PAdopt m body =>
      let '(g, w0) := guard_adopt m in
      let '(w1, l, o1) := prun body oracle in (w0 ++ w1 ++ guard_dtor g, l, o1)
  | PTry p h =>
      match prun p oracle with
      | (w1, Normally, o1) => (w1, Normally, o1)
      | (w1, ByException, o1) => let '(w2, l2, o2) := prun h o1 in (w1 ++ w2, l2, o2)
      end
  end.
