(** Event flags with callers that are not threads: mechanism/OSWrapper/EventFlag.h:59-256.  [nt]: not a thread;
    [lenient]: the kernel lets such callers set, clear and read the flag. *)
From Coq Require Import List ZArith Bool.
Import ListNotations.
From Verif Require Import Spec.OSError Spec.Linear Spec.EventFlagSpec.
Open Scope Z_scope.

(** calls documented to fail whoever makes them *)
Definition bad_args (w : Z) (c : ecall) : bool :=
  match c with
  | EWaitOne pos _ | ESetOne pos | EResetOne pos => w <=? pos
  | EWait P m _ _ => (P =? 0) || match m with ModeInvalid => true | _ => false end
  | _ => false
  end.
Section Spec.
  Variable w : Z.
  Variable autoReset : bool.
  Variable nt : nat -> bool.
  Variable lenient : bool.
  (** a wait call of a handler never waits and takes nothing; its other calls are as a thread's or fail without effect *)
  Definition hspec (p : Z) (t : nat) (c : ecall) (r : eres) (p' : Z) : Prop :=
    if bad_args w c then r = ERes InvalidParameter None /\ p' = p
    else if is_wait c then r = ERes CalledByNonThread None /\ p' = p
    else if lenient then espec w autoReset p t c r p'
    else p' = p /\ r = match c with EGet => EPat 0 | _ => ERes OtherError None end.
  Definition fspec (p : Z) (t : nat) (c : ecall) (r : eres) (p' : Z) : Prop :=
    if nt t then hspec p t c r p' else espec w autoReset p t c r p'.
End Spec.
