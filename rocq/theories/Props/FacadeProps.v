(** C52: the static methods as doors to the registered factories.  [hist]: any history of calls, [fac]: any behaviour of the factories. *)
From Coq Require Import List ZArith.
Import ListNotations.
From Verif Require Import Spec.FacadeSpec OS.FacadeModel OS.FacadeProofs.
Open Scope Z_scope.

Theorem c52_facade_guards :
  forall (fac : Z -> api -> Z) (hist : list api) (c : api),
    facade hist fac c (fst (snd (call fac (calls fac s_init hist) c))) (snd (snd (call fac (calls fac s_init hist) c))).
Proof. exact facade_ok. Qed.
Print Assumptions c52_facade_guards.
(** the specification determines the result and the requests *)
Theorem c52_facade_deterministic :
  forall (hist : list api) (fac : Z -> api -> Z) (c : api) (r : res) (q : list (Z * api)) (r' : res) (q' : list (Z * api)),
    facade hist fac c r q -> facade hist fac c r' q' -> r = r' /\ q = q'.
Proof. exact facade_deterministic. Qed.
Print Assumptions c52_facade_deterministic.
Example c52_case :
  let fac := fun f c => f + 1000 in
  let hist := [Register KPeriodic 7; Register KThread 5; Register KPeriodic 8] in
  let s := calls fac s_init hist in
  snd (call fac s (PeriodicCreate 1 10 0)) = (Value 1008, [(8, PeriodicCreate 1 10 0)]) /\
  snd (call fac s (PeriodicCreate 1 0 0)) = (Value 0, []) /\
  snd (call fac s (OneShotCreate 1 0)) = (AssertionFails, []) /\
  snd (call fac s (Destroy KThread 3)) = (Value 0, [(5, Destroy KThread 3)]) /\
  snd (call fac s (Destroy KMutex 3)) = (Value 0, []) /\ registered KPeriodic hist = 8.
Proof. repeat split. Qed.
