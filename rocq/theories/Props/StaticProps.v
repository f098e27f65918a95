(** C86: Objects of static storage duration may use the library.  The notions ([inited], [built_after_init], [ending], [due]) are in
    Spec/StaticSpec; [s_start] is the start of a program, [es] all that happened so far. *)
From Coq Require Import List ZArith Bool.
Import ListNotations.
From Verif Require Import Spec.FacadeSpec Spec.PlatformSpec Spec.StaticSpec OS.Sched OS.StaticModel OS.StaticProofs.

(** every use, at any time of the program's life: before init create fails its assertion and destroy does nothing; from then on the factory serves it,
    in destructors of static objects too if those were built after init; if they were built before, it is undefined behaviour *)
Theorem c86_what_a_use_gets :
  forall (p : platform) (ls : list slab) (s : sst) (es : life), exec (s_step p) s_start ls = Some (s, es) ->
    forall a k c r d, es = a ++ EUse k c r :: d -> r = due (serves p k) c a.
Proof. exact static_use. Qed.
Print Assumptions c86_what_a_use_gets.
(** Timeout::FOREVER is 0, that is POLLING, until it has got its value, which it has when main begins *)
Theorem c86_forever_partial :
  forall (p : platform) (ls : list slab) (s : sst) (es : life), exec (s_step p) s_start ls = Some (s, es) ->
    forall a v d, es = a ++ ERead v :: d -> (In EConst a -> v = (-1)%Z) /\ (~ In EConst a -> v = 0%Z) /\ (In EMain a -> v = (-1)%Z).
Proof. exact static_read. Qed.
Print Assumptions c86_forever_partial.
(** a static object that was built before init and uses the library in its destructor: undefined behaviour *)
Theorem c86_never_dead_refuted : ~ (forall ls s es, exec (s_step StdCpp) s_start ls = Some (s, es) -> forall a k c d, es <> a ++ EUse k c Dead :: d).
Proof. exact static_dead. Qed.
Print Assumptions c86_never_dead_refuted.
(** a static object whose constructor waits with Timeout::FOREVER may not wait at all *)
Theorem c86_forever_refuted : ~ (forall ls s es, exec (s_step StdCpp) s_start ls = Some (s, es) -> forall a v d, es = a ++ ERead v :: d -> v = (-1)%Z).
Proof. exact static_early. Qed.
Print Assumptions c86_forever_refuted.

(** object 7 is built before main, objects 8 and 9 in main, before and after init (Itron); then all are destroyed *)
Example c86_case :
  match exec (s_step Itron) s_start ([LUse KMutex true; LUse KMutex false; LRead; LBuilt 7; LConst; LMain; LRead; LBuilt 8; LInit; LUse KThread true; LUse KOneShot true; LBuilt 9; LInit; LExit;
      LPop; LUse KThread false; LRead] ++ repeat LPop 7 ++ [LUse KThread false; LPop; LUse KEventFlag true; LUse KOneShot true]) with
  | Some (s, es) => es = [EUse KMutex true AssertionFailed; EUse KMutex false NoEffect; ERead 0; EBuilt 7; EConst; EMain; ERead (-1); EBuilt 8; EInit; EUse KThread true Served;
      EUse KOneShot true AssertionFailed; EBuilt 9; EInit; EExit; EGone 9; EUse KThread false Served; ERead (-1); EGone 8; EUse KThread false Dead; EGone 7; EUse KEventFlag true Dead;
      EUse KOneShot true AssertionFailed] /\ k_stack s = [] /\ built_after_init 9 es = true /\ built_after_init 8 es = false
  | None => False
  end.
Proof. vm_compute. repeat split. Qed.
