(** Linearizability (Herlihy and Wing) of a concurrent object with possibly blocking operations.
    A history is what the callers see: calls and returns, each tagged with its thread.  It is linearizable with
    respect to a sequential specification [sp] when one can insert, inside every call that has returned (and inside
    some of the calls still running), one instant at which the call takes effect, such that the effects taken in that
    order are a run of [sp], each producing the result the call returns. *)
From Coq Require Import List.
Import ListNotations.

Section Lin.
  Variables C R Sp : Type.
  Variable sp : Sp -> nat -> C -> R -> Sp -> Prop.     (* state, calling thread, call, result, new state *)

  Inductive event :=
  | Call (t : nat) (c : C)
  | Eff (t : nat) (c : C) (r : R)                       (* the instant of effect: not visible to callers *)
  | Ret (t : nat) (r : R).

  Definition visible (e : event) : bool := match e with Eff _ _ _ => false | _ => true end.
  Definition history (es : list event) : list event := filter visible es.

  Inductive status := Out | Pending (c : C) | Done (r : R).
  Definition set_st (f : nat -> status) (t : nat) (x : status) : nat -> status := fun u => if Nat.eqb u t then x else f u.

  (** [lin_run f s es f' s']: the threads go from statuses [f] to [f'] and the object from [s] to [s'] *)
  Inductive lin_run : (nat -> status) -> Sp -> list event -> (nat -> status) -> Sp -> Prop :=
  | lr_nil f s : lin_run f s [] f s
  | lr_call f s t c es f' s' : f t = Out -> lin_run (set_st f t (Pending c)) s es f' s' -> lin_run f s (Call t c :: es) f' s'
  | lr_eff f s t c r s1 es f' s' : f t = Pending c -> sp s t c r s1 -> lin_run (set_st f t (Done r)) s1 es f' s' ->
      lin_run f s (Eff t c r :: es) f' s'
  | lr_ret f s t r es f' s' : f t = Done r -> lin_run (set_st f t Out) s es f' s' -> lin_run f s (Ret t r :: es) f' s'.

  Definition linearizable (s0 : Sp) (h : list event) : Prop :=
    exists es f s, history es = h /\ lin_run (fun _ => Out) s0 es f s.

  (** sequential runs of the specification alone *)
  Inductive sp_run : Sp -> list (nat * C * R) -> Sp -> Prop :=
  | sr_nil s : sp_run s [] s
  | sr_cons s t c r s1 l s' : sp s t c r s1 -> sp_run s1 l s' -> sp_run s ((t, c, r) :: l) s'.

  Definition effects (es : list event) : list (nat * C * R) :=
    flat_map (fun e => match e with Eff t c r => [(t, c, r)] | _ => [] end) es.

  Lemma lin_run_effects : forall es f s f' s', lin_run f s es f' s' -> sp_run s (effects es) s'.
  Proof. intros es f s f' s' H. induction H; cbn; try assumption; [constructor | econstructor; eauto]. Qed.

  Lemma lin_run_app : forall es1 f s f1 s1 es2 f2 s2,
    lin_run f s es1 f1 s1 -> lin_run f1 s1 es2 f2 s2 -> lin_run f s (es1 ++ es2) f2 s2.
  Proof. intros es1 f s f1 s1 es2 f2 s2 H. revert es2 f2 s2. induction H; intros; cbn; [assumption| | |]; econstructor; eauto. Qed.
  Lemma lin_run_app_inv : forall es1 f s es2 f2 s2,
    lin_run f s (es1 ++ es2) f2 s2 -> exists f1 s1, lin_run f s es1 f1 s1 /\ lin_run f1 s1 es2 f2 s2.
  Proof.
    induction es1 as [|e es1 IH]; intros f s es2 f2 s2 H.
    - exists f, s. split; [constructor|exact H].
    - cbn in H. inversion H; subst;
        match goal with h : lin_run _ _ (es1 ++ es2) _ _ |- _ => destruct (IH _ _ _ _ _ h) as (fx & sx & A & B) end;
        exists fx, sx; (split; [econstructor; eauto|exact B]).
  Qed.
  Lemma sp_run_app : forall l1 s s1 l2 s2, sp_run s l1 s1 -> sp_run s1 l2 s2 -> sp_run s (l1 ++ l2) s2.
  Proof. intros l1 s s1 l2 s2 H. revert l2 s2. induction H; intros; cbn; [assumption|]. econstructor; eauto. Qed.
  Lemma sp_run_app_inv : forall l1 s l2 s2, sp_run s (l1 ++ l2) s2 -> exists s1, sp_run s l1 s1 /\ sp_run s1 l2 s2.
  Proof.
    induction l1 as [|e l1 IH]; intros s l2 s2 H.
    - exists s. split; [constructor|exact H].
    - cbn in H. inversion H; subst. match goal with h : sp_run _ (l1 ++ l2) _ |- _ => destruct (IH _ _ _ h) as (x & A & B) end. exists x. split; [econstructor; eauto|exact B].
  Qed.
End Lin.
Arguments Call {C R}. Arguments Eff {C R}. Arguments Ret {C R}.
Arguments Out {C R}. Arguments Pending {C R}. Arguments Done {C R}.
Arguments history {C R}. Arguments effects {C R}. Arguments visible {C R}. Arguments set_st {C R}.
Arguments lin_run {C R Sp}. Arguments linearizable {C R Sp}. Arguments sp_run {C R Sp}.
