(** Proofs about the facades. *)
From Coq Require Import List ZArith Bool Lia.
Import ListNotations.
From Verif Require Import Spec.FacadeSpec OS.FacadeModel.
Open Scope Z_scope.

Definition s_of (s : statics) (k : kind) : Z :=
  match k with KMutex => s_mutex s | KEventFlag => s_flag s | KThread => s_thread s | KOneShot => s_oneshot s | KPeriodic => s_periodic s | KFixed => s_fixed s | KVariable => s_variable s end.
Lemma s_of_register s k f k' : s_of (register s k f) k' = if kind_eqb k k' then f else s_of s k'.
Proof. now destruct k, k'. Qed.
Lemma call_statics fac s c k : s_of (fst (call fac s c)) k = match c with Register k' f => if kind_eqb k' k then f else s_of s k | _ => s_of s k end.
Proof. destruct c; try reflexivity; [apply s_of_register|destruct k0; reflexivity]. Qed.
Lemma calls_registered fac hist k : s_of (calls fac s_init hist) k = registered k hist.
Proof.
  unfold registered. assert (X : forall s, s_of (calls fac s hist) k = fold_left (fun f c => match c with Register k' f' => if kind_eqb k' k then f' else f | _ => f end) hist (s_of s k)).
  { induction hist as [|c hist IH]; intros s; [reflexivity|]. cbn [calls fold_left]. rewrite IH, call_statics. now destruct c. }
  rewrite X. now destruct k.
Qed.
Theorem facade_ok fac hist c : facade hist fac c (fst (snd (call fac (calls fac s_init hist) c))) (snd (snd (call fac (calls fac s_init hist) c))) .
Proof.
  set (s := calls fac s_init hist).
  assert (R : forall k, s_of s k = registered k hist) by (intros k; apply calls_registered).
  assert (DD : forall k p, facade hist fac (Destroy k p) (fst (destroy (registered k hist) p (Destroy k p))) (snd (destroy (registered k hist) p (Destroy k p)))).
  { intros k p. unfold destroy. destruct (Z.eqb_spec (registered k hist) 0) as [Z0|NZ]; cbn; [apply f_destroy_not; auto|].
    destruct (Z.eqb_spec p 0) as [Z0|NP]; cbn; [apply f_destroy_not; auto|now apply f_destroy]. }
  assert (FW : (forall k f, c <> Register k f) -> (forall k p, c <> Destroy k p) -> ~ refused c ->
     facade hist fac c (fst (check_assert (registered (kind_of c) hist) (forward fac (registered (kind_of c) hist) c)))
                       (snd (check_assert (registered (kind_of c) hist) (forward fac (registered (kind_of c) hist) c)))).
  { intros A B D. unfold check_assert. destruct (Z.eqb_spec (registered (kind_of c) hist) 0) as [Z0|NZ]; [now apply f_unregistered|now apply f_forward]. }
  assert (RF : (forall k f, c <> Register k f) -> (forall k p, c <> Destroy k p) -> refused c ->
     facade hist fac c (fst (check_assert (registered (kind_of c) hist) (Value 0, [])))
                       (snd (check_assert (registered (kind_of c) hist) (Value 0, [])))).
  { intros A B D. unfold check_assert. destruct (Z.eqb_spec (registered (kind_of c) hist) 0) as [Z0|NZ]; [now apply f_unregistered|now apply f_refused]. }
  destruct c as [k f|k p| | | |r pri ss sa name| | | | | | | |r name|r ms name| | |]; cbn [call snd kind_of] in *;
    try (pose proof (R KMutex) as RR; cbn in RR; rewrite RR; apply FW; [discriminate|discriminate|cbn; tauto]);
    try (pose proof (R KEventFlag) as RR; cbn in RR; rewrite RR; apply FW; [discriminate|discriminate|cbn; tauto]);
    try (pose proof (R KThread) as RR; cbn in RR; rewrite RR; apply FW; [discriminate|discriminate|cbn; tauto]);
    try (pose proof (R KFixed) as RR; cbn in RR; rewrite RR; apply FW; [discriminate|discriminate|cbn; tauto]);
    try (pose proof (R KVariable) as RR; cbn in RR; rewrite RR; apply FW; [discriminate|discriminate|cbn; tauto]).
  - apply f_register.
  - destruct k; cbn [snd]; specialize (R KMutex) as R1; specialize (R KEventFlag) as R2; specialize (R KThread) as R3; specialize (R KOneShot) as R4;
      specialize (R KPeriodic) as R5; specialize (R KFixed) as R6; specialize (R KVariable) as R7; cbn in R1, R2, R3, R4, R5, R6, R7;
      rewrite ?R1, ?R2, ?R3, ?R4, ?R5, ?R6, ?R7; apply DD.
  - pose proof (R KThread) as RR. cbn in RR. rewrite RR. destruct (Z.eqb_spec r 0) as [->|]; [apply RF; [discriminate|discriminate|reflexivity]|apply FW; [discriminate|discriminate|assumption]].
  - pose proof (R KOneShot) as RR. cbn in RR. rewrite RR. destruct (Z.eqb_spec r 0) as [->|]; [apply RF; [discriminate|discriminate|reflexivity]|apply FW; [discriminate|discriminate|assumption]].
  - pose proof (R KPeriodic) as RR. cbn in RR. rewrite RR. destruct (Z.eqb_spec r 0) as [->|]; [apply RF; [discriminate|discriminate|now left]|].
    destruct (Z.eqb_spec ms 0) as [->|]; [apply RF; [discriminate|discriminate|now right]|]. apply FW; [discriminate|discriminate|]. intros [X|X]; contradiction.
Qed.
(** the specification leaves no choice *)
Theorem facade_deterministic hist fac c r q r' q' : facade hist fac c r q -> facade hist fac c r' q' -> r = r' /\ q = q'.
Proof.
  intros A B. inversion A; subst; inversion B; subst; auto; try (exfalso; eauto; fail); try tauto; try congruence;
    repeat match goal with h : forall k f, Register ?a ?b <> Register k f |- _ => now elim (h a b) | h : forall k f, Destroy ?a ?b <> Destroy k f |- _ => now elim (h a b) | h : refused (Register _ _) |- _ => destruct h | h : refused (Destroy _ _) |- _ => destruct h end.
  all: try (match goal with h : _ \/ _ |- _ => destruct h; contradiction end).
Qed.
