(** Executions of a labelled transition function.  A label names the thread that moves and, where the platform may
    choose, the choice; every function [Lab -> option] is executable, and the theorems quantify over all label lists,
    i.e. over all schedules. *)
From Coq Require Import List Arith Lia Bool.
Import ListNotations.

Section Sched.
  Variables St Lab Ev : Type.
  Variable step : St -> Lab -> option (St * list Ev).

  Fixpoint exec (s : St) (ls : list Lab) : option (St * list Ev) :=
    match ls with
    | [] => Some (s, [])
    | l :: ls' =>
        match step s l with
        | None => None
        | Some (s1, es1) => match exec s1 ls' with None => None | Some (s2, es2) => Some (s2, es1 ++ es2) end
        end
    end.

  Lemma exec_app : forall ls1 ls2 s,
    exec s (ls1 ++ ls2) = match exec s ls1 with
                          | None => None
                          | Some (s1, e1) => match exec s1 ls2 with None => None | Some (s2, e2) => Some (s2, e1 ++ e2) end
                          end.
  Proof.
    induction ls1 as [|l ls1 IH]; intros ls2 s; cbn.
    - destruct (exec s ls2) as [[? ?]|]; reflexivity.
    - destruct (step s l) as [[s1 e1]|]; [|reflexivity]. rewrite IH.
      destruct (exec s1 ls1) as [[s2 e2]|]; [|reflexivity].
      destruct (exec s2 ls2) as [[s3 e3]|]; [|reflexivity]. now rewrite app_assoc.
  Qed.

  (** an invariant of states and of the trace so far *)
  Lemma exec_inv : forall (I : St -> list Ev -> Prop),
    (forall s es l s' es', I s es -> step s l = Some (s', es') -> I s' (es ++ es')) ->
    forall ls s es s' es', I s es -> exec s ls = Some (s', es') -> I s' (es ++ es').
  Proof.
    intros I HI. induction ls as [|l ls IH]; intros s es s' es' H E; cbn in E.
    - injection E as <- <-. now rewrite app_nil_r.
    - destruct (step s l) as [[s1 e1]|] eqn:E1; [|discriminate].
      destruct (exec s1 ls) as [[s2 e2]|] eqn:E2; [|discriminate]. injection E as <- <-.
      rewrite app_assoc. eapply IH; [|exact E2]. eapply HI; eauto.
  Qed.
  Lemma exec_inv_st : forall (I : St -> Prop),
    (forall s l s' es', I s -> step s l = Some (s', es') -> I s') ->
    forall ls s s' es', I s -> exec s ls = Some (s', es') -> I s'.
  Proof.
    intros I HI ls s s' es' H E.
    exact (exec_inv (fun s _ => I s) (fun s _ l s' es' h e => HI s l s' es' h e) ls s [] s' es' H E).
  Qed.
  (** a measure that every step of a run decreases bounds the length of the run *)
  Lemma exec_measure : forall (I : St -> Prop) (P : Lab -> Prop) (m : St -> nat),
    (forall s l s' es', I s -> P l -> step s l = Some (s', es') -> I s' /\ m s' < m s) ->
    forall ls s s' es', I s -> (forall l, In l ls -> P l) -> exec s ls = Some (s', es') -> length ls + m s' <= m s.
  Proof.
    intros I P m HI. induction ls as [|l ls IH]; intros s s' es' H HP E; cbn in E.
    - injection E as <- <-. cbn. lia.
    - destruct (step s l) as [[s1 e1]|] eqn:E1; [|discriminate].
      destruct (exec s1 ls) as [[s2 e2]|] eqn:E2; [|discriminate]. injection E as <- <-.
      destruct (HI s l s1 e1 H (HP l (or_introl eq_refl)) E1) as (H1 & L).
      specialize (IH s1 s2 e2 H1 (fun x hx => HP x (or_intror hx)) E2). cbn. lia.
  Qed.
End Sched.
Arguments exec {St Lab Ev}.

(** functions updated at a thread *)
Definition fupd {A : Type} (f : nat -> A) (t : nat) (x : A) : nat -> A := fun u => if Nat.eqb u t then x else f u.
Lemma fupd_same {A} (f : nat -> A) t x : fupd f t x t = x.
Proof. unfold fupd. now rewrite Nat.eqb_refl. Qed.
Lemma fupd_other {A} (f : nat -> A) t x u : u <> t -> fupd f t x u = f u.
Proof. intros H. unfold fupd. destruct (Nat.eqb_spec u t); [contradiction|reflexivity]. Qed.
Lemma fupd_eq {A} (f : nat -> A) t x u : fupd f t x u = if Nat.eqb u t then x else f u.
Proof. reflexivity. Qed.

(** sum of [w] over the threads below [n] *)
Fixpoint sumn (w : nat -> nat) (n : nat) : nat := match n with O => O | S k => sumn w k + w k end.
Lemma sumn_ext : forall n w w', (forall k, k < n -> w k = w' k) -> sumn w n = sumn w' n.
Proof. induction n; intros w w' H; cbn; [reflexivity|]. rewrite (IHn w w'), (H n); [reflexivity|lia|]. intros; apply H; lia. Qed.
Lemma sumn_le : forall n w w', (forall k, k < n -> w k <= w' k) -> sumn w n <= sumn w' n.
Proof. induction n; intros w w' H; cbn; [lia|]. assert (w n <= w' n) by (apply H; lia).
  assert (sumn w n <= sumn w' n) by (apply IHn; intros; apply H; lia). lia. Qed.
Lemma sumn_split : forall n w t, t < n -> sumn w n = sumn (fun u => if Nat.eqb u t then 0 else w u) n + w t.
Proof.
  induction n; intros w t H; [lia|]. cbn. destruct (Nat.eqb_spec n t) as [->|N].
  - rewrite (sumn_ext t (fun u => if Nat.eqb u t then 0 else w u) w).
    + lia.
    + intros k Hk. destruct (Nat.eqb_spec k t); [lia|reflexivity].
  - rewrite (IHn w t); [lia|lia].
Qed.
(** only thread [t] changes *)
Lemma sumn_change : forall n w w' t, t < n -> (forall u, u <> t -> w' u = w u) -> sumn w' n + w t = sumn w n + w' t.
Proof.
  intros n w w' t H E. rewrite (sumn_split n w t H), (sumn_split n w' t H).
  rewrite (sumn_ext n (fun u => if Nat.eqb u t then 0 else w' u) (fun u => if Nat.eqb u t then 0 else w u)).
  - lia.
  - intros k _. destruct (Nat.eqb_spec k t); [reflexivity|now apply E].
Qed.
Lemma sumn_bound : forall n w b, (forall k, k < n -> w k <= b) -> sumn w n <= n * b.
Proof. induction n; intros w b H; cbn; [lia|]. assert (w n <= b) by (apply H; lia).
  assert (sumn w n <= n * b) by (apply IHn; intros; apply H; lia). lia. Qed.
