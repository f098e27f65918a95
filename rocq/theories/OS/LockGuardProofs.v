From Coq Require Import List Arith.
Import ListNotations.
From Verif Require Import Spec.OSError Spec.GuardSpec OS.LockGuardModel.

Lemma bracketed_app a b : bracketed a -> bracketed b -> bracketed (a ++ b).
Proof.
  intros H. induction H; intros B; cbn.
  - exact B.
  - constructor; auto.
  - rewrite <- app_assoc. cbn. apply br_lock; auto.
  - constructor; auto.
  - rewrite <- app_assoc. cbn. apply br_adopt; auto.
Qed.
Theorem guard_bracketed p : forall o, bracketed (fst (fst (prun p o))).
Proof.
  induction p as [a th|p IHp q IHq|m b IH|m b IH|p IHp h IHh]; intros o; cbn [prun].
  - repeat constructor.
  - specialize (IHp o). destruct (prun p o) as [[w1 l1] o1]. cbn in IHp. destruct l1; [|exact IHp].
    specialize (IHq o1). destruct (prun q o1) as [[w2 l2] o2]. cbn in *. now apply bracketed_app.
  - unfold guard_ctor. destruct m as [x|]; cbn [g_mutex].
    + specialize (IH (tl o)). destruct (prun b (tl o)) as [[w1 l1] o1]. cbn in *. unfold guard_dtor. cbn.
      destruct (hd OK o) eqn:E; cbn; try (rewrite app_nil_r; apply br_fail; [discriminate|exact IH]).
      apply br_lock; [exact IH|constructor].
    + specialize (IH o). destruct (prun b o) as [[w1 l1] o1]. cbn in *. now rewrite app_nil_r.
  - unfold guard_adopt. specialize (IH o). destruct (prun b o) as [[w1 l1] o1]. cbn in IH. destruct m as [x|]; cbn.
    + apply br_adopt; [exact IH|constructor].
    + now rewrite app_nil_r.
  - specialize (IHp o). destruct (prun p o) as [[w1 l1] o1]. cbn in IHp. destruct l1; [exact IHp|].
    specialize (IHh o1). destruct (prun h o1) as [[w2 l2] o2]. cbn in *. now apply bracketed_app.
Qed.
Lemma depth_app m a : forall d b, depth_after m d (a ++ b) = match depth_after m d a with None => None | Some d' => depth_after m d' b end.
Proof.
  induction a as [|e a IH]; intros d b; cbn; [reflexivity|]. destruct e as [n [| | | | |]|n|n|x]; try apply IH.
  destruct (Nat.eqb n m); [|apply IH]. destruct d; [reflexivity|apply IH].
Qed.
Lemma bracketed_depth w : bracketed w -> forall m d, depth_after m d w = Some d.
Proof.
  intros H. induction H; intros k d; cbn.
  - reflexivity.
  - apply IHbracketed.
  - rewrite depth_app, IHbracketed1. cbn. destruct (Nat.eqb m k); apply IHbracketed2.
  - destruct e; try apply IHbracketed. now elim H.
  - rewrite depth_app, IHbracketed1. cbn. destruct (Nat.eqb m k); apply IHbracketed2.
Qed.
(** a program as a whole neither keeps nor over-releases a lock, however it ends *)
Theorem guard_balanced p o m d : depth_after m d (fst (fst (prun p o))) = Some d.
Proof. apply bracketed_depth, guard_bracketed. Qed.

(** one guarded scope *)
Theorem guard_scope m b r o : exists w l o',
  prun b o = (w, l, o') /\
  prun (PGuard (Some m) b) (r :: o) = (GLock m r :: w ++ (if err_eqb r OK then [GUnlock m] else []), l, o') /\
  prun (PAdopt (Some m) b) o = (GAdopt m :: w ++ [GUnlock m], l, o') /\
  prun (PGuard None b) o = (w, l, o') /\ prun (PAdopt None b) o = (w, l, o').
Proof.
  cbn. destruct (prun b o) as [[w l] o'] eqn:E. exists w, l, o'. cbn. rewrite app_nil_r.
  split; [reflexivity|]. split; [|tauto]. unfold guard_dtor. cbn. reflexivity.
Qed.
