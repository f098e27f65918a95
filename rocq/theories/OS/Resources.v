(** Allocation against an arbitrary platform: the oracle decides, request by request, whether it succeeds. *)
From Coq Require Import List Permutation ZArith Lia Arith.
Import ListNotations.
From Verif Require Import Spec.Resource.

Record rst := mkRs { rs_next : nat; rs_req : nat; rs_tr : list rev }.
Definition rs_init : rst := mkRs 0 0 [].

Section R.
  Variable orc : nat -> bool.          (* answer to the n-th request *)

  Definition acquire (k : kind) (s : rst) : option nat * rst :=
    if orc (rs_req s) then (Some (rs_next s), mkRs (S (rs_next s)) (S (rs_req s)) (rs_tr s ++ [Acq k (rs_next s)]))
    else (None, mkRs (rs_next s) (S (rs_req s)) (rs_tr s)).
  Definition release (k : kind) (id : nat) (s : rst) : rst := mkRs (rs_next s) (rs_req s) (rs_tr s ++ [Rel k id]).
  (** the destroy functions do nothing on a null pointer *)
  Definition release_opt (k : kind) (o : option nat) (s : rst) : rst := match o with Some id => release k id s | None => s end.

  (** the state is proper and holds exactly [L] *)
  Definition holds (s : rst) (L : list res) : Prop := live (rs_tr s) L /\ Forall (fun x => snd x < rs_next s) L.
  Lemma holds_init : holds rs_init [].
  Proof. split; constructor. Qed.
  Lemma holds_acquire k s L : holds s L ->
    match acquire k s with
    | (Some id, s') => holds s' ((k, id) :: L) /\ ~ In id (map snd L)
    | (None, s') => holds s' L
    end.
  Proof.
    intros (H & F). unfold acquire. destruct (orc (rs_req s)); [|split; [exact H|exact F]].
    assert (N : ~ In (rs_next s) (map snd L)).
    { intros X. apply in_map_iff in X. destruct X as (x & E & X). rewrite Forall_forall in F. specialize (F x X). lia. }
    split; [|exact N]. split; cbn.
    - now constructor.
    - constructor; [cbn; lia|]. eapply Forall_impl; [|exact F]. cbn. intros. lia.
  Qed.
  Lemma holds_release k id s L L' : holds s L -> Permutation L ((k, id) :: L') -> (forall blk n, k = KPool blk -> ~ In (KBlock id, n) L') ->
    holds (release k id s) L'.
  Proof.
    intros (H & F) P B. split; cbn; [econstructor; eauto|]. apply (Permutation_Forall P) in F. now inversion F.
  Qed.
End R.
