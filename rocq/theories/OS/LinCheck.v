(** A complete search for linearizations of a given history: if it finds none, the history is not linearizable.  Used to refute. *)
From Coq Require Import List Arith Bool.
Import ListNotations.
From Verif Require Import Spec.Linear.

Section Check.
  Variables C R Sp A : Type.
  Variable sp : Sp -> nat -> C -> R -> Sp -> Prop.
  Variable next : A -> nat -> C -> R -> option A.
  Variable rel : Sp -> A -> Prop.
  Variable T : list nat.
  Notation ev := (event C R).

  Fixpoint ret_of (t : nat) (h : list ev) : option R :=
    match h with
    | [] => None
    | Ret u r :: h' => if Nat.eqb u t then Some r else ret_of t h'
    | _ :: h' => ret_of t h'
    end.
  (** true: there may be a linearization of [h] from here *)
  Fixpoint chk (n : nat) (f : nat -> status C R) (a : A) (h : list ev) : bool :=
    match n with
    | O => true
    | S n' =>
        match h with
        | [] => true
        | e :: h' =>
            match e with
            | Call t c => match f t with Out => chk n' (set_st f t (Pending c)) a h' | _ => false end
            | Ret t r => match f t with Done _ => chk n' (set_st f t Out) a h' | _ => false end
            | Eff _ _ _ => false
            end ||
            existsb (fun t => match f t with
                              | Pending c => match ret_of t h with
                                             | Some r => match next a t c r with Some a' => chk n' (set_st f t (Done r)) a' h | None => false end
                                             | None => true
                                             end
                              | _ => false
                              end) T
        end
    end.

  Hypothesis next_ok : forall s t c r s' a, sp s t c r s' -> rel s a -> exists a', next a t c r = Some a' /\ rel s' a'.

  Lemma ret_of_done : forall f s es f' s', lin_run sp f s es f' s' -> forall t r r', f t = Done r -> ret_of t (history es) = Some r' -> r' = r.
  Proof.
    intros f s es f' s' L. induction L; intros u q q' D X; cbn in X.
    - discriminate.
    - apply (IHL u q q'); [|exact X]. unfold set_st. destruct (Nat.eqb_spec u t) as [->|]; congruence.
    - apply (IHL u q q'); [|exact X]. unfold set_st. destruct (Nat.eqb_spec u t) as [->|]; congruence.
    - destruct (Nat.eqb_spec t u) as [->|]; [congruence|]. apply (IHL u q q'); [|exact X]. unfold set_st. destruct (Nat.eqb_spec u t) as [->|]; congruence.
  Qed.
  Lemma chk_complete : forall f s es f' s', lin_run sp f s es f' s' -> forall n g a,
    rel s a -> (forall t, g t = f t) -> (forall t c, f t = Pending c -> In t T) -> (forall t c, In (Call t c) es -> In t T) ->
    chk n g a (history es) = true.
  Proof.
    intros f s es f' s' L. induction L as [f s|f s t c es f' s' F L IH|f s t c r s1 es f' s' F SP L IH|f s t r es f' s' F L IH]; intros [|n] g a RE G P1 P2; try reflexivity.
    - cbn [history filter visible]. cbn [chk]. rewrite G, F. apply orb_true_iff. left. apply IH; auto.
      + intros u. unfold set_st. destruct (Nat.eqb u t); auto.
      + intros u d. unfold set_st. destruct (Nat.eqb_spec u t) as [->|]; [intros _; apply (P2 t c); now left|apply P1].
      + intros u d H. apply (P2 u d). now right.
    - destruct (next_ok _ _ _ _ _ _ SP RE) as (a' & N & RE'). cbn [history filter visible]. fold (history es). destruct (history es) as [|e h] eqn:EH; [reflexivity|].
      cbn [chk]. apply orb_true_iff. right. apply existsb_exists. exists t. split; [exact (P1 t c F)|]. rewrite G, F.
      destruct (ret_of t (e :: h)) as [r'|] eqn:ER; [|reflexivity].
      assert (r' = r) as ->. { rewrite <- EH in ER. refine (ret_of_done _ _ _ _ _ L t r r' _ ER). unfold set_st. now rewrite Nat.eqb_refl. }
      rewrite N. apply IH; auto.
      + intros u. unfold set_st. destruct (Nat.eqb u t); auto.
      + intros u d. unfold set_st. destruct (Nat.eqb_spec u t) as [->|]; [discriminate|apply P1].
      + intros u d H. apply (P2 u d). now right.
    - cbn [history filter visible]. cbn [chk]. rewrite G, F. apply orb_true_iff. left. apply IH; auto.
      + intros u. unfold set_st. destruct (Nat.eqb u t); auto.
      + intros u d. unfold set_st. destruct (Nat.eqb_spec u t) as [->|]; [discriminate|apply P1].
      + intros u d H. apply (P2 u d). now right.
  Qed.
  Theorem not_linearizable n s0 a0 h : rel s0 a0 -> (forall t c, In (Call t c) h -> In t T) -> chk n (fun _ => Out) a0 h = false -> ~ linearizable sp s0 h.
  Proof.
    intros RE P X (es & f & s & <- & L). rewrite (chk_complete _ _ _ _ _ L n (fun _ => Out) a0) in X; [discriminate|exact RE|reflexivity|discriminate|].
    intros t c H. apply (P t c). unfold history. apply filter_In. auto.
  Qed.
End Check.
Arguments chk {C R A}. Arguments not_linearizable {C R Sp A}.
