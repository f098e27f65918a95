(** Program logic for Container.Mem: [runs m s Q E] says m terminates from s without undefined behaviour and
    without a failed assertion, satisfying Q on normal return and E on an exception. *)
From Verif Require Import Base.ZList Container.Mem.

Section T.
  Context {V : Type}.
  Definition runs {A} (m : M V A) (s : st V) (Q : A -> st V -> Prop) (E : exn -> st V -> Prop) : Prop :=
    match m s with
    | Ok a s' => Q a s'
    | Thr e s' => E e s'
    | _ => False
    end.

  Lemma runs_ret {A} (a : A) s (Q : A -> st V -> Prop) E : Q a s -> runs (ret a) s Q E.
  Proof. exact (fun H => H). Qed.
  Lemma runs_throw {A} e s (Q : A -> st V -> Prop) (E : exn -> st V -> Prop) : E e s -> runs (throw e) s Q E.
  Proof. exact (fun H => H). Qed.
  Lemma runs_bind {A C} (m : M V A) (k : A -> M V C) s Q E R :
    runs m s R E -> (forall a s', R a s' -> runs (k a) s' Q E) -> runs (bind m k) s Q E.
  Proof.
    unfold runs, bind. intros Hm Hk. destruct (m s) as [a s'|e s'|s'| |]; try contradiction.
    - exact (Hk a s' Hm).
    - exact Hm.
  Qed.
  Lemma runs_bind_ok {A C} (m : M V A) (k : A -> M V C) s a s' Q E :
    m s = Ok a s' -> runs (k a) s' Q E -> runs (bind m k) s Q E.
  Proof. unfold runs, bind. intros -> H; exact H. Qed.
  Lemma runs_weaken {A} (m : M V A) s (Q Q' : A -> st V -> Prop) (E E' : exn -> st V -> Prop) :
    runs m s Q E -> (forall a s', Q a s' -> Q' a s') -> (forall e s', E e s' -> E' e s') -> runs m s Q' E'.
  Proof. unfold runs; destruct (m s); auto. Qed.
  Lemma runs_assoc {A C D} (m : M V A) (k : A -> M V C) (h : C -> M V D) s Q E :
    runs (bind m (fun a => bind (k a) h)) s Q E -> runs (bind (bind m k) h) s Q E.
  Proof. unfold runs, bind. destruct (m s); auto. Qed.
  Lemma runs_get_me {C} (k : Z -> M V C) s Q E : runs (k (me s)) s Q E -> runs (bind get_me k) s Q E.
  Proof. exact (fun H => H). Qed.
  Lemma runs_get_mb {C} (k : Z -> M V C) s Q E : runs (k (mb s)) s Q E -> runs (bind get_mb k) s Q E.
  Proof. exact (fun H => H). Qed.
  Lemma runs_dassert {C} dbg b (k : unit -> M V C) s Q E :
    (dbg = true -> b = true) -> runs (k tt) s Q E -> runs (bind (dassert dbg b) k) s Q E.
  Proof.
    intros Hb H. unfold runs, bind, dassert. destruct dbg; [|exact H]. rewrite (Hb eq_refl). exact H.
  Qed.

  Lemma loop_rule {A} (I : Z -> A -> st V -> Prop) E (cond : A -> M V bool) (body : A -> M V A) n :
    forall fuel a s,
    0 <= n -> n <= Z.of_nat fuel -> I 0 a s ->
    (forall k a s, 0 <= k < n -> I k a s ->
       cond a s = Ok true s /\ runs (body a) s (fun a' s' => I (k + 1) a' s') E) ->
    (forall a s, I n a s -> cond a s = Ok false s) ->
    runs (loop fuel cond body a) s (fun a' s' => I n a' s') E.
  Proof.
    intros fuel a s Hn Hf Ha Hstep Hend.
    assert (G : forall f k a s, 0 <= k <= n -> n - k <= Z.of_nat f -> I k a s ->
              runs (loop f cond body a) s (fun a' s' => I n a' s') E).
    { clear fuel a s Hf Ha. induction f as [|f IH]; intros k a s Hk Hf Hi.
      - assert (k = n) by lia; subst k. cbn [loop].
        eapply runs_bind_ok; [apply Hend, Hi|]. exact Hi.
      - cbn [loop]. destruct (Z.eq_dec k n) as [->|Hne].
        + eapply runs_bind_ok; [apply Hend, Hi|]. exact Hi.
        + destruct (Hstep k a s ltac:(lia) Hi) as [Hc Hb].
          eapply runs_bind_ok; [exact Hc|]. cbn iota.
          eapply runs_bind; [exact Hb|]. intros a' s' Hi'. apply (IH (k + 1)); [lia|lia|exact Hi']. }
    apply (G fuel 0); [lia|lia|exact Ha].
  Qed.
End T.
