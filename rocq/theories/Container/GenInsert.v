(** Correctness of the insertion algorithms, generically in the geometry.  The programs [g_...] below are the text
    shared by FixedVector.h:353-377, 390-421 and FixedDeque.h:578-603, 650-680 (end side), and
    FixedDeque.h:607-632, 683-713 (begin side); the model files contain them inline. *)
From Verif Require Import Base.ZList Container.Mem Container.Triple Container.Rep Container.Loops.

Ltac bcase :=
  repeat match goal with
  | |- context [Z.leb ?a ?b] => destruct (Z.leb_spec a b)
  | |- context [Z.ltb ?a ?b] => destruct (Z.ltb_spec a b)
  | |- context [Z.eqb ?a ?b] => destruct (Z.eqb_spec a b)
  end; cbn [andb negb orb].

Section GenInsert.
  Context {V : Type}.
  Variable B cap : Z.
  Variable ph : Z -> Z.
  Variable okab : Z -> Prop.
  Variable fwd bwd : Z -> Z -> Z.
  Variable torn dflt : V.
  Hypothesis G : geo B cap ph okab fwd bwd.
  Variable fuel : nat.
  Hypothesis Hfuel : cap <= Z.of_nat fuel.
  Variable getend getbegin : M V Z.
  Hypothesis Hgetend : forall s, getend s = Ok (me s) s.
  Hypothesis Hgetbegin : forall s, getbegin s = Ok (mb s) s.
  Variable inc dec : M V unit.

  Notation Rep := (@Rep V B cap ph okab).
  Notation Exc := (@Exc V B cap ph okab).
  Notation rd := (@rd V B).
  Notation ctor := (@ctor V B).
  Notation ctor_default := (@ctor_default V B dflt).
  Notation asg := (@asg V B torn).
  Notation deref := (@deref V B).

  Let Hcap := g_cap _ _ _ _ _ _ G.
  Let Hfwd := g_fwd _ _ _ _ _ _ G.
  Let Hbwd := g_bwd _ _ _ _ _ _ G.
  Let Heq := g_eq _ _ _ _ _ _ G.

  (** X inserted before p, elements from p on moved up by n *)
  Definition insF (F : Z -> V) (p n : Z) (X : Z -> V) : Z -> V :=
    fun a => if a <? p then F a else if a <? p + n then X (a - p) else F (a - n).
  (** X inserted before p, elements before p moved down by n *)
  Definition insFd (F : Z -> V) (p n : Z) (X : Z -> V) : Z -> V :=
    fun a => if p <=? a then F a else if p - n <=? a then X (a - (p - n)) else F (a + n).

  Definition g_insert_n_end (pos n num n1 old_end : Z) (data : ref V) : M V unit :=
    if n <? num then
      loop fuel (fun i => ret (i <? n))
                 (fun i => e <- getend ;; ctor_default e ;;; inc ;;; ret (i + 1)) 0 ;;;
      loop fuel (fun it => ret (negb (it =? bwd pos 1)))
                 (fun it => x <- rd it ;; asg (fwd it n) x ;;; ret (bwd it 1)) (bwd old_end 1) ;;;
      loop fuel (fun it => ret (negb (it =? fwd pos n)))
                 (fun it => x <- deref data ;; asg it x ;;; ret (fwd it 1)) pos ;;; ret tt
    else
      loop fuel (fun i => ret (i <? n1))
                 (fun i => e <- getend ;; x <- deref data ;; ctor e x ;;; inc ;;; ret (i + 1)) 0 ;;;
      loop fuel (fun it => ret (negb (it =? fwd pos num)))
                 (fun it => e <- getend ;; x <- rd it ;; ctor e x ;;; inc ;;; ret (fwd it 1)) pos ;;;
      loop fuel (fun it => ret (negb (it =? old_end)))
                 (fun it => x <- deref data ;; asg it x ;;; ret (fwd it 1)) pos ;;; ret tt.

  (** default-construct n elements at the back *)
  Lemma loop_default_back nf s lo hi F n :
    0 <= n -> hi + n - lo <= cap -> Rep nf s lo hi F -> inc_ok cap ph inc lo ->
    runs (loop fuel (fun i => ret (i <? n))
               (fun i => e <- getend ;; ctor_default e ;;; inc ;;; ret (i + 1)) 0) s
      (fun _ s' => Rep nf s' lo (hi + n) (fun a => if a <? hi then F a else dflt)) (Exc nf).
  Proof.
    intros Hn Hfit R Hinc. pose proof (R_len _ _ _ _ _ _ _ _ _ R) as Hl.
    eapply runs_weaken.
    - apply (loop_ctor_back B cap ph okab fwd bwd G fuel (fun k => k) (fun i => ret (i <? n)) getend
               (fun _ => ret dflt) inc (fun i => i + 1) (fun _ => dflt) nf s lo hi F n 0); auto.
      lia.
    - cbn beta. intros a s' [_ R']. exact R'.
    - auto.
  Qed.

  Lemma gen_insert_n_end nf s lo hi F p n data v :
    inc_ok cap ph inc lo ->
    Rep nf s lo hi F -> lo <= p <= hi -> 0 <= n <= cap - (hi - lo) ->
    (data = RVal v \/ exists i, lo <= i < hi /\ data = RSlot (ph i) /\ v = (if p + n <=? i then F (i - n) else F i)) ->
    runs (g_insert_n_end (ph p) n (hi - p) (n - (hi - p)) (ph hi) data) s
      (fun _ s' => Rep nf s' lo (hi + n) (insF F p n (fun _ => v))) (Exc nf).
  Proof.
    intros Hinc R Hp Hn Hr. pose proof (R_len _ _ _ _ _ _ _ _ _ R) as Hl.
    unfold g_insert_n_end. destruct (Z.ltb_spec n (hi - p)) as [Hlt|Hge].
    - eapply runs_bind; [eapply loop_default_back; eauto; lia|]. cbn beta. intros _ s1 R1.
      rewrite (Hbwd hi) by lia.
      eapply runs_bind.
      { eapply (loop_shift_up B cap ph okab fwd bwd torn G fuel _ nf s1 lo (hi + n) _ p hi n); eauto; try lia.
        intros s' a F' _ Ha. unfold ret. rewrite Hbwd by lia. rewrite Heq by lia. reflexivity. }
      cbn beta. intros _ s2 R2.
      eapply runs_bind.
      { eapply (loop_fill B cap ph okab fwd bwd torn G fuel _ (fun _ => True) data v nf s2 lo (hi + n) _ p (p + n));
          eauto; try lia.
        - destruct Hr as [-> | (i & Hi & -> & Hv)]; [now left|]. right. exists i. repeat split; try lia.
          cbn beta. rewrite Hv. bcase; try reflexivity; lia.
        - intros s' a F' _ Ha. unfold ret. rewrite Hfwd by lia. rewrite Heq by lia. reflexivity. }
      cbn beta. intros _ s3 R3. apply runs_ret.
      eapply Rep_ext; [exact R3|]. cbn beta. unfold insF. intros a Ha.
      bcase; try reflexivity; try lia.
    - eapply runs_bind.
      { eapply (loop_ctor_back B cap ph okab fwd bwd G fuel (fun k => k) (fun i => ret (i <? n - (hi - p))) getend
               (fun _ => deref data) inc (fun i => i + 1) (fun _ => v) nf s lo hi F (n - (hi - p)) 0); auto; try lia.
        intros k s' F' Hk R' HF'.
        assert (Hr' : refok ph (fun _ => True) lo (hi + k) F' data v).
        { destruct Hr as [-> | (i & Hi & -> & Hv)]; [now left|]. right. exists i. repeat split; try lia.
          rewrite Hv, HF' by lia. bcase; [lia|reflexivity]. }
        pose proof (runs_deref B cap ph okab (g_cap _ _ _ _ _ _ G) (g_range _ _ _ _ _ _ G) nf s' lo (hi + k) F' _ data v
          ret (fun a t => a = v /\ t = s') (fun _ _ => False) R' Hr' (conj eq_refl eq_refl)) as H.
        unfold runs, bind in H. destruct (deref data s'); cbn in H; try contradiction.
        destruct H as [-> ->]. reflexivity. }
      cbn beta. intros _ s1 [_ R1].
      eapply runs_bind.
      { eapply (loop_ctor_back B cap ph okab fwd bwd G fuel (fun k => ph (p + k))
                 (fun it => ret (negb (it =? fwd (ph p) (hi - p)))) getend
                 (fun it => rd it) inc (fun it => fwd it 1) (fun k => F (p + k)) nf s1 lo
                 (hi + (n - (hi - p))) _ (hi - p) (ph p)); eauto; try lia.
        - f_equal; lia.
        - intros k Hk. rewrite Hfwd by lia. f_equal; lia.
        - intros k s' Hk. unfold ret. rewrite Hfwd by lia. rewrite Heq by lia. f_equal.
          bcase; try reflexivity; lia.
        - intros k s' F' Hk R' HF'.
          rewrite (Rep_rd B cap ph okab (g_cap _ _ _ _ _ _ G) (g_range _ _ _ _ _ _ G) nf s' lo _ F' (p + k) R') by lia.
          f_equal. rewrite HF' by lia. bcase; try reflexivity; lia. }
      cbn beta. intros _ s2 [_ R2].
      eapply runs_bind.
      { eapply (loop_fill B cap ph okab fwd bwd torn G fuel _ (fun _ => True) data v nf s2 lo _ _ p hi);
          eauto; try lia.
        - destruct Hr as [-> | (i & Hi & -> & Hv)]; [now left|]. right. exists i. repeat split; try lia.
          cbn beta. rewrite Hv. bcase; try reflexivity; lia.
        - intros s' a F' _ Ha. unfold ret. rewrite Heq by lia. reflexivity. }
      cbn beta. intros _ s3 R3. apply runs_ret.
      replace (hi + (n - (hi - p)) + (hi - p)) with (hi + n) in R3 by lia.
      eapply Rep_ext; [exact R3|]. cbn beta. unfold insF. intros a Ha.
      bcase; try reflexivity; try lia. f_equal; lia.
  Qed.

  (** ** insert_range, end side *)
  Definition g_insert_range_end (pos n num n1 old_end : Z) (xs : list V) : M V unit :=
    if n <? num then
      loop fuel (fun i => ret (i <? n))
                 (fun i => e <- getend ;; ctor_default e ;;; inc ;;; ret (i + 1)) 0 ;;;
      loop fuel (fun it => ret (negb (it =? bwd pos 1)))
                 (fun it => x <- rd it ;; asg (fwd it n) x ;;; ret (bwd it 1)) (bwd old_end 1) ;;;
      loop fuel (fun pf => ret (negb (snd pf =? lenz xs)))
                 (fun pf => x <- rdin xs (snd pf) ;; asg (fst pf) x ;;; ret (fwd (fst pf) 1, snd pf + 1)) (pos, 0) ;;;
      ret tt
    else
      im <- loop fuel (fun im => ret (fst im <? num))
                 (fun im => ret (fst im + 1, snd im + 1)) (0, 0) ;;
      loop fuel (fun im => ret (fst im <? n1))
                 (fun im => e <- getend ;; x <- rdin xs (snd im) ;; ctor e x ;;;
                            inc ;;; ret (fst im + 1, snd im + 1)) (0, snd im) ;;;
      loop fuel (fun it => ret (negb (it =? fwd pos num)))
                 (fun it => e <- getend ;; x <- rd it ;; ctor e x ;;; inc ;;; ret (fwd it 1)) pos ;;;
      loop fuel (fun pf => ret (negb (fst pf =? old_end)))
                 (fun pf => x <- rdin xs (snd pf) ;; asg (fst pf) x ;;; ret (fwd (fst pf) 1, snd pf + 1)) (pos, 0) ;;;
      ret tt.

  Lemma loop_advance s n E :
    0 <= n <= Z.of_nat fuel ->
    runs (loop fuel (fun im : Z * Z => ret (fst im <? n)) (fun im => ret (fst im + 1, snd im + 1)) (0, 0)) s
      (fun (im : Z * Z) (s' : st V) => snd im = n /\ s' = s) E.
  Proof.
    intros Hn. eapply runs_weaken with (Q := fun (im : Z * Z) s' => im = (n, n) /\ s' = s);
      [|intros a s' [-> ->]; split; reflexivity|exact (fun e s' H => H)].
    apply (loop_rule (fun k im s' => im = (k, k) /\ s' = s)); try lia.
    - split; reflexivity.
    - intros k a s0 Hk [-> ->]. cbn [fst snd]. split; [|apply runs_ret; split; reflexivity].
      unfold ret. bcase; [reflexivity|lia].
    - intros a s0 [-> ->]. cbn [fst]. unfold ret. bcase; [lia|reflexivity].
  Qed.

  Lemma rdin_ok (xs : list V) i (s : st V) : 0 <= i < lenz xs -> rdin xs i s = Ok (nthz dflt xs i) s.
  Proof.
    intros Hi. unfold rdin. destruct (Z.ltb_spec i 0); [lia|]. now rewrite (nth_error_nthz dflt) by lia.
  Qed.

  Lemma gen_insert_range_end nf s lo hi F p n xs :
    inc_ok cap ph inc lo ->
    Rep nf s lo hi F -> lo <= p <= hi -> 0 <= n <= cap - (hi - lo) -> n = lenz xs ->
    runs (g_insert_range_end (ph p) n (hi - p) (n - (hi - p)) (ph hi) xs) s
      (fun _ s' => Rep nf s' lo (hi + n) (insF F p n (nthz dflt xs))) (Exc nf).
  Proof.
    intros Hinc R Hp Hn Hxs. pose proof (R_len _ _ _ _ _ _ _ _ _ R) as Hl.
    unfold g_insert_range_end. destruct (Z.ltb_spec n (hi - p)) as [Hlt|Hge].
    - eapply runs_bind; [eapply loop_default_back; eauto; lia|]. cbn beta. intros _ s1 R1.
      rewrite (Hbwd hi) by lia.
      eapply runs_bind.
      { eapply (loop_shift_up B cap ph okab fwd bwd torn G fuel _ nf s1 lo (hi + n) _ p hi n); eauto; try lia.
        intros s' a F' _ Ha. unfold ret. rewrite Hbwd by lia. rewrite Heq by lia. reflexivity. }
      cbn beta. intros _ s2 R2.
      eapply runs_bind.
      { eapply (loop_fill_range B cap ph okab fwd bwd torn dflt G fuel _ xs 0 nf s2 lo (hi + n) _ p (p + n));
          eauto; try lia.
        intros s' k F' _ Hk. unfold ret. cbn [fst snd]. f_equal. bcase; try reflexivity; lia. }
      cbn beta. intros _ s3 R3. apply runs_ret.
      eapply Rep_ext; [exact R3|]. cbn beta. unfold insF. intros a Ha.
      bcase; try reflexivity; try lia.
    - eapply runs_bind; [apply loop_advance; lia|]. cbn beta. intros im s0 [Him ->].
      eapply runs_bind.
      { eapply (loop_ctor_back B cap ph okab fwd bwd G fuel (fun k => (k, hi - p + k))
               (fun im => ret (fst im <? n - (hi - p))) getend
               (fun im => rdin xs (snd im)) inc (fun im => (fst im + 1, snd im + 1))
               (fun k => nthz dflt xs (hi - p + k)) nf s lo hi F (n - (hi - p)) (0, snd im)); auto; try lia.
        - f_equal. lia.
        - intros k Hk. cbn [fst snd]. f_equal. lia.
        - intros k s' F' Hk R' HF'. cbn [snd]. apply rdin_ok. lia. }
      cbn beta. intros _ s1 [_ R1].
      eapply runs_bind.
      { eapply (loop_ctor_back B cap ph okab fwd bwd G fuel (fun k => ph (p + k))
                 (fun it => ret (negb (it =? fwd (ph p) (hi - p)))) getend
                 (fun it => rd it) inc (fun it => fwd it 1) (fun k => F (p + k)) nf s1 lo
                 (hi + (n - (hi - p))) _ (hi - p) (ph p)); eauto; try lia.
        - f_equal; lia.
        - intros k Hk. rewrite Hfwd by lia. f_equal; lia.
        - intros k s' Hk. unfold ret. rewrite Hfwd by lia. rewrite Heq by lia. f_equal.
          bcase; try reflexivity; lia.
        - intros k s' F' Hk R' HF'.
          rewrite (Rep_rd B cap ph okab (g_cap _ _ _ _ _ _ G) (g_range _ _ _ _ _ _ G) nf s' lo _ F' (p + k) R') by lia.
          f_equal. rewrite HF' by lia. bcase; try reflexivity; lia. }
      cbn beta. intros _ s2 [_ R2].
      eapply runs_bind.
      { eapply (loop_fill_range B cap ph okab fwd bwd torn dflt G fuel _ xs 0 nf s2 lo _ _ p hi);
          eauto; try lia.
        intros s' k F' _ Hk. unfold ret. cbn [fst snd]. rewrite Heq by lia. f_equal. bcase; try reflexivity; lia. }
      cbn beta. intros _ s3 R3. apply runs_ret.
      replace (hi + (n - (hi - p)) + (hi - p)) with (hi + n) in R3 by lia.
      eapply Rep_ext; [exact R3|]. cbn beta. unfold insF. intros a Ha.
      bcase; try reflexivity; try lia; f_equal; lia.
  Qed.

  (** ** begin side (deque only) *)
  Definition g_insert_n_begin (pos n num n1 old_begin : Z) (data : ref V) : M V unit :=
    if n <? num then
      loop fuel (fun i => ret (i <? n))
                 (fun i => b <- getbegin ;; ctor_default (bwd b 1) ;;; dec ;;; ret (i + 1)) 0 ;;;
      loop fuel (fun it => ret (negb (it =? pos)))
                 (fun it => x <- rd it ;; asg (bwd it n) x ;;; ret (fwd it 1)) old_begin ;;;
      loop fuel (fun it => ret (negb (it =? pos)))
                 (fun it => x <- deref data ;; asg it x ;;; ret (fwd it 1)) (bwd pos n) ;;; ret tt
    else
      loop fuel (fun i => ret (i <? n1))
                 (fun i => b <- getbegin ;; x <- deref data ;; ctor (bwd b 1) x ;;; dec ;;; ret (i + 1)) 0 ;;;
      loop fuel (fun it => ret (negb (it =? bwd old_begin 1)))
                 (fun it => b <- getbegin ;; x <- rd it ;; ctor (bwd b 1) x ;;; dec ;;; ret (bwd it 1))
                 (bwd pos 1) ;;;
      loop fuel (fun it => ret (negb (it =? pos)))
                 (fun it => x <- deref data ;; asg it x ;;; ret (fwd it 1)) old_begin ;;; ret tt.

  Hypothesis Hring : (forall lo, okab lo) /\ (forall a, ph a = ph (a + B)) /\ cap < B.

  Lemma loop_default_front nf s lo hi F n :
    0 <= n -> hi + n - lo <= cap -> Rep nf s lo hi F -> dec_ok ph dec ->
    runs (loop fuel (fun i => ret (i <? n))
               (fun i => b <- getbegin ;; ctor_default (bwd b 1) ;;; dec ;;; ret (i + 1)) 0) s
      (fun _ s' => Rep nf s' (lo - n) hi (fun a => if lo <=? a then F a else dflt)) (Exc nf).
  Proof.
    intros Hn Hfit R Hdec. pose proof (R_len _ _ _ _ _ _ _ _ _ R) as Hl. destruct Hring as (Ho & Hper & HB).
    eapply runs_weaken.
    - apply (loop_ctor_front B cap ph okab fwd bwd G fuel (fun k => k) (fun i => ret (i <? n)) getbegin
               (fun _ => ret dflt) dec (fun i => i + 1) (fun _ => dflt) nf s lo hi F n 0); auto.
      lia.
    - cbn beta. intros a s' [_ R']. exact R'.
    - auto.
  Qed.

  Lemma deref_ok nf s lo hi F P r v :
    Rep nf s lo hi F -> refok ph P lo hi F r v -> deref r s = Ok v s.
  Proof.
    intros R Hr.
    pose proof (runs_deref B cap ph okab (g_cap _ _ _ _ _ _ G) (g_range _ _ _ _ _ _ G) nf s lo hi F _ r v
      ret (fun a t => a = v /\ t = s) (fun _ _ => False) R Hr (conj eq_refl eq_refl)) as H.
    unfold runs, bind in H. destruct (deref r s); cbn in H; try contradiction.
    destruct H as [-> ->]. reflexivity.
  Qed.

  Lemma gen_insert_n_begin nf s lo hi F p n data v :
    dec_ok ph dec ->
    Rep nf s lo hi F -> lo <= p <= hi -> 0 <= n <= cap - (hi - lo) ->
    (data = RVal v \/ exists i, lo <= i < hi /\ data = RSlot (ph i) /\ v = (if i <? p - n then F (i + n) else F i)) ->
    runs (g_insert_n_begin (ph p) n (p - lo) (n - (p - lo)) (ph lo) data) s
      (fun _ s' => Rep nf s' (lo - n) hi (insFd F p n (fun _ => v))) (Exc nf).
  Proof.
    intros Hdec R Hp Hn Hr. pose proof (R_len _ _ _ _ _ _ _ _ _ R) as Hl. destruct Hring as (Ho & Hper & HB).
    unfold g_insert_n_begin. destruct (Z.ltb_spec n (p - lo)) as [Hlt|Hge].
    - eapply runs_bind; [eapply loop_default_front; eauto; lia|]. cbn beta. intros _ s1 R1.
      eapply runs_bind.
      { eapply (loop_shift_down B cap ph okab fwd bwd torn G fuel _ nf s1 (lo - n) hi _ lo p n); eauto; try lia.
        intros s' a F' _ Ha. unfold ret. rewrite Heq by lia. reflexivity. }
      cbn beta. intros _ s2 R2. rewrite (Hbwd p n) by lia.
      eapply runs_bind.
      { eapply (loop_fill B cap ph okab fwd bwd torn G fuel _ (fun _ => True) data v nf s2 (lo - n) hi _ (p - n) p);
          eauto; try lia.
        - destruct Hr as [-> | (i & Hi & -> & Hv)]; [now left|]. right. exists i. repeat split; try lia.
          cbn beta. rewrite Hv. bcase; try reflexivity; lia.
        - intros s' a F' _ Ha. unfold ret. rewrite Heq by lia. reflexivity. }
      cbn beta. intros _ s3 R3. apply runs_ret.
      eapply Rep_ext; [exact R3|]. cbn beta. unfold insFd. intros a Ha.
      bcase; try reflexivity; try lia.
    - eapply runs_bind.
      { eapply (loop_ctor_front B cap ph okab fwd bwd G fuel (fun k => k) (fun i => ret (i <? n - (p - lo))) getbegin
               (fun _ => deref data) dec (fun i => i + 1) (fun _ => v) nf s lo hi F (n - (p - lo)) 0); auto; try lia.
        intros k s' F' Hk R' HF'.
        eapply (deref_ok _ _ _ _ _ (fun _ => True)); [exact R'|].
        destruct Hr as [-> | (i & Hi & -> & Hv)]; [now left|]. right. exists i. repeat split; try lia.
        rewrite Hv, HF' by lia. bcase; [lia|reflexivity]. }
      cbn beta. intros _ s1 [_ R1]. rewrite (Hbwd p 1) by lia.
      eapply runs_bind.
      { eapply (loop_ctor_front B cap ph okab fwd bwd G fuel (fun k => ph (p - 1 - k))
                 (fun it => ret (negb (it =? bwd (ph lo) 1))) getbegin
                 (fun it => rd it) dec (fun it => bwd it 1) (fun k => F (p - 1 - k)) nf s1
                 (lo - (n - (p - lo))) hi _ (p - lo) (ph (p - 1))); eauto; try lia.
        - f_equal; lia.
        - intros k Hk. rewrite Hbwd by lia. f_equal; lia.
        - intros k s' Hk. unfold ret. rewrite Hbwd by lia. rewrite Heq by lia. f_equal.
          bcase; try reflexivity; lia.
        - intros k s' F' Hk R' HF'.
          rewrite (Rep_rd B cap ph okab (g_cap _ _ _ _ _ _ G) (g_range _ _ _ _ _ _ G) nf s' _ _ F' (p - 1 - k) R') by lia.
          f_equal. rewrite HF' by lia. bcase; try reflexivity; lia. }
      cbn beta. intros _ s2 [_ R2].
      eapply runs_bind.
      { eapply (loop_fill B cap ph okab fwd bwd torn G fuel _ (fun _ => True) data v nf s2 _ hi _ lo p);
          eauto; try lia.
        - destruct Hr as [-> | (i & Hi & -> & Hv)]; [now left|]. right. exists i. repeat split; try lia.
          cbn beta. rewrite Hv. bcase; try reflexivity; lia.
        - intros s' a F' _ Ha. unfold ret. rewrite Heq by lia. reflexivity. }
      cbn beta. intros _ s3 R3. apply runs_ret.
      replace (lo - (n - (p - lo)) - (p - lo)) with (lo - n) in R3 by lia.
      eapply Rep_ext; [exact R3|]. cbn beta. unfold insFd. intros a Ha.
      bcase; try reflexivity; try lia. f_equal; lia.
  Qed.

  Definition g_insert_range_begin (pos n num n1 old_begin : Z) (xs : list V) : M V unit :=
    if n <? num then
      loop fuel (fun i => ret (i <? n))
                 (fun i => b <- getbegin ;; ctor_default (bwd b 1) ;;; dec ;;; ret (i + 1)) 0 ;;;
      loop fuel (fun it => ret (negb (it =? pos)))
                 (fun it => x <- rd it ;; asg (bwd it n) x ;;; ret (fwd it 1)) old_begin ;;;
      loop fuel (fun pf => ret (negb (fst pf =? pos)))
                 (fun pf => x <- rdin xs (snd pf) ;; asg (fst pf) x ;;; ret (fwd (fst pf) 1, snd pf + 1))
                 (bwd pos n, 0) ;;;
      ret tt
    else
      im <- loop fuel (fun im => ret (fst im <? n1))
                 (fun im => ret (fst im + 1, snd im + 1)) (0, 0) ;;
      let mid := snd im in
      loop fuel (fun ip => ret (fst ip <? n1))
                 (fun ip => b <- getbegin ;; let p := snd ip - 1 in x <- rdin xs p ;; ctor (bwd b 1) x ;;;
                            dec ;;; ret (fst ip + 1, p)) (0, mid) ;;;
      loop fuel (fun it => ret (negb (it =? bwd old_begin 1)))
                 (fun it => b <- getbegin ;; x <- rd it ;; ctor (bwd b 1) x ;;; dec ;;; ret (bwd it 1))
                 (bwd pos 1) ;;;
      loop fuel (fun pf => ret (negb (fst pf =? pos)))
                 (fun pf => x <- rdin xs (snd pf) ;; asg (fst pf) x ;;; ret (fwd (fst pf) 1, snd pf + 1))
                 (old_begin, mid) ;;;
      ret tt.

  Lemma gen_insert_range_begin nf s lo hi F p n xs :
    dec_ok ph dec ->
    Rep nf s lo hi F -> lo <= p <= hi -> 0 <= n <= cap - (hi - lo) -> n = lenz xs ->
    runs (g_insert_range_begin (ph p) n (p - lo) (n - (p - lo)) (ph lo) xs) s
      (fun _ s' => Rep nf s' (lo - n) hi (insFd F p n (nthz dflt xs))) (Exc nf).
  Proof.
    intros Hdec R Hp Hn Hxs. pose proof (R_len _ _ _ _ _ _ _ _ _ R) as Hl. destruct Hring as (Ho & Hper & HB).
    unfold g_insert_range_begin. destruct (Z.ltb_spec n (p - lo)) as [Hlt|Hge].
    - eapply runs_bind; [eapply loop_default_front; eauto; lia|]. cbn beta. intros _ s1 R1.
      eapply runs_bind.
      { eapply (loop_shift_down B cap ph okab fwd bwd torn G fuel _ nf s1 (lo - n) hi _ lo p n); eauto; try lia.
        intros s' a F' _ Ha. unfold ret. rewrite Heq by lia. reflexivity. }
      cbn beta. intros _ s2 R2. rewrite (Hbwd p n) by lia.
      eapply runs_bind.
      { eapply (loop_fill_range B cap ph okab fwd bwd torn dflt G fuel _ xs 0 nf s2 (lo - n) hi _ (p - n) p);
          eauto; try lia.
        intros s' k F' _ Hk. unfold ret. cbn [fst snd]. rewrite Heq by lia. f_equal. bcase; try reflexivity; lia. }
      cbn beta. intros _ s3 R3. apply runs_ret.
      eapply Rep_ext; [exact R3|]. cbn beta. unfold insFd. intros a Ha.
      bcase; try reflexivity; try lia.
    - eapply runs_bind; [apply loop_advance; lia|]. cbn beta zeta. intros im s0 [Him ->].
      eapply runs_bind.
      { eapply (loop_ctor_front B cap ph okab fwd bwd G fuel (fun k => (k, n - (p - lo) - k))
               (fun ip => ret (fst ip <? n - (p - lo))) getbegin
               (fun ip => rdin xs (snd ip - 1)) dec (fun ip => (fst ip + 1, snd ip - 1))
               (fun k => nthz dflt xs (n - (p - lo) - 1 - k)) nf s lo hi F (n - (p - lo)) (0, snd im)); auto; try lia.
        - f_equal. lia.
        - intros k Hk. cbn [fst snd]. f_equal. lia.
        - intros k s' F' Hk R' HF'. cbn [snd]. rewrite rdin_ok by lia. do 2 f_equal. lia. }
      cbn beta. intros _ s1 [_ R1]. rewrite (Hbwd p 1) by lia.
      eapply runs_bind.
      { eapply (loop_ctor_front B cap ph okab fwd bwd G fuel (fun k => ph (p - 1 - k))
                 (fun it => ret (negb (it =? bwd (ph lo) 1))) getbegin
                 (fun it => rd it) dec (fun it => bwd it 1) (fun k => F (p - 1 - k)) nf s1
                 (lo - (n - (p - lo))) hi _ (p - lo) (ph (p - 1))); eauto; try lia.
        - f_equal; lia.
        - intros k Hk. rewrite Hbwd by lia. f_equal; lia.
        - intros k s' Hk. unfold ret. rewrite Hbwd by lia. rewrite Heq by lia. f_equal.
          bcase; try reflexivity; lia.
        - intros k s' F' Hk R' HF'.
          rewrite (Rep_rd B cap ph okab (g_cap _ _ _ _ _ _ G) (g_range _ _ _ _ _ _ G) nf s' _ _ F' (p - 1 - k) R') by lia.
          f_equal. rewrite HF' by lia. bcase; try reflexivity; lia. }
      cbn beta. intros _ s2 [_ R2].
      eapply runs_bind.
      { eapply (loop_fill_range B cap ph okab fwd bwd torn dflt G fuel _ xs (snd im) nf s2 _ hi _ lo p);
          eauto; try lia.
        intros s' k F' _ Hk. unfold ret. cbn [fst snd]. rewrite Heq by lia. f_equal. bcase; try reflexivity; lia. }
      cbn beta. intros _ s3 R3. apply runs_ret.
      replace (lo - (n - (p - lo)) - (p - lo)) with (lo - n) in R3 by lia.
      eapply Rep_ext; [exact R3|]. cbn beta. unfold insFd. intros a Ha.
      bcase; try reflexivity; try lia; f_equal; lia.
  Qed.
End GenInsert.
