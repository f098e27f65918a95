(** Proofs about the Mutex model. *)
From Coq Require Import List ZArith Bool Lia Arith.
Import ListNotations.
From Verif Require Import Spec.OSError Spec.Linear Spec.MutexSpec OS.Sched OS.MutexModel.
Open Scope Z_scope.

(** [holds] as a left fold *)
Definition hstep (t : nat) (x : option mcall * nat) (e : event mcall err) : option mcall * nat :=
  match e with
  | Call u c => if Nat.eqb u t then (Some c, if is_lock c then snd x else (snd x - 1)%nat) else x
  | Ret u r => if Nat.eqb u t then (None, match fst x, r with Some c, OK => if is_lock c then S (snd x) else snd x | _, _ => snd x end) else x
  | Eff _ _ _ => x
  end.
Definition hfold (t : nat) (h : list (event mcall err)) := fold_left (hstep t) h (None, 0%nat).
Lemma holds_fold t h : holds t h = snd (hfold t h).
Proof.
  unfold holds, hfold. generalize (@None mcall). generalize 0%nat. induction h as [|e h IH]; intros d cur; [reflexivity|].
  cbn [holds_from fold_left]. destruct e as [u c|u c r|u r]; cbn [hstep fst snd].
  - destruct (Nat.eqb u t); apply IH.
  - apply IH.
  - destruct (Nat.eqb u t); [|apply IH]. destruct cur as [c|]; [|apply IH]. destruct r; apply IH.
Qed.
Lemma hfold_snoc t h e : hfold t (h ++ [e]) = hstep t (hfold t h) e.
Proof. unfold hfold. now rewrite fold_left_app. Qed.
Lemma hfold_history t h : hfold t (history h) = hfold t h.
Proof.
  unfold hfold. generalize (@None mcall, 0%nat). induction h as [|e h IH]; intros x; [reflexivity|].
  destruct e as [u c|u c r|u r]; cbn [history filter visible fold_left]; apply IH.
Qed.
Lemma history_app {C R} (a b : list (event C R)) : history (a ++ b) = history a ++ history b.
Proof. apply filter_app. Qed.
Lemma disciplined_prefix a b : disciplined (a ++ b) -> disciplined a.
Proof. intros H h1 t h2 E. apply (H h1 t (h2 ++ b)). rewrite E, <- app_assoc. reflexivity. Qed.

Section Proofs.
  Variable M : nat.
  Hypothesis HM : (1 <= M)%nat /\ Z.of_nat M < 2 ^ 64.
  Notation stp := (m_step M).
  Notation spec := (mspec M).

  Definition own (o : option (nat * nat)) (t : nat) : nat := match o with Some (u, n) => if Nat.eqb u t then n else 0%nat | None => 0%nat end.
  Definition needs_own (q : mpc) : bool := match q with MInc | UCheck | UDec | URel => true | _ => false end.
  Definition adj (q : mpc) : Z := match q with MInc | URel => 1 | _ => 0 end.
  (** what the thread holds beyond what it knows *)
  Definition extra (q : mpc) (cur : option mcall) : nat :=
    match q with
    | MInc | UCheck | UDec | URel => 1%nat
    | MRet OK => match cur with Some c => if is_lock c then 1%nat else 0%nat | None => 0%nat end
    | _ => 0%nat
    end.
  Definition cur_ok (q : mpc) (cur : option mcall) : Prop :=
    match q with
    | MIdle => cur = None
    | MAcq c => cur = Some c /\ is_lock c = true
    | MInc => exists c, cur = Some c /\ is_lock c = true
    | UCheck | UDec | URel => cur = Some MUnlock
    | MRet _ => exists c, cur = Some c
    end.
  Definition st_ok (q : mpc) (cur : option mcall) (x : status mcall err) : Prop :=
    match q with
    | MIdle => x = Out
    | MAcq c => x = Pending c
    | MInc => x = Done OK
    | UCheck | UDec | URel => x = Pending MUnlock
    | MRet r => x = Done r
    end.

  Record minv (s : mst) (es : list (event mcall err)) : Prop := {
    mi_ub : x_ub s = false;
    mi_count : x_count s = match x_owner s with None => 0 | Some (t, n) => Z.of_nat n - adj (x_thr s t) end;
    mi_depth : forall t n, x_owner s = Some (t, n) -> (1 <= n <= M)%nat;
    mi_own : forall t, needs_own (x_thr s t) = true -> (0 < own (x_owner s) t)%nat;
    mi_cur : forall t, cur_ok (x_thr s t) (fst (hfold t es));
    mi_holds : forall t, own (x_owner s) t = (snd (hfold t es) + extra (x_thr s t) (fst (hfold t es)))%nat;
    mi_lin : exists f, lin_run spec (fun _ => Out) None es f (x_owner s) /\ forall t, st_ok (x_thr s t) (fst (hfold t es)) (f t)
  }.

  Lemma minv_init : minv m_init [].
  Proof.
    constructor; cbn; try reflexivity; try discriminate.
    exists (fun _ => Out). split; [constructor|reflexivity].
  Qed.

  Lemma own_some o t : (0 < own o t)%nat -> exists n, o = Some (t, n) /\ own o t = n.
  Proof. destruct o as [[u n]|]; cbn; [|lia]. destruct (Nat.eqb_spec u t) as [->|]; [|lia]. eauto. Qed.

  Lemma lin_eff es f p t c r p' : lin_run spec (fun _ => Out) None es f p -> f t = Pending c -> spec p t c r p' ->
    lin_run spec (fun _ => Out) None (es ++ [Eff t c r]) (set_st f t (Done r)) p'.
  Proof. intros H F S. eapply lin_run_app; [exact H|]. eapply lr_eff; [exact F|exact S|]. constructor. Qed.
  Lemma lin_call es f p t c : lin_run spec (fun _ => Out) None es f p -> f t = Out ->
    lin_run spec (fun _ => Out) None (es ++ [Call t c]) (set_st f t (Pending c)) p.
  Proof. intros H F. eapply lin_run_app; [exact H|]. eapply lr_call; [exact F|]. constructor. Qed.
  Lemma lin_ret es f p t r : lin_run spec (fun _ => Out) None es f p -> f t = Done r ->
    lin_run spec (fun _ => Out) None (es ++ [Ret t r]) (set_st f t Out) p.
  Proof. intros H F. eapply lin_run_app; [exact H|]. eapply lr_ret; [exact F|]. constructor. Qed.

  Lemma hfold_nil t es : hfold t (es ++ []) = hfold t es.
  Proof. now rewrite app_nil_r. Qed.
  Lemma hfold_other t u es e : u <> t -> (match e with Call v _ | Ret v _ | Eff v _ _ => v end) = t -> hfold u (es ++ [e]) = hfold u es.
  Proof. intros N E. rewrite hfold_snoc. destruct e; cbn in *; subst; try reflexivity; destruct (Nat.eqb_spec t u); congruence. Qed.

  Lemma count_other s q t u n : x_owner s = Some (u, n) -> u <> t -> adj (fupd (x_thr s) t q u) = adj (x_thr s u).
  Proof. intros _ N. now rewrite fupd_other. Qed.

  Lemma not_owner_pc s es t : minv s es -> own (x_owner s) t = 0%nat -> needs_own (x_thr s t) = false.
  Proof. intros H E. destruct (needs_own (x_thr s t)) eqn:X; [|reflexivity]. apply (mi_own _ _ H) in X. lia. Qed.

  Ltac fin := cbn; try reflexivity; try assumption; try discriminate; try lia; try congruence.

  (** a step in which only the position of thread [t] changes, perhaps with an event *)
  Lemma go_inv s es t q e :
    minv s es ->
    adj q = adj (x_thr s t) -> needs_own q = false \/ needs_own (x_thr s t) = true \/ (0 < own (x_owner s) t)%nat ->
    cur_ok q (fst (hfold t (es ++ e))) ->
    (snd (hfold t (es ++ e)) + extra q (fst (hfold t (es ++ e))) = snd (hfold t es) + extra (x_thr s t) (fst (hfold t es)))%nat ->
    (forall u, u <> t -> hfold u (es ++ e) = hfold u es) ->
    (exists f, lin_run spec (fun _ => Out) None (es ++ e) f (x_owner s) /\ st_ok q (fst (hfold t (es ++ e))) (f t) /\
               forall u, u <> t -> st_ok (x_thr s u) (fst (hfold u es)) (f u)) ->
    minv (m_go s t q) (es ++ e).
  Proof.
    intros I A B C D E (f & L & Ft & Fu). constructor; cbn [m_go x_owner x_count x_ub x_thr].
    - apply I.
    - rewrite (mi_count _ _ I). destruct (x_owner s) as [[u n]|]; [|reflexivity]. rewrite fupd_eq. destruct (Nat.eqb_spec u t) as [->|]; congruence.
    - apply I.
    - intros u. rewrite fupd_eq. destruct (Nat.eqb_spec u t) as [->|N]; [|apply I].
      destruct B as [B|[B|B]]; [congruence|intros _; now apply I|intros _; exact B].
    - intros u. rewrite fupd_eq. destruct (Nat.eqb_spec u t) as [->|N]; [exact C|]. rewrite E by assumption. apply I.
    - intros u. rewrite fupd_eq. destruct (Nat.eqb_spec u t) as [->|N]; [rewrite D; apply I|]. rewrite E by assumption. apply I.
    - exists f. split; [exact L|]. intros u. rewrite fupd_eq. destruct (Nat.eqb_spec u t) as [->|N]; [exact Ft|]. rewrite E by assumption. now apply Fu.
  Qed.
  Lemma lin_same s es : minv s es -> exists f, lin_run spec (fun _ => Out) None (es ++ []) f (x_owner s) /\ forall t, st_ok (x_thr s t) (fst (hfold t es)) (f t).
  Proof. intros I. destruct (mi_lin _ _ I) as (f & L & F). exists f. now rewrite app_nil_r. Qed.

  Lemma go_eff s es t c r q :
    minv s es -> x_thr s t = MAcq c \/ x_thr s t = UCheck /\ c = MUnlock -> q = MRet r -> r <> OK -> 
    extra (x_thr s t) (fst (hfold t es)) = 0%nat ->
    spec (x_owner s) t c r (x_owner s) -> minv (m_go s t q) (es ++ [Eff t c r]).
  Proof.
    intros I Q -> NR EX S. destruct (mi_lin _ _ I) as (f & L & F). pose proof (F t) as Ft. pose proof (mi_cur _ _ I t) as Ct.
    apply go_inv; [exact I| |now left| | | |].
    - destruct Q as [-> | (-> & _)]; reflexivity.
    - rewrite hfold_snoc. cbn [hstep cur_ok]. destruct Q as [Q|(Q & _)]; rewrite Q in Ct; cbn in Ct; [destruct Ct as (Ct & _)|]; eauto.
    - rewrite hfold_snoc, EX. cbn [hstep]. destruct r; cbn; try lia. now elim NR.
    - intros u N. now apply hfold_other with (t := t).
    - exists (set_st f t (Done r)). split; [|split].
      + apply lin_eff with (p := x_owner s); [exact L| |exact S]. destruct Q as [Q|(Q & ->)]; rewrite Q in Ft; exact Ft.
      + cbn. unfold set_st. now rewrite Nat.eqb_refl.
      + intros u N. unfold set_st. destruct (Nat.eqb_spec u t); [congruence|]. apply F.
  Qed.

  (** acquisition: the owner becomes [t] at depth [n+1] *)
  Lemma acquire_inv s es t c n : minv s es -> x_thr s t = MAcq c ->
    (x_owner s = None /\ n = 0%nat \/ x_owner s = Some (t, n)) -> (n < M)%nat ->
    minv (mkM (Some (t, S n)) (x_count s) (x_ub s) (fupd (x_thr s) t MInc)) (es ++ [Eff t c OK]).
  Proof.
    intros I Q O LT. pose proof (mi_cur _ _ I t) as Ct. rewrite Q in Ct. destruct Ct as (Ct & Lc).
    pose proof (mi_holds _ _ I t) as Ht. rewrite Q in Ht. cbn [extra] in Ht.
    assert (On : own (x_owner s) t = n) by (destruct O as [(-> & ->)| ->]; cbn; rewrite ?Nat.eqb_refl; reflexivity).
    assert (OU : forall u, u <> t -> own (x_owner s) u = 0%nat).
    { intros u N. destruct O as [(-> & _)| ->]; cbn; [reflexivity|]. destruct (Nat.eqb_spec t u); congruence. }
    constructor; cbn [x_owner x_count x_ub x_thr].
    - apply I.
    - rewrite fupd_same. rewrite (mi_count _ _ I). destruct O as [(-> & ->)| ->]; cbn [adj]; [lia|]. rewrite Q. cbn [adj]. lia.
    - intros u m X. injection X as <- <-. lia.
    - intros u. rewrite fupd_eq. cbn [own]. destruct (Nat.eqb_spec u t) as [->|N]; [rewrite Nat.eqb_refl; lia|].
      intros X. apply (mi_own _ _ I) in X. rewrite OU in X by assumption. lia.
    - intros u. rewrite fupd_eq, hfold_snoc. cbn [hstep]. destruct (Nat.eqb_spec u t) as [->|N]; [|apply I]. cbn. eauto.
    - intros u. rewrite fupd_eq, hfold_snoc. cbn [hstep own]. destruct (Nat.eqb_spec u t) as [->|N].
      + rewrite Nat.eqb_refl. cbn [extra]. lia.
      + rewrite <- (mi_holds _ _ I u), OU by assumption. destruct (Nat.eqb_spec t u); congruence.
    - destruct (mi_lin _ _ I) as (f & L & F). exists (set_st f t (Done OK)). split.
      + apply lin_eff with (p := x_owner s); [exact L|specialize (F t); rewrite Q in F; exact F|]. unfold mspec. rewrite Lc.
        destruct O as [(-> & ->)| ->]; [left|right; exists n]; auto.
      + intros u. unfold set_st. rewrite fupd_eq, hfold_snoc. cbn [hstep]. destruct (Nat.eqb_spec u t) as [->|N]; [reflexivity|apply F].
  Qed.

  Lemma minv_step s es l s' es' : minv s es -> disciplined (history (es ++ es')) -> stp s l = Some (s', es') -> minv s' (es ++ es').
  Proof.
    intros I DI E. destruct l as [t c|t|t|t]; cbn [m_step] in E.
    - (* call *)
      destruct (x_thr s t) eqn:Q; try discriminate. injection E as <- <-.
      destruct (mi_lin _ _ I) as (f & L & F). pose proof (F t) as Ft. rewrite Q in Ft. cbn in Ft.
      pose proof (mi_holds _ _ I t) as Ht. rewrite Q in Ht. cbn [extra] in Ht.
      assert (HU : c = MUnlock -> (0 < snd (hfold t es))%nat).
      { intros ->. rewrite <- (hfold_history t es), <- holds_fold. apply (DI (history es) t []). now rewrite history_app. }
      apply go_inv; [exact I| | | | | |].
      + rewrite Q. now destruct c.
      + destruct c; cbn; [now left|now left|now left|]. right. right. specialize (HU eq_refl). lia.
      + rewrite hfold_snoc. cbn [hstep]. rewrite Nat.eqb_refl. destruct c; cbn; auto.
      + rewrite hfold_snoc. cbn [hstep]. rewrite Nat.eqb_refl, Q. cbn [fst snd extra]. destruct c; cbn [is_lock extra]; try lia.
        specialize (HU eq_refl). lia.
      + intros u N. now apply hfold_other with (t := t).
      + exists (set_st f t (Pending c)). split; [now apply lin_call|]. split.
        * unfold set_st. rewrite Nat.eqb_refl. destruct c; reflexivity.
        * intros u N. unfold set_st. destruct (Nat.eqb_spec u t); [congruence|apply F].
    - pose proof (mi_cur _ _ I t) as Ct. destruct (x_thr s t) as [|c| | | | |r] eqn:Q; try discriminate.
      + (* acquire *)
        cbn in Ct. destruct Ct as (Ct & Lc).
        destruct (x_owner s) as [[u n]|] eqn:O.
        * destruct (Nat.eqb_spec u t) as [->|N]; [|discriminate]. destruct (Nat.ltb_spec n M).
          -- injection E as <- <-. apply acquire_inv with (n := n); auto.
          -- destruct (waits_forever c) eqn:WF; injection E as <- <-.
             ++ apply go_eff; [exact I|now left|reflexivity|discriminate|now rewrite Q|]. unfold mspec. rewrite Lc. reflexivity.
             ++ apply go_eff; [exact I|now left|reflexivity|discriminate|now rewrite Q|]. unfold mspec. rewrite Lc, O. split; [|split].
                ** destruct c; cbn in *; try tauto; try discriminate. intros ->. discriminate.
                ** reflexivity.
                ** exists t, n. split; [reflexivity|]. right. pose proof (mi_depth _ _ I t n O). lia.
        * injection E as <- <-. apply (acquire_inv s es t c 0); auto. lia.
      + (* increment *)
        injection E as <- <-. destruct (own_some (x_owner s) t) as (n & O & _); [apply (mi_own _ _ I); now rewrite Q|].
        destruct Ct as (c & Ct & Lc). destruct (lin_same s es I) as (f & L & F).
        pose proof (mi_depth _ _ I t n O) as Dn.
        constructor; cbn [x_owner x_count x_ub x_thr].
        * apply I.
        * rewrite (mi_count _ _ I), O, Q, fupd_same. cbn [adj]. unfold sz. rewrite Z.mod_small; [lia|].
          pose proof HM as [_ HB]. assert (Z.of_nat n <= Z.of_nat M) by (apply inj_le; lia). lia.
        * apply I.
        * intros u. rewrite fupd_eq. destruct (Nat.eqb_spec u t) as [->|N]; [discriminate|apply I].
        * intros u. rewrite fupd_eq, hfold_nil. destruct (Nat.eqb_spec u t) as [->|N]; [|apply I]. cbn. eauto.
        * intros u. rewrite fupd_eq, hfold_nil. destruct (Nat.eqb_spec u t) as [->|N]; [|apply I].
          rewrite (mi_holds _ _ I t), Q, Ct. cbn. now rewrite Lc.
        * exists f. split; [exact L|]. intros u. rewrite fupd_eq, hfold_nil. destruct (Nat.eqb_spec u t) as [->|N]; [|apply F].
          specialize (F t). rewrite Q in F. exact F.
      + (* check *)
        destruct (own_some (x_owner s) t) as (n & O & _); [apply (mi_own _ _ I); now rewrite Q|].
        pose proof (mi_depth _ _ I t n O) as Dn. pose proof (mi_count _ _ I) as Cn. rewrite O, Q in Cn. cbn [adj] in Cn.
        destruct (Z.eqb_spec (x_count s) 0); [lia|]. injection E as <- <-.
        destruct (lin_same s es I) as (f & L & F).
        apply go_inv; [exact I|now rewrite Q|right; left; now rewrite Q| | | |].
        * rewrite hfold_nil. exact Ct.
        * now rewrite hfold_nil, Q.
        * intros u N. apply hfold_nil.
        * exists f. split; [exact L|]. split; [specialize (F t); now rewrite Q in F|intros u N; apply F].
      + (* decrement *)
        injection E as <- <-. destruct (own_some (x_owner s) t) as (n & O & _); [apply (mi_own _ _ I); now rewrite Q|].
        destruct (lin_same s es I) as (f & L & F). pose proof (mi_depth _ _ I t n O) as Dn.
        constructor; cbn [x_owner x_count x_ub x_thr].
        * apply I.
        * rewrite (mi_count _ _ I), O, Q, fupd_same. cbn [adj]. unfold sz. rewrite Z.mod_small; [lia|].
          pose proof HM as [_ HB]. assert (Z.of_nat n <= Z.of_nat M) by (apply inj_le; lia). lia.
        * apply I.
        * intros u. rewrite fupd_eq. destruct (Nat.eqb_spec u t) as [->|N]; [intros _; apply (mi_own _ _ I); now rewrite Q|apply I].
        * intros u. rewrite fupd_eq, hfold_nil. destruct (Nat.eqb_spec u t) as [->|N]; [exact Ct|apply I].
        * intros u. rewrite fupd_eq, hfold_nil. destruct (Nat.eqb_spec u t) as [->|N]; [|apply I].
          rewrite (mi_holds _ _ I t), Q. reflexivity.
        * exists f. split; [exact L|]. intros u. rewrite fupd_eq, hfold_nil. destruct (Nat.eqb_spec u t) as [->|N]; [|apply F].
          specialize (F t). rewrite Q in F. exact F.
      + (* release *)
        destruct (own_some (x_owner s) t) as (n & O & _); [apply (mi_own _ _ I); now rewrite Q|]. rewrite O, Nat.eqb_refl in E. injection E as <- <-.
        pose proof (mi_depth _ _ I t n O) as Dn. pose proof (mi_count _ _ I) as Cn. rewrite O, Q in Cn. cbn [adj] in Cn.
        pose proof (mi_holds _ _ I t) as Ht. rewrite Q, O in Ht. cbn [own extra] in Ht. rewrite Nat.eqb_refl in Ht. cbn in Ct.
        destruct (mi_lin _ _ I) as (f & L & F). pose proof (F t) as Ft. rewrite Q in Ft. cbn in Ft.
        assert (OU : forall u, u <> t -> own (x_owner s) u = 0%nat) by (intros u N; rewrite O; cbn; destruct (Nat.eqb_spec t u); congruence).
        set (o' := if Nat.eqb n 1 then None else Some (t, (n - 1)%nat)).
        assert (Ot : own o' t = (n - 1)%nat) by (subst o'; destruct (Nat.eqb_spec n 1) as [->|]; cbn; [reflexivity|now rewrite Nat.eqb_refl]).
        assert (OU' : forall u, u <> t -> own o' u = 0%nat).
        { intros u N. subst o'. destruct (Nat.eqb n 1); cbn; [reflexivity|]. destruct (Nat.eqb_spec t u); congruence. }
        constructor; cbn [x_owner x_count x_ub x_thr].
        * apply I.
        * rewrite Cn. subst o'. destruct (Nat.eqb_spec n 1) as [->|]; [reflexivity|]. rewrite fupd_same. cbn [adj]. lia.
        * intros u m X. subst o'. destruct (Nat.eqb_spec n 1); [discriminate|]. injection X as <- <-. lia.
        * intros u. rewrite fupd_eq. destruct (Nat.eqb_spec u t) as [->|N]; [discriminate|]. intros X. apply (mi_own _ _ I) in X. rewrite OU in X by assumption. lia.
        * intros u. rewrite fupd_eq, hfold_snoc. cbn [hstep]. destruct (Nat.eqb_spec u t) as [->|N]; [|apply I]. cbn. eauto.
        * intros u. rewrite fupd_eq, hfold_snoc. cbn [hstep]. destruct (Nat.eqb_spec u t) as [->|N].
          -- rewrite Ot, Ct. cbn. lia.
          -- rewrite <- (mi_holds _ _ I u), OU, OU' by assumption. reflexivity.
        * exists (set_st f t (Done OK)). split.
          -- apply lin_eff with (p := x_owner s); [exact L|exact Ft|]. unfold mspec. cbn [is_lock]. rewrite O, Nat.eqb_refl. split; reflexivity.
          -- intros u. unfold set_st. rewrite fupd_eq, hfold_snoc. cbn [hstep]. destruct (Nat.eqb_spec u t) as [->|N]; [reflexivity|apply F].
      + (* return *)
        injection E as <- <-. destruct (mi_lin _ _ I) as (f & L & F). pose proof (F t) as Ft. rewrite Q in Ft. cbn in Ft. destruct Ct as (c & Ct).
        apply go_inv; [exact I|now rewrite Q|now left| | | |].
        * rewrite hfold_snoc. cbn. rewrite Nat.eqb_refl. reflexivity.
        * rewrite hfold_snoc. cbn [hstep]. rewrite Nat.eqb_refl, Q, Ct. cbn [fst snd extra]. destruct r; cbn; try lia. destruct (is_lock c); lia.
        * intros u N. now apply hfold_other with (t := t).
        * exists (set_st f t Out). split; [now apply lin_ret|]. split.
          -- cbn. unfold set_st. now rewrite Nat.eqb_refl.
          -- intros u N. unfold set_st. destruct (Nat.eqb_spec u t); [congruence|apply F].
    - (* time-out *)
      pose proof (mi_cur _ _ I t) as Ct. destruct (x_thr s t) as [|c| | | | |r] eqn:Q; try discriminate. destruct Ct as (Ct & Lc).
      destruct (x_owner s) as [[u n]|] eqn:O; [|discriminate].
      destruct (waits_forever c) eqn:WF; [discriminate|]. cbn [orb] in E. destruct (Nat.eqb_spec u t) as [|N]; [discriminate|]. injection E as <- <-.
      apply go_eff; [exact I|now left|reflexivity|discriminate|now rewrite Q|]. unfold mspec. rewrite Lc, O. split; [|split].
      + destruct c; cbn in *; try tauto; try discriminate. intros ->. discriminate.
      + reflexivity.
      + exists u, n. split; [reflexivity|]. now left.
    - (* throw *)
      pose proof (mi_cur _ _ I t) as Ct. destruct (x_thr s t) as [|c| | | | |r] eqn:Q; try discriminate. destruct Ct as (Ct & Lc). injection E as <- <-.
      apply go_eff; [exact I|now left|reflexivity|discriminate|now rewrite Q|]. unfold mspec. rewrite Lc. reflexivity.
  Qed.

  Lemma minv_reach ls s es : exec stp m_init ls = Some (s, es) -> disciplined (history es) -> minv s es.
  Proof.
    intros E. pose proof (exec_inv _ _ _ stp (fun s es => disciplined (history es) -> minv s es)) as X.
    specialize (X ltac:(intros s0 es0 l s1 es1 IH ST DI; apply (minv_step s0 es0 l s1 es1);
      [apply IH; rewrite history_app in DI; exact (disciplined_prefix _ _ DI)|exact DI|exact ST])).
    exact (X ls m_init [] s es (fun _ => minv_init) E).
  Qed.

  Theorem mutex_linearizable ls s es : exec stp m_init ls = Some (s, es) -> disciplined (history es) ->
    linearizable spec None (history es) /\ x_ub s = false.
  Proof.
    intros E D. pose proof (minv_reach ls s es E D) as I. destruct (mi_lin _ _ I) as (f & L & _).
    split; [exists es, f, (x_owner s); split; [reflexivity|exact L]|apply I].
  Qed.
  Theorem mutex_exclusive ls s es t u : exec stp m_init ls = Some (s, es) -> disciplined (history es) ->
    (0 < holds t (history es))%nat -> (0 < holds u (history es))%nat -> t = u.
  Proof.
    intros E D. pose proof (minv_reach ls s es E D) as I. rewrite !holds_fold, !hfold_history.
    pose proof (mi_holds _ _ I t). pose proof (mi_holds _ _ I u). intros A B.
    destruct (own_some (x_owner s) t) as (n & X & _); [lia|]. destruct (own_some (x_owner s) u) as (m & Y & _); [lia|]. congruence.
  Qed.
  Theorem mutex_depth ls s es : exec stp m_init ls = Some (s, es) -> disciplined (history es) -> (forall t, m_idle s t) ->
    (x_owner s = None <-> forall t, holds t (history es) = 0%nat) /\
    forall t n, x_owner s = Some (t, n) -> holds t (history es) = n /\ (1 <= n)%nat.
  Proof.
    intros E D ID. pose proof (minv_reach ls s es E D) as I.
    assert (H : forall t, own (x_owner s) t = holds t (history es)).
    { intros t. rewrite holds_fold, hfold_history, (mi_holds _ _ I t), (ID t). cbn. lia. }
    split; [split|].
    - intros O t. rewrite <- H, O. reflexivity.
    - intros Z0. destruct (x_owner s) as [[t n]|] eqn:O; [|reflexivity]. specialize (H t). rewrite Z0 in H. cbn in H. rewrite Nat.eqb_refl in H.
      pose proof (mi_depth _ _ I t n O). lia.
    - intros t n O. rewrite <- H, O. cbn. rewrite Nat.eqb_refl. split; [reflexivity|]. pose proof (mi_depth _ _ I t n O). lia.
  Qed.
  (** a free mutex *)
  Theorem mutex_unlock_free ls s es t : exec stp m_init ls = Some (s, es) -> disciplined (history es) -> (forall u, m_idle s u) ->
    (forall u, holds u (history es) = 0%nat) ->
    exists s', exec stp s [MCall t MUnlock; MStep t; MStep t] = Some (s', [Call t MUnlock; Eff t MUnlock NotLocked; Ret t NotLocked]) /\
      x_owner s' = None /\ x_count s' = x_count s /\ x_ub s' = false /\ forall u, m_idle s' u.
  Proof.
    intros E D ID HZ. pose proof (minv_reach ls s es E D) as I. destruct (mutex_depth ls s es E D ID) as ((_ & O) & _). specialize (O HZ).
    pose proof (mi_count _ _ I) as C. rewrite O in C.
    eexists. split.
    - cbn [exec m_step]. rewrite (ID t). cbn [is_lock]. cbn [m_go x_thr x_owner x_count x_ub]. rewrite fupd_same, C. cbn. rewrite fupd_same. cbn. reflexivity.
    - cbn. split; [exact O|]. split; [reflexivity|]. split; [apply I|]. intros u. unfold m_idle. cbn. rewrite !fupd_eq.
      destruct (Nat.eqb u t); [reflexivity|apply ID].
  Qed.

  (** blocking *)
  Definition m_running (s : mst) (t : nat) : option mcall := match x_thr s t with MAcq c => Some c | _ => None end.
  Theorem mutex_blocked ls s es : exec stp m_init ls = Some (s, es) ->
    (forall t, stp s (MStep t) = None) ->
    forall t, m_idle s t \/ exists c u n, m_running s t = Some c /\ x_owner s = Some (u, n) /\ u <> t /\ m_idle s u.
  Proof.
    intros _ ST.
    assert (G : forall t, m_idle s t \/ exists c u n, m_running s t = Some c /\ x_owner s = Some (u, n) /\ u <> t).
    { intros t. specialize (ST t). unfold m_idle, m_running. cbn [m_step] in ST. destruct (x_thr s t) as [|c| | | | |r]; try discriminate.
      - now left.
      - right. destruct (x_owner s) as [[u n]|]; [|discriminate]. destruct (Nat.eqb_spec u t) as [|N]; [|eauto 6].
        destruct (Nat.ltb n M); [discriminate|]. destruct (waits_forever c); discriminate.
      - destruct (x_count s =? 0); discriminate.
      - destruct (x_owner s) as [[u n]|]; [|discriminate]. destruct (Nat.eqb u t); discriminate. }
    intros t. destruct (G t) as [|(c & u & n & A & B & N)]; [now left|right]. exists c, u, n. repeat split; try assumption.
    destruct (G u) as [|(c' & u' & n' & A' & B' & N')]; [assumption|]. congruence.
  Qed.
  Definition mw (q : mpc) : nat := match q with MIdle => 0 | MRet _ => 1 | MInc | URel => 2 | MAcq _ | UDec => 3 | UCheck => 4 end%nat.
  Theorem mutex_calls_end n s ls s' es : (forall t, (n <= t)%nat -> m_idle s t) -> (forall l, In l ls -> m_own_step l) ->
    exec stp s ls = Some (s', es) -> (length ls <= 4 * n)%nat.
  Proof.
    clear HM.
    intros ID OL E.
    pose proof (exec_measure _ _ _ stp (fun s => forall t, (n <= t)%nat -> m_idle s t) m_own_step (fun s => sumn (fun t => mw (x_thr s t)) n)) as X.
    assert (ST : forall s l s' es', (forall t, (n <= t)%nat -> m_idle s t) -> m_own_step l -> stp s l = Some (s', es') ->
              (forall t, (n <= t)%nat -> m_idle s' t) /\ (sumn (fun t => mw (x_thr s' t)) n < sumn (fun t => mw (x_thr s t)) n)%nat).
    { clear. intros s l s' es' ID OL E.
      assert (U : forall t q, x_thr s t <> MIdle -> (mw q < mw (x_thr s t))%nat -> x_thr s' = fupd (x_thr s) t q ->
         (forall u, (n <= u)%nat -> m_idle s' u) /\ (sumn (fun u => mw (x_thr s' u)) n < sumn (fun u => mw (x_thr s u)) n)%nat).
      { intros t q N L X. assert (Lt : (t < n)%nat). { destruct (le_lt_dec n t) as [G|]; [|assumption]. elim N. now apply ID. }
        unfold m_idle. rewrite X. split.
        - intros u Gu. rewrite fupd_other by lia. now apply ID.
        - pose proof (sumn_change n (fun u => mw (x_thr s u)) (fun u => mw (fupd (x_thr s) t q u)) t Lt) as Y. cbn beta in Y.
          rewrite fupd_same in Y. specialize (Y ltac:(intros u Nu; now rewrite fupd_other)). lia. }
      destruct l as [t c|t|t|t]; [contradiction| | |]; cbn [m_step] in E; destruct (x_thr s t) as [|c| | | | |r] eqn:Q; try discriminate.
      - destruct (x_owner s) as [[u m]|]; [destruct (Nat.eqb u t); [|discriminate]; destruct (Nat.ltb m M); [|destruct (waits_forever c)]|]; injection E as <- <-;
          (eapply U; [rewrite Q; discriminate| |reflexivity]; rewrite Q; cbn; lia).
      - injection E as <- <-. eapply U; [rewrite Q; discriminate| |reflexivity]; rewrite Q; cbn; lia.
      - destruct (x_count s =? 0); injection E as <- <-; (eapply U; [rewrite Q; discriminate| |reflexivity]; rewrite Q; cbn; lia).
      - injection E as <- <-. eapply U; [rewrite Q; discriminate| |reflexivity]; rewrite Q; cbn; lia.
      - destruct (x_owner s) as [[u m]|]; [destruct (Nat.eqb u t)|]; injection E as <- <-;
          (eapply U; [rewrite Q; discriminate| |reflexivity]; rewrite Q; cbn; lia).
      - injection E as <- <-. eapply U; [rewrite Q; discriminate| |reflexivity]; rewrite Q; cbn; lia.
      - destruct (x_owner s) as [[u m]|]; [|discriminate]. destruct (waits_forever c || Nat.eqb u t); [discriminate|]. injection E as <- <-.
        eapply U; [rewrite Q; discriminate| |reflexivity]; rewrite Q; cbn; lia.
      - injection E as <- <-. eapply U; [rewrite Q; discriminate| |reflexivity]; rewrite Q; cbn; lia. }
    specialize (X ST ls s s' es ID OL E). cbn beta in X.
    assert (B : (sumn (fun t => mw (x_thr s t)) n <= n * 4)%nat) by (apply sumn_bound; intros k _; destruct (x_thr s k); cbn; lia). lia.
  Qed.
End Proofs.

(** C31 is false: thread 0 locks, thread 1 unlocks and is told OK; thread 0 can no longer unlock, and nobody else can lock *)
Definition bad_schedule : list mlab :=
  [MCall 0 MLock; MStep 0; MStep 0; MStep 0; MCall 1 MUnlock; MStep 1; MStep 1; MStep 1; MStep 1; MCall 0 MUnlock; MStep 0; MStep 0].
(** in the specification, a thread that never locks is never told OK by unlock *)
Lemma never_locked M t es : forall f0 s0 f s, lin_run (mspec M) f0 s0 es f s ->
  (forall n, s0 <> Some (t, n)) -> f0 t <> Done OK -> (forall c, f0 t = Pending c -> is_lock c = false) ->
  (forall c, In (Call t c) es -> is_lock c = false) -> ~ In (Ret t OK) es.
Proof.
  induction es as [|e es IH]; intros f0 s0 f s L NO ND NP NC H; [destruct H|]. inversion L; subst.
  - destruct H as [H|H]; [discriminate|]. revert H. eapply IH; [eassumption|exact NO| | |intros; apply NC; now right].
    + unfold set_st. destruct (Nat.eqb t t0); [discriminate|exact ND].
    + unfold set_st. intros d. destruct (Nat.eqb_spec t t0) as [->|]; [|apply NP]. intros X. injection X as <-. apply NC. now left.
  - destruct H as [H|H]; [discriminate|]. revert H. eapply IH; [eassumption| | | |intros; apply NC; now right].
    + intros n X. match goal with h : mspec _ _ _ _ _ _ |- _ => unfold mspec in h; rename h into S end. match type of X with ?v = _ => subst v end.
      destruct (is_lock c) eqn:LC.
      * destruct r; try contradiction.
        -- destruct S as [(-> & S)|(k & -> & _ & S)]; injection S as -> _; rewrite (NP c) in LC by assumption; discriminate.
        -- destruct S as (_ & <- & _). now apply (NO n).
        -- subst s0. now apply (NO n).
      * destruct s0 as [[u k]|]; [|destruct S; discriminate]. destruct (Nat.eqb_spec u t0) as [->|].
        -- destruct S as (_ & S). destruct (Nat.eqb k 1); [discriminate|]. injection S as -> _. now apply (NO k).
        -- destruct S as (_ & S). injection S as <- <-. now apply (NO n).
    + unfold set_st. destruct (Nat.eqb_spec t t0) as [->|]; [|exact ND]. intros X. injection X as ->.
      match goal with h : mspec _ _ _ _ _ _ |- _ => unfold mspec in h; rename h into S end.
      rewrite (NP c) in S by assumption. destruct s0 as [[u k]|]; [|destruct S; discriminate]. destruct (Nat.eqb_spec u t0) as [->|].
      * now apply (NO k).
      * destruct S; discriminate.
    + unfold set_st. intros d. destruct (Nat.eqb_spec t t0) as [->|]; [discriminate|apply NP].
  - destruct H as [H|H]; [injection H as -> ->; contradiction|]. revert H. eapply IH; [eassumption|exact NO| | |intros; apply NC; now right].
    + unfold set_st. destruct (Nat.eqb t t0); [discriminate|exact ND].
    + unfold set_st. intros d. destruct (Nat.eqb_spec t t0); [discriminate|apply NP].
Qed.
Lemma in_history {C R} (e : event C R) es : visible e = true -> (In e es <-> In e (history es)).
Proof. intros V. unfold history. rewrite filter_In. tauto. Qed.

Lemma mutex_bad M : (1 <= M)%nat -> exists s es, exec (m_step M) m_init bad_schedule = Some (s, es) /\
  history es = [Call 0%nat MLock; Ret 0%nat OK; Call 1%nat MUnlock; Ret 1%nat OK; Call 0%nat MUnlock; Ret 0%nat NotLocked] /\
  x_ub s = true /\ x_owner s = Some (0%nat, 1%nat) /\ ~ linearizable (mspec M) None (history es).
Proof.
  intros HM.
  assert (E : exists s es, exec (m_step M) m_init bad_schedule = Some (s, es) /\
     history es = [Call 0%nat MLock; Ret 0%nat OK; Call 1%nat MUnlock; Ret 1%nat OK; Call 0%nat MUnlock; Ret 0%nat NotLocked] /\
     x_ub s = true /\ x_owner s = Some (0%nat, 1%nat)).
  { unfold bad_schedule. eexists. eexists. split; [cbn; reflexivity|]. split; [reflexivity|]. split; reflexivity. }
  destruct E as (s & es & E & H & A & B). exists s, es. split; [exact E|]. split; [exact H|]. split; [exact A|]. split; [exact B|].
  rewrite H. intros (es' & f & s' & H' & L).
  apply (never_locked M 1 es' (fun _ => Out) None f s' L).
  - discriminate.
  - discriminate.
  - discriminate.
  - intros c Hc. apply in_history in Hc; [|reflexivity]. rewrite H' in Hc. cbn in Hc.
    repeat (destruct Hc as [Hc|Hc]; [try discriminate; injection Hc as <-; reflexivity|]). destruct Hc.
  - apply in_history; [reflexivity|]. rewrite H'. cbn. tauto.
Qed.
