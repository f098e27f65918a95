(** Proofs about the ItronThread model. *)
From Coq Require Import List ZArith Bool Lia Arith.
Import ListNotations.
From Verif Require Import Spec.OSError Spec.Linear Spec.ThreadSpec Spec.ItronThreadSpec OS.Sched OS.ThreadProofs OS.ItronThreadModel.
Open Scope Z_scope.

Section Proofs.
  Variables prio0 minp maxp : Z.
  Variable ext_prio : nat -> Z.
  Notation stp := (n_step prio0 minp maxp ext_prio).
  Notation ini := (n_init prio0).
  Notation spec := (ispec (n_resolve minp maxp ext_prio)).

  Definition holds (q : ipc) : bool :=
    match q with
    | IFlg (IT TStart) | IFlg (ISetPriority _) | IDorm (IT TStart) | IDorm (ISetPriority _)
    | IClr | ISta | IRef | IChg | ISetChg | IUnlock _ => true
    | _ => false
    end.
  (** a start that has cleared EV_FINISHED and not yet set EV_STARTED *)
  Definition starting (q : ipc) : bool := match q with ISta | IRef | IChg | IUnlock None | ISetSt => true | _ => false end.
  (** the priority of the task is being adjusted *)
  Definition busy (q : ipc) : bool :=
    match q with IRef | IChg | IFlg (ISetPriority _) | IDorm (ISetPriority _) | ISetChg => true | _ => false end.
  Definition wait_call (c : icall) : Prop := match c with IT (TWait ms) => -1 <= ms | _ => False end.
  Definition lock_call (c : icall) : Prop := match c with IT TStart | ISetPriority _ | IGetPriority => True | _ => False end.
  Definition flg_call (c : icall) : Prop := match c with IT TStart | ISetPriority _ | IT TIsFinished => True | _ => False end.
  Definition pc_ok (fin st : bool) (k : kpc) (q : ipc) : Prop :=
    match q with
    | IIdle | IRet _ | IUnlock (Some _) | ISetChg => True
    | ILock c => lock_call c
    | IFlg c => flg_call c
    | IDorm c => flg_call c /\ (c = IT TIsFinished \/ fin = true)
    | IClr => fin = true /\ k = KDorm
    | ISta => fin = false /\ k = KDorm
    | IRef | IChg | IUnlock None | ISetSt => fin = false /\ k = KAwait /\ st = false
    | IWai c => wait_call c
    | IQue c => wait_call c /\ fin = false
    | IPoll c => wait_call c
    | IDel => False
    end.
  Definition task_ok (fin st : bool) (k : kpc) : Prop :=
    match k with
    | KDorm => st = false
    | KAwait => fin = false
    | KClr => st = true /\ fin = false
    | KRun | KFin => st = false /\ fin = false
    | KExit => fin = true /\ st = false
    | KDel => False
    end.
  Record sinv (s : its) : Prop := {
    si_mtx : forall t, holds (n_thr s t) = true <-> n_mtx s = Some t;
    si_pc : forall t, pc_ok (n_fin s) (n_st s) (n_task s) (n_thr s t);
    si_task : task_ok (n_fin s) (n_st s) (n_task s);
    si_uniq : forall t u, starting (n_thr s t) = true -> starting (n_thr s u) = true -> t = u;
    si_wit : n_task s = KDorm /\ n_fin s = false \/ n_task s = KAwait /\ n_st s = false -> exists t, starting (n_thr s t) = true;
    si_zero : n_thr s 0%nat = IIdle \/ n_task s = KRun;
    si_pri : n_dormant s = true \/ n_kpri s = n_prio s \/ exists t, busy (n_thr s t) = true
  }.
  Lemma sinv_init : sinv ini.
  Proof. constructor; cbn; auto; try discriminate. intros t. split; discriminate. intros [(_ & X)|(X & _)]; discriminate. Qed.

  (** a step of caller t that leaves fin, st, the task alone *)
  Lemma sinv_quiet s t m k p q : sinv s -> n_thr s t <> IIdle \/ t <> 0%nat \/ n_task s = KRun ->
    (forall u, u <> t -> holds (n_thr s u) = true <-> m = Some u) -> (holds q = true <-> m = Some t) ->
    pc_ok (n_fin s) (n_st s) (n_task s) q -> starting q = starting (n_thr s t) ->
    (n_dormant s = true \/ k = p \/ busy q = true \/ exists u, u <> t /\ busy (n_thr s u) = true) ->
    sinv (mkI (n_fin s) (n_st s) m (n_task s) k p (fupd (n_thr s) t q)).
  Proof.
    intros I NI M1 M2 P S B. constructor; cbn.
    - intros u. rewrite fupd_eq. destruct (Nat.eqb_spec u t) as [->|N]; auto.
    - intros u. rewrite fupd_eq. destruct (Nat.eqb_spec u t) as [->|N]; [exact P|apply I].
    - apply I.
    - intros a b. rewrite !fupd_eq. destruct (Nat.eqb_spec a t) as [->|], (Nat.eqb_spec b t) as [->|]; rewrite ?S; apply I.
    - intros W. destruct (si_wit s I W) as (u & U). exists u. rewrite fupd_eq. destruct (Nat.eqb_spec u t) as [->|]; [now rewrite S|exact U].
    - rewrite fupd_eq. destruct (Nat.eqb_spec 0 t) as [<-|N]; [|apply I]. right. destruct (si_zero s I) as [Z|Z]; [|exact Z]. destruct NI as [NI|[NI|NI]]; [now elim NI|now elim NI|exact NI].
    - destruct B as [B|[B|[B|(u & N & B)]]]; [now left|auto| |]; right; right.
      + exists t. now rewrite fupd_same.
      + exists u. now rewrite fupd_other.
  Qed.

  Lemma busy_holds q : busy q = true -> holds q = true.
  Proof. destruct q; cbn; try discriminate; auto; destruct c; cbn; auto; discriminate. Qed.
  (** the same holder, or no holder, before and after *)
  Lemma sinv_quiet_same s t k p q : sinv s -> n_thr s t <> IIdle \/ t <> 0%nat \/ n_task s = KRun ->
    holds q = holds (n_thr s t) ->
    pc_ok (n_fin s) (n_st s) (n_task s) q -> starting q = starting (n_thr s t) ->
    (n_dormant s = true \/ k = p \/ busy q = true \/ (busy (n_thr s t) = false /\ k = n_kpri s /\ p = n_prio s)) ->
    sinv (mkI (n_fin s) (n_st s) (n_mtx s) (n_task s) k p (fupd (n_thr s) t q)).
  Proof.
    intros I NI H P S B. apply sinv_quiet; auto 8.
    - intros u _. apply I.
    - rewrite H. apply I.
    - destruct B as [B|[B|[B|(B & -> & ->)]]]; auto 8. destruct (si_pri s I) as [X|[X|(u & X)]]; auto 8. right; right; right. exists u. split; [|exact X]. intros ->. congruence.
  Qed.
  Lemma sinv_lock s t p q : sinv s -> n_thr s t <> IIdle -> n_mtx s = None -> holds q = true ->
    pc_ok (n_fin s) (n_st s) (n_task s) q -> starting q = starting (n_thr s t) ->
    (p = n_prio s \/ busy q = true) ->
    sinv (mkI (n_fin s) (n_st s) (Some t) (n_task s) (n_kpri s) p (fupd (n_thr s) t q)).
  Proof.
    intros I NI M H P S B. assert (NH : forall u, holds (n_thr s u) = false).
    { intros u. destruct (holds (n_thr s u)) eqn:E; [|reflexivity]. apply I in E. congruence. }
    apply sinv_quiet; auto 8.
    - intros u N. rewrite NH. split; [discriminate|intros X; injection X; congruence].
    - rewrite H. split; auto 8.
    - destruct B as [-> |B]; auto 8. destruct (si_pri s I) as [X|[X|(u & X)]]; auto 8. apply busy_holds in X. rewrite NH in X. discriminate.
  Qed.
  Lemma sinv_unlock s t r : sinv s -> n_thr s t = IUnlock r ->
    sinv (mkI (n_fin s) (n_st s) None (n_task s) (n_kpri s) (n_prio s) (fupd (n_thr s) t (match r with None => ISetSt | Some r0 => IRet r0 end))).
  Proof.
    intros I E. assert (M : n_mtx s = Some t) by (apply I; rewrite E; reflexivity).
    assert (P := si_pc s I t). rewrite E in P.
    apply sinv_quiet; auto 8.
    - left. rewrite E. discriminate.
    - intros u N. split; [|discriminate]. intros X. apply I in X. congruence.
    - destruct r; cbn; split; discriminate.
    - destruct r; cbn; auto 8.
    - rewrite E. destruct r; reflexivity.
    - destruct (si_pri s I) as [X|[X|(u & X)]]; auto 8. right; right; right. exists u. split; [|exact X]. intros ->. rewrite E in X. discriminate.
  Qed.
  Lemma sinv_is_finished s t c b s' e : sinv s -> n_thr s t = IFlg c /\ (b = true -> False) \/ n_thr s t = IDorm c /\ b = n_dormant s ->
    n_is_finished s t c b = Some (s', e) -> sinv s'.
  Proof.
    intros I T E. assert (P := si_pc s I t). assert (NI : n_thr s t <> IIdle) by (destruct T as [(-> & _)|(-> & _)]; discriminate).
    unfold n_is_finished in E. destruct c as [[]|p|]; try discriminate.
    - destruct b; injection E as <- _; unfold n_go; (apply sinv_quiet_same; [exact I|now left|..]).
      all: destruct T as [(T & X)|(T & X)]; rewrite T in *; cbn in *; auto 8; try (elim X; reflexivity).
      destruct P as (_ & [P|P]); [discriminate|]. split; [exact P|]. unfold n_dormant in X. destruct (n_task s); congruence.
    - injection E as <- _. unfold n_go. apply sinv_quiet_same; [exact I|now left|..]; destruct T as [(T & X)|(T & X)]; rewrite T in *; cbn; auto 8.
    - destruct b; injection E as <- _; unfold n_go; (apply sinv_quiet_same; [exact I|now left|..]);
        destruct T as [(T & X)|(T & X)]; rewrite T in *; cbn; auto 8; elim X; reflexivity.
  Qed.

  Lemma sinv_step s l s' e : sinv s -> n_label_ok l -> stp s l = Some (s', e) -> sinv s'.
  Proof.
    intros I LO E. destruct l as [t c|t|t|t|]; cbn [n_step] in E.
    - destruct (n_thr s t) eqn:ET; try discriminate. destruct (n_entry t c) as [q|] eqn:EE; [|discriminate].
      assert (G : sinv (n_go s t q) \/ t = 0%nat /\ n_task s <> KRun).
      { destruct (Nat.eq_dec t 0) as [->|N0].
        - destruct (n_task s) eqn:EK; try (right; split; [reflexivity|congruence]). left.
          unfold n_go. apply sinv_quiet_same; auto 8; rewrite ?ET; cbn in EE; destruct c as [[]|p|]; cbn in EE; try discriminate; injection EE as <-; cbn; auto 8.
        - left. unfold n_go. apply sinv_quiet_same; auto 8; rewrite ?ET; unfold n_entry in EE; destruct (Nat.eqb_spec t 0); try contradiction; destruct c as [[]|p|]; try discriminate; injection EE as <-; cbn; auto 8; try contradiction LO. }
      destruct (Nat.eqb_spec t 0) as [->|N0].
      + destruct (n_task s) eqn:EK; try discriminate. injection E as <- _. destruct G as [G|(_ & G)]; [exact G|now elim G].
      + injection E as <- _. destruct G as [G|(G & _)]; [exact G|contradiction].
    - assert (P := si_pc s I t).
      destruct (n_thr s t) eqn:ET; try discriminate.
      + destruct (n_mtx s) eqn:EM; [discriminate|].
        destruct c as [[]|p|]; try discriminate; injection E as <- _; (apply sinv_lock; [exact I|congruence|exact EM|reflexivity|..]); rewrite ?ET; cbn; auto 8.
      + destruct (n_task s) eqn:EK; try (destruct (n_fin s) eqn:EF);
          try (eapply (sinv_is_finished s t c false); [exact I|left; split; [exact ET|discriminate]|exact E]);
          injection E as <- _; unfold n_go; (apply sinv_quiet_same; [exact I|left; congruence|..]); rewrite ?ET, ?EF; cbn;
          try (split; [exact P|]; auto 8); destruct c as [[]|p|]; cbn in *; auto 8; contradiction.
      + eapply (sinv_is_finished s t c (n_dormant s)); [exact I|right; split; [exact ET|reflexivity]|exact E].
      + (* clr_flg *)
        injection E as <- _. destruct P as (EF & EK). assert (M : n_mtx s = Some t) by (apply I; rewrite ET; reflexivity).
        assert (ST := si_task s I). rewrite EK in ST. cbn in ST.
        assert (NS : forall u, starting (n_thr s u) = false).
        { intros u. destruct (starting (n_thr s u)) eqn:S; [|reflexivity]. assert (Q := si_pc s I u).
          destruct (n_thr s u) as [| | | | | | | | |[]| | | | | |]; cbn in S, Q; try discriminate; intuition congruence. }
        constructor; cbn.
        * intros u. rewrite fupd_eq. destruct (Nat.eqb_spec u t) as [->|N]; [cbn; rewrite M; tauto|apply I].
        * intros u. rewrite fupd_eq. destruct (Nat.eqb_spec u t) as [->|N]; [cbn; auto 8|]. assert (Q := si_pc s I u).
          assert (H : holds (n_thr s u) = false) by (destruct (holds (n_thr s u)) eqn:H; [apply I in H; congruence|reflexivity]).
          destruct (n_thr s u) as [| | |[[]|?|]| | | | | |[]| | | | | |]; cbn in *; try discriminate; try tauto; intuition congruence.
        * rewrite EK. cbn. exact ST.
        * intros a b. rewrite !fupd_eq. destruct (Nat.eqb_spec a t) as [->|], (Nat.eqb_spec b t) as [->|]; rewrite ?NS; try discriminate. auto 8.
        * intros _. exists t. rewrite fupd_same. reflexivity.
        * rewrite fupd_eq. destruct (Nat.eqb_spec 0 t) as [<-|]; [destruct (si_zero s I); congruence|]. apply I.
        * left. unfold n_dormant. cbn. now rewrite EK.
      + (* sta_tsk *)
        destruct P as (EF & EK). rewrite EK in E. injection E as <- _. assert (M : n_mtx s = Some t) by (apply I; rewrite ET; reflexivity).
        assert (ST := si_task s I). rewrite EK in ST. cbn in ST.
        constructor; cbn.
        * intros u. rewrite fupd_eq. destruct (Nat.eqb_spec u t) as [->|N]; [cbn; rewrite M; tauto|apply I].
        * intros u. rewrite fupd_eq. destruct (Nat.eqb_spec u t) as [->|N]; [cbn; auto 8|]. assert (Q := si_pc s I u).
          assert (H : holds (n_thr s u) = false) by (destruct (holds (n_thr s u)) eqn:H; [apply I in H; congruence|reflexivity]).
          destruct (n_thr s u) as [| | |[[]|?|]| | | | | |[]| | | | | |]; cbn in *; try discriminate; try tauto; intuition congruence.
        * exact EF.
        * intros a b. rewrite !fupd_eq. destruct (Nat.eqb_spec a t) as [->|], (Nat.eqb_spec b t) as [->|]; auto 8; intros A B; [exfalso|exfalso|now apply I].
          -- pose proof (si_uniq s I t b). rewrite ET in H. specialize (H eq_refl B). congruence.
          -- pose proof (si_uniq s I a t). rewrite ET in H. specialize (H A eq_refl). congruence.
        * intros _. exists t. rewrite fupd_same. reflexivity.
        * rewrite fupd_eq. destruct (Nat.eqb_spec 0 t) as [<-|]; [destruct (si_zero s I); congruence|]. destruct (si_zero s I); [auto 8|congruence].
        * right; right. exists t. now rewrite fupd_same.
      + (* ref_tsk *)
        destruct P as (EF & EK & ES). rewrite EK in E. injection E as <- _. unfold n_go. destruct (Z.eqb_spec (n_kpri s) (n_prio s)) as [X|X];
          (apply sinv_quiet_same; [exact I|left; congruence|..]); rewrite ?ET; cbn; auto 8.
      + destruct P as (EF & EK & ES). injection E as <- _. apply sinv_quiet_same; [exact I|left; congruence|..]; rewrite ?ET; cbn; auto 8. rewrite EK. auto 8.
      + injection E as <- _. apply sinv_quiet_same; [exact I|left; congruence|..]; rewrite ?ET; cbn; auto 8.
        unfold n_dormant. assert (Q := si_task s I). destruct (n_task s); cbn in *; auto 8; contradiction.
      + injection E as <- _. apply (sinv_unlock s t r I ET).
      + (* set_flg(EV_STARTED) *)
        injection E as <- _. destruct P as (EF & EK & ES).
        assert (NS : forall u, u <> t -> starting (n_thr s u) = false).
        { intros u N. destruct (starting (n_thr s u)) eqn:S; [|reflexivity]. elim N. apply (si_uniq s I); [exact S|now rewrite ET]. }
        constructor; cbn.
        * intros u. rewrite fupd_eq. destruct (Nat.eqb_spec u t) as [->|N]; [|apply I]. pose proof (si_mtx s I t) as X. rewrite ET in X. cbn in X. exact X.
        * intros u. rewrite fupd_eq. destruct (Nat.eqb_spec u t) as [->|N]; [exact Logic.I|]. assert (Q := si_pc s I u). specialize (NS u N).
          destruct (n_thr s u) as [| | |[[]|?|]| | | | | |[]| | | | | |]; cbn in *; try discriminate; try tauto; intuition congruence.
        * rewrite EK. exact EF.
        * intros a b. rewrite !fupd_eq. destruct (Nat.eqb_spec a t) as [->|], (Nat.eqb_spec b t) as [->|]; auto 8; rewrite ?NS by assumption; cbn; discriminate.
        * intros [(X & _)|(_ & X)]; congruence.
        * rewrite fupd_eq. destruct (Nat.eqb_spec 0 t) as [<-|]; [destruct (si_zero s I); congruence|]. apply I.
        * destruct (si_pri s I) as [X|[X|(u & X)]]; auto 8. right; right. exists u. rewrite fupd_other; [exact X|]. intros ->. rewrite ET in X. discriminate.
      + (* twai_flg *)
        assert (Q : n_task s = KDel -> False) by (intros X; assert (Q := si_task s I); rewrite X in Q; exact Q).
        destruct c as [[]|p|]; cbn in P; try contradiction.
        assert (E1 : (if ms <? -1 then Some (n_go s t (IRet (IR (RErr OtherError))), [Eff t (IT (TWait ms)) (IR (RErr OtherError))])
                else if n_fin s then Some (n_go s t (IPoll (IT (TWait ms))), [])
                else if ms =? 0 then Some (n_go s t (IRet (IR (RErr TimedOut))), [Eff t (IT (TWait ms)) (IR (RErr TimedOut))])
                else Some (n_go s t (IQue (IT (TWait ms))), [])) = Some (s', e)) by (destruct (n_task s); auto 8; now elim Q).
        clear E. destruct (Z.ltb_spec ms (-1)); [lia|]. destruct (n_fin s) eqn:EF; [|destruct (ms =? 0)]; injection E1 as <- _; unfold n_go;
          (apply sinv_quiet_same; [exact I|left; congruence|..]); rewrite ?ET; cbn; auto 8.
      + destruct (n_dormant s) eqn:EK; [|discriminate]. destruct c as [[]|p|]; cbn in P; try contradiction.
        injection E as <- _. unfold n_go. apply sinv_quiet_same; [exact I|left; congruence|..]; rewrite ?ET; cbn; auto 8.
      + contradiction.
      + injection E as <- _.
        assert (Z := si_zero s I).
        constructor; cbn.
        * intros u. rewrite fupd_eq. destruct (Nat.eqb_spec u t) as [->|N]; [|apply I]. pose proof (si_mtx s I t) as X. rewrite ET in X. exact X.
        * intros u. rewrite fupd_eq. destruct (Nat.eqb_spec u t) as [->|N]; [exact Logic.I|apply I].
        * apply I.
        * intros a b. rewrite !fupd_eq. destruct (Nat.eqb_spec a t) as [->|], (Nat.eqb_spec b t) as [->|]; auto 8; try discriminate. apply I.
        * intros W. destruct (si_wit s I W) as (u & U). exists u. rewrite fupd_other; [exact U|]. intros ->. rewrite ET in U. discriminate.
        * rewrite fupd_eq. destruct (Nat.eqb 0 t); auto 8.
        * destruct (si_pri s I) as [X|[X|(u & X)]]; auto 8. right; right. exists u. rewrite fupd_other; [exact X|]. intros ->. rewrite ET in X. discriminate.
    - destruct (n_thr s t) eqn:ET; try discriminate. destruct c as [[]|p|]; try discriminate. destruct (ms =? -1); [discriminate|]. injection E as <- _.
      unfold n_go. apply sinv_quiet_same; [exact I|left; congruence|..]; rewrite ?ET; cbn; auto 8.
    - destruct (n_thr s t) eqn:ET; try discriminate. destruct (n_dormant s); [discriminate|]. now injection E as <- _.
    - assert (TK := si_task s I). assert (W := si_wit s I). assert (ZE := si_zero s I). assert (PR := si_pri s I). unfold n_dormant in PR.
      destruct (n_task s) eqn:EK; try discriminate; cbn in TK.
      + destruct (n_st s) eqn:ES; [|discriminate]. injection E as <- _. constructor; cbn; try apply I; auto 8.
        * intros u. assert (Q := si_pc s I u). rewrite EK, ES in Q. destruct (n_thr s u) as [| | | | | | | | |[]| | | | | |]; cbn in *; intuition congruence.
        * intros [(X & _)|(X & _)]; discriminate.
        * destruct ZE; [auto 8|discriminate].
      + injection E as <- _. destruct TK as (ES & EF). constructor; cbn; try apply I; auto 8.
        * intros u. assert (Q := si_pc s I u). rewrite EK, ES in Q. destruct (n_thr s u) as [| | | | | | | | |[]| | | | | |]; cbn in *; intuition congruence.
        * intros [(X & _)|(X & _)]; discriminate.
      + destruct (n_thr s 0%nat) eqn:EZ; try discriminate. injection E as <- _. constructor; cbn; try apply I; auto 8.
        * intros u. assert (Q := si_pc s I u). rewrite EK in Q. destruct (n_thr s u) as [| | | | | | | | |[]| | | | | |]; cbn in *; intuition congruence.
        * intros [(X & _)|(X & _)]; discriminate.
      + injection E as <- _. destruct TK as (ES & EF).
        assert (NS : forall u, starting (n_thr s u) = false).
        { intros u. assert (Q := si_pc s I u). rewrite EK in Q. destruct (n_thr s u) as [| | | | | | | | |[]| | | | | |]; cbn in *; try reflexivity; intuition congruence. }
        constructor; cbn; auto 8.
        * intros u. rewrite <- (si_mtx s I u). destruct (n_thr s u); cbn; tauto.
        * intros u. assert (Q := si_pc s I u). rewrite EK, EF in Q. destruct (n_thr s u) as [| | | | | | | | |[]| | | | | |]; cbn in *; try tauto; intuition congruence.
        * intros a b X. assert (Y := NS a). destruct (n_thr s a); cbn in *; congruence.
        * intros [(X & _)|(X & _)]; discriminate.
        * destruct ZE as [-> |]; [auto 8|discriminate].
        * destruct PR as [X|[X|(u & X)]]; [discriminate|auto 8|]. right; right. exists u. destruct (n_thr s u); auto.
      + injection E as <- _. destruct TK as (EF & ES). constructor; cbn; try apply I; auto 8.
        * intros u. assert (Q := si_pc s I u). rewrite EK in Q. destruct (n_thr s u) as [| | | | | | | | |[]| | | | | |]; cbn in *; intuition congruence.
        * intros [(_ & X)|(X & _)]; congruence.
        * destruct ZE; [auto 8|discriminate].
  Qed.

  (** * linearization *)
  Notation void := (IR RVoid).
  Notation lrun := (lin_run spec).
  Definition st_of (q : ipc) : status icall ires :=
    match q with
    | IIdle => Out
    | ILock c | IWai c | IQue c | IPoll c => Pending c
    | IFlg c | IDorm c => match c with ISetPriority _ => Done void | _ => Pending c end
    | IClr => Pending (IT TStart)
    | ISta | IRef | IChg | ISetSt | ISetChg | IUnlock None => Done void
    | IUnlock (Some r) | IRet r => Done r
    | IDel => Pending (IT TDestroy)
    end.
  Definition stof (s : its) (t : nat) : status icall ires :=
    if Nat.eqb t 0 then match n_task s with KFin | KExit => Pending (IT TEnd) | _ => st_of (n_thr s 0%nat) end else st_of (n_thr s t).
  Definition spof (s : its) : tstate :=
    match n_task s with
    | KDorm => if n_fin s then Finished else Started
    | KAwait | KClr => Started
    | KRun | KFin | KExit => Running
    | KDel => Destroyed
    end.
  (** calls that have seen EV_FINISHED and look at the task next, without holding the lock *)
  Definition polling (q : ipc) : option icall :=
    match q with IPoll c => Some c | IDorm (IT TIsFinished) => Some (IT TIsFinished) | _ => None end.
  Definition agent (e : event icall ires) : nat := match e with Call t _ | Eff t _ _ | Ret t _ => t end.
  Definition quiet (t : nat) (es : list (event icall ires)) : Prop := forall x, In x es -> agent x <> t.
  Notation out0 := (fun _ : nat => @Out icall ires).
  Definition hind (s : its) (es' : list (event icall ires)) (f : nat -> status icall ires) (u : nat) : Prop :=
    exists es1 es2 f1 p1, es' = es1 ++ Eff u (IT TStart) void :: es2 /\ lrun out0 (Finished, prio0) es1 f1 (Finished, p1) /\
      f1 u = Pending (IT TStart) /\ lrun (set_st f1 u (Done void)) (Started, p1) es2 f (spof s, n_prio s) /\
      forall t c, polling (n_thr s t) = Some c -> f1 t = Pending c /\ quiet t es2.
  Definition linv (s : its) (es : list (event icall ires)) : Prop :=
    exists es' f, history es' = history es /\ lrun out0 (Finished, prio0) es' f (spof s, n_prio s) /\ (forall t, f t = stof s t) /\
      forall u, n_thr s u = ISta -> hind s es' f u.

  Lemma lin_ext_quiet t es : forall f s f' s', lrun f s es f' s' -> quiet t es ->
    forall g, (forall u, u <> t -> g u = f u) -> exists g', lrun g s es g' s' /\ (forall u, u <> t -> g' u = f' u) /\ g' t = g t.
  Proof.
    intros f s f' s' L. induction L as [f s|f s v c es f' s' F L IH|f s v c r s1 es f' s' F P L IH|f s v r es f' s' F L IH]; intros Q g G.
    - exists g. split; [constructor|auto].
    - assert (V : v <> t) by (apply (Q (Call v c)); now left).
      destruct (IH (fun x h => Q x (or_intror h)) (set_st g v (Pending c))) as (g' & A & B & D).
      + intros u N. unfold set_st. destruct (Nat.eqb u v); auto.
      + exists g'. split; [apply lr_call; [now rewrite G|exact A]|]. split; [exact B|]. rewrite D. unfold set_st. destruct (Nat.eqb_spec t v); [congruence|reflexivity].
    - assert (V : v <> t) by (apply (Q (Eff v c r)); now left).
      destruct (IH (fun x h => Q x (or_intror h)) (set_st g v (Done r))) as (g' & A & B & D).
      + intros u N. unfold set_st. destruct (Nat.eqb u v); auto.
      + exists g'. split; [eapply lr_eff; [now rewrite G|exact P|exact A]|]. split; [exact B|]. rewrite D. unfold set_st. destruct (Nat.eqb_spec t v); [congruence|reflexivity].
    - assert (V : v <> t) by (apply (Q (Ret v r)); now left).
      destruct (IH (fun x h => Q x (or_intror h)) (set_st g v Out)) as (g' & A & B & D).
      + intros u N. unfold set_st. destruct (Nat.eqb u v); auto.
      + exists g'. split; [eapply lr_ret; [now rewrite G|exact A]|]. split; [exact B|]. rewrite D. unfold set_st. destruct (Nat.eqb_spec t v); [congruence|reflexivity].
  Qed.

  Lemma linv_app s es s' ev : linv s es ->
    (forall f, (forall t, f t = stof s t) -> exists f', lrun f (spof s, n_prio s) ev f' (spof s', n_prio s') /\ forall t, f' t = stof s' t) ->
    (forall u, n_thr s' u = ISta -> n_thr s u = ISta /\ forall t c, polling (n_thr s' t) = Some c -> polling (n_thr s t) = Some c /\ quiet t ev) ->
    linv s' (es ++ ev).
  Proof.
    intros (es' & f & H & L & F & HI) ST PO. destruct (ST f F) as (f' & L' & F'). exists (es' ++ ev), f'. split; [|split; [|split; [exact F'|]]].
    - now rewrite !history_app, H.
    - eapply lin_run_app; eauto.
    - intros u U. destruct (PO u U) as (U0 & PQ). destruct (HI u U0) as (es1 & es2 & f1 & p1 & -> & L1 & FU & L2 & PP).
      exists es1, (es2 ++ ev), f1, p1. split; [now rewrite <- app_assoc|]. split; [exact L1|]. split; [exact FU|]. split; [eapply lin_run_app; eauto|].
      intros t c T. destruct (PQ t c T) as (T0 & Q). destruct (PP t c T0) as (A & B). split; [exact A|]. intros x X. apply in_app_iff in X. destruct X; auto.
  Qed.
  Lemma ista_fin s u : sinv s -> n_thr s u = ISta -> n_fin s = false /\ n_task s = KDorm.
  Proof. intros I U. pose proof (si_pc s I u) as P. rewrite U in P. exact P. Qed.
  Lemma linv_caller s es s' t q ev : sinv s -> linv s es -> n_thr s' = fupd (n_thr s) t q -> q <> ISta ->
    (polling q = None \/ n_fin s = true) -> (forall x, In x ev -> agent x = t) ->
    (forall f, (forall t, f t = stof s t) -> exists f', lrun f (spof s, n_prio s) ev f' (spof s', n_prio s') /\ forall t, f' t = stof s' t) ->
    linv s' (es ++ ev).
  Proof.
    intros I LI T NQ PQ AG ST. apply (linv_app s es s' ev LI ST). intros u U. rewrite T, fupd_eq in U. destruct (Nat.eqb_spec u t) as [UT|N]; [now elim NQ|].
    split; [exact U|]. intros v c V. destruct (ista_fin s u I U) as (X & _). rewrite T, fupd_eq in V. destruct (Nat.eqb_spec v t) as [->|NV].
    - destruct PQ; congruence.
    - split; [exact V|]. intros x Hx. rewrite (AG x Hx). congruence.
  Qed.
  (** the status of a caller that moves *)
  Lemma stof_caller s s' t q : n_thr s' = fupd (n_thr s) t q -> (n_task s' = n_task s \/ (t <> 0%nat /\ (n_task s' = KFin \/ n_task s' = KExit <-> n_task s = KFin \/ n_task s = KExit))) ->
    (t = 0%nat -> n_task s = KRun) ->
    forall u, stof s' u = if Nat.eqb u t then st_of q else stof s u.
  Proof.
    intros T K Z u. unfold stof. rewrite T, !fupd_eq. destruct (Nat.eqb_spec u t) as [->|N].
    - destruct (Nat.eqb_spec t 0) as [->|]; [|reflexivity]. destruct K as [-> |(K & _)]; [|now elim K]. rewrite (Z eq_refl). now rewrite Nat.eqb_refl.
    - destruct (Nat.eqb_spec u 0) as [->|]; [|reflexivity]. destruct (Nat.eqb_spec 0 t) as [ZT|]; [congruence|].
      destruct K as [-> |(_ & K)]; [reflexivity|]. destruct (n_task s), (n_task s'); try reflexivity; exfalso; intuition discriminate.
  Qed.
  Lemma lrun_nil s s' : spof s' = spof s -> n_prio s' = n_prio s -> (forall u, stof s' u = stof s u) ->
    forall f, (forall t, f t = stof s t) -> exists f', lrun f (spof s, n_prio s) [] f' (spof s', n_prio s') /\ forall t, f' t = stof s' t.
  Proof. intros -> -> E f F. exists f. split; [constructor|]. intros t. now rewrite F, E. Qed.
  Lemma lrun_call s s' t c : spof s' = spof s -> n_prio s' = n_prio s -> stof s t = Out -> (forall u, stof s' u = if Nat.eqb u t then Pending c else stof s u) ->
    forall f, (forall t, f t = stof s t) -> exists f', lrun f (spof s, n_prio s) [Call t c] f' (spof s', n_prio s') /\ forall t, f' t = stof s' t.
  Proof.
    intros -> -> O E f F. exists (set_st f t (Pending c)). split; [apply lr_call; [now rewrite F|constructor]|].
    intros u. unfold set_st. rewrite E. destruct (Nat.eqb u t); [reflexivity|apply F].
  Qed.
  Lemma lrun_eff s s' t c r : stof s t = Pending c -> spec (spof s, n_prio s) t c r (spof s', n_prio s') ->
    (forall u, stof s' u = if Nat.eqb u t then Done r else stof s u) ->
    forall f, (forall t, f t = stof s t) -> exists f', lrun f (spof s, n_prio s) [Eff t c r] f' (spof s', n_prio s') /\ forall t, f' t = stof s' t.
  Proof.
    intros O P E f F. exists (set_st f t (Done r)). split; [eapply lr_eff; [now rewrite F|exact P|constructor]|].
    intros u. unfold set_st. rewrite E. destruct (Nat.eqb u t); [reflexivity|apply F].
  Qed.
  Lemma lrun_ret s s' t r : spof s' = spof s -> n_prio s' = n_prio s -> stof s t = Done r -> (forall u, stof s' u = if Nat.eqb u t then Out else stof s u) ->
    forall f, (forall t, f t = stof s t) -> exists f', lrun f (spof s, n_prio s) [Ret t r] f' (spof s', n_prio s') /\ forall t, f' t = stof s' t.
  Proof.
    intros -> -> O E f F. exists (set_st f t Out). split; [apply lr_ret; [now rewrite F|constructor]|].
    intros u. unfold set_st. rewrite E. destruct (Nat.eqb u t); [reflexivity|apply F].
  Qed.
  Lemma zero_run s t : sinv s -> n_thr s t <> IIdle -> t = 0%nat -> n_task s = KRun.
  Proof. intros I N ->. destruct (si_zero s I); [contradiction|assumption]. Qed.
  Lemma stof_busy s t : sinv s -> n_thr s t <> IIdle -> stof s t = st_of (n_thr s t).
  Proof. intros I N. unfold stof. destruct (Nat.eqb_spec t 0) as [->|]; [|reflexivity]. now rewrite (zero_run s 0 I N eq_refl). Qed.

  (** a poller that finds the task dormant: the thread was finished at some instant of the call *)
  Lemma linv_hind s es t c r : sinv s -> linv s es -> polling (n_thr s t) = Some c -> n_dormant s = true ->
    (forall p, spec (Finished, p) t c r (Finished, p)) -> linv (n_go s t (IRet r)) (es ++ [Eff t c r]).
  Proof.
    intros I LI PT DM SP. assert (K : n_task s = KDorm) by (unfold n_dormant in DM; destruct (n_task s); congruence).
    assert (NI : n_thr s t <> IIdle) by (intros X; rewrite X in PT; discriminate).
    assert (ST : st_of (n_thr s t) = Pending c) by (destruct (n_thr s t) as [| | |[[]|?|]| | | | | |[]| | | | | |]; cbn in PT |- *; congruence).
    assert (SO : forall u, stof (n_go s t (IRet r)) u = if Nat.eqb u t then Done r else stof s u).
    { apply (stof_caller s _ t (IRet r)); [reflexivity|now left|now apply zero_run]. }
    destruct (n_fin s) eqn:EF.
    - apply (linv_caller s es _ t (IRet r)); auto; try discriminate.
      + intros x [<-|[]]. reflexivity.
      + assert (SF : spof s = Finished) by (unfold spof; now rewrite K, EF).
        assert (SF' : spof (n_go s t (IRet r)) = Finished) by (unfold spof, n_go; cbn; now rewrite K, EF).
        apply lrun_eff; [now rewrite stof_busy| |exact SO]. rewrite SF, SF'. apply SP.
    - destruct (si_wit s I (or_introl (conj K EF))) as (u & SU). assert (U : n_thr s u = ISta).
      { assert (Q := si_pc s I u). destruct (n_thr s u) as [| | | | | | | | |[]| | | | | |]; cbn in SU, Q; try discriminate; try reflexivity; intuition congruence. }
      assert (UT : u <> t) by (intros ->; rewrite U in PT; discriminate).
      destruct LI as (es' & f & H & L & F & HI). destruct (HI u U) as (es1 & es2 & f1 & p1 & -> & L1 & FU & L2 & PP).
      destruct (PP t c PT) as (FT & QT).
      destruct (lin_ext_quiet t es2 _ _ _ _ L2 QT (set_st (set_st f1 t (Done r)) u (Done void))) as (f' & L2' & F2 & F3).
      { intros v N. unfold set_st. destruct (Nat.eqb v u); [reflexivity|]. destruct (Nat.eqb_spec v t); [contradiction|reflexivity]. }
      assert (L1' : lrun out0 (Finished, prio0) (es1 ++ [Eff t c r]) (set_st f1 t (Done r)) (Finished, p1)).
      { eapply lin_run_app; [exact L1|]. eapply lr_eff; [exact FT|apply SP|constructor]. }
      assert (FU' : set_st f1 t (Done r) u = Pending (IT TStart)).
      { unfold set_st. destruct (Nat.eqb_spec u t); [contradiction|exact FU]. }
      exists ((es1 ++ [Eff t c r]) ++ Eff u (IT TStart) void :: es2), f'. split; [|split; [|split]].
      + rewrite (history_app es), <- H, !history_app. cbn. now rewrite !app_nil_r.
      + eapply lin_run_app; [exact L1'|]. eapply lr_eff; [exact FU'| |exact L2']. cbn. split; [exists RVoid; auto|reflexivity].
      + intros v. rewrite SO. destruct (Nat.eqb_spec v t) as [->|N]; [|now rewrite F2].
        rewrite F3. unfold set_st. rewrite Nat.eqb_refl. destruct (Nat.eqb_spec t u); [congruence|reflexivity].
      + intros v V. cbn in V. rewrite fupd_eq in V. destruct (Nat.eqb_spec v t); [discriminate|].
        assert (v = u) as -> by (apply (si_uniq s I); [now rewrite V|exact SU]).
        exists (es1 ++ [Eff t c r]), es2, (set_st f1 t (Done r)), p1. split; [reflexivity|]. split; [exact L1'|]. split; [exact FU'|]. split; [exact L2'|].
        intros w c' W. cbn in W. rewrite fupd_eq in W. destruct (Nat.eqb_spec w t) as [->|NW]; [discriminate|].
        destruct (PP w c' W) as (A & B). split; [|exact B]. unfold set_st. destruct (Nat.eqb_spec w t); [contradiction|exact A].
  Qed.

  Lemma caller_nil s es s' t q : sinv s -> linv s es -> n_thr s t <> IIdle -> n_thr s' = fupd (n_thr s) t q -> n_task s' = n_task s ->
    n_fin s' = n_fin s -> n_prio s' = n_prio s -> q <> ISta -> (polling q = None \/ n_fin s = true) -> st_of q = st_of (n_thr s t) -> linv s' (es ++ []).
  Proof.
    intros I LI NI T K F P NQ PQ S. apply (linv_caller s es s' t q); auto.
    - intros x [].
    - apply lrun_nil; [unfold spof; now rewrite K, F|exact P|]. intros u. rewrite (stof_caller s s' t q T (or_introl K)); [|now apply zero_run].
      destruct (Nat.eqb_spec u t) as [->|]; [|reflexivity]. now rewrite stof_busy.
  Qed.
  Lemma caller_eff s es s' t q c r : sinv s -> linv s es -> n_thr s t <> IIdle -> n_thr s' = fupd (n_thr s) t q -> n_task s' = n_task s ->
    q <> ISta -> polling q = None -> st_of (n_thr s t) = Pending c -> st_of q = Done r ->
    spec (spof s, n_prio s) t c r (spof s', n_prio s') -> linv s' (es ++ [Eff t c r]).
  Proof.
    intros I LI NI T K NQ PQ S1 S2 SP. apply (linv_caller s es s' t q); auto.
    - intros x [<-|[]]. reflexivity.
    - apply lrun_eff; [now rewrite stof_busy|exact SP|]. intros u. rewrite (stof_caller s s' t q T (or_introl K)); [|now apply zero_run]. now rewrite S2.
  Qed.
  Lemma spof_go s t q : spof (n_go s t q) = spof s.
  Proof. reflexivity. Qed.
  Lemma not_finished s t : sinv s -> holds (n_thr s t) = true -> n_fin s = false \/ n_dormant s = false -> starting (n_thr s t) = false -> spof s <> Finished /\ spof s <> Destroyed.
  Proof.
    intros I H FD NS. assert (T := si_task s I). unfold spof, n_dormant in *. destruct (n_task s) eqn:K; cbn in T; try (split; discriminate); try contradiction.
    destruct FD as [-> |]; split; discriminate.
  Qed.
  Lemma linv_is_finished s es t c b s' e : sinv s -> linv s es ->
    (n_thr s t = IFlg c /\ b = false /\ n_fin s = false) \/ (n_thr s t = IDorm c /\ b = n_dormant s) ->
    n_is_finished s t c b = Some (s', e) -> linv s' (es ++ e).
  Proof.
    intros I LI T E. assert (NI : n_thr s t <> IIdle) by (destruct T as [(-> & _)|(-> & _)]; discriminate).
    assert (TK := si_task s I). assert (PC := si_pc s I t).
    assert (NF : b = false -> spof s = Started \/ spof s = Running).
    { intros ->. unfold spof. destruct (n_task s) eqn:K; auto; [|contradiction]. destruct T as [(_ & _ & ->)|(_ & D)]; [auto|]. unfold n_dormant in D. rewrite K in D. discriminate. }
    unfold n_is_finished in E. destruct c as [[]|p|]; try discriminate.
    - destruct b; injection E as <- <-.
      + apply (caller_nil s es _ t IClr); auto; try discriminate. destruct T as [(-> & _)|(-> & _)]; reflexivity.
      + apply (caller_eff s es _ t (IUnlock (Some void))); auto; try discriminate.
        * destruct T as [(-> & _)|(-> & _)]; reflexivity.
        * rewrite spof_go. cbn. split; [|reflexivity]. exists RVoid. split; [reflexivity|]. split; [reflexivity|]. destruct (NF eq_refl) as [-> | ->]; reflexivity.
    - injection E as <- <-. destruct b.
      + assert (D : n_thr s t = IDorm (IT TIsFinished) /\ n_dormant s = true) by (destruct T as [(_ & X & _)|(X & Y)]; [discriminate|auto]). destruct D as (D1 & D2).
        apply linv_hind; auto; [now rewrite D1|]. intros p. cbn. split; [|reflexivity]. now exists (RBool true).
      + apply (caller_eff s es _ t (IRet (IR (RBool false)))); auto; try discriminate.
        * destruct T as [(-> & _)|(-> & _)]; reflexivity.
        * rewrite spof_go. cbn. split; [|reflexivity]. exists (RBool false). split; [reflexivity|]. split; [|reflexivity]. destruct (NF eq_refl) as [-> | ->]; reflexivity.
    - injection E as <- <-. destruct b; [apply (caller_nil s es _ t (IUnlock (Some void)))|apply (caller_nil s es _ t ISetChg)]; auto; try discriminate;
        destruct T as [(-> & _)|(-> & _)]; reflexivity.
  Qed.

  Lemma linv_step s es l s' e : sinv s -> linv s es -> n_label_ok l -> stp s l = Some (s', e) -> linv s' (es ++ e).
  Proof.
    intros I LI LO E. assert (TK := si_task s I). destruct l as [t c|t|t|t|]; cbn [n_step] in E.
    - destruct (n_thr s t) eqn:ET; try discriminate. destruct (n_entry t c) as [q|] eqn:EE; [|discriminate].
      assert (X : s' = n_go s t q /\ e = [Call t c] /\ (t = 0%nat -> n_task s = KRun)).
      { destruct (Nat.eqb_spec t 0) as [->|N0].
        - destruct (n_task s); try discriminate. injection E as <- <-. auto.
        - injection E as <- <-. repeat split. intros ->. now elim N0. }
      destruct X as (-> & -> & Z).
      assert (Q : st_of q = Pending c /\ polling q = None /\ q <> ISta).
      { unfold n_entry in EE. destruct (Nat.eqb t 0); destruct c as [[]|p|]; try discriminate; injection EE as <-; (repeat split); discriminate. }
      destruct Q as (Q1 & Q2 & Q3). apply (linv_caller s es _ t q); auto.
      + intros x [<-|[]]. reflexivity.
      + apply lrun_call; auto.
        * unfold stof. destruct (Nat.eqb_spec t 0) as [->|]; [rewrite (Z eq_refl)|]; now rewrite ET.
        * intros u. rewrite (stof_caller s (n_go s t q) t q eq_refl (or_introl eq_refl) Z). now rewrite Q1.
    - assert (P := si_pc s I t). assert (NI : n_thr s t <> IIdle) by (intros X; rewrite X in E; discriminate).
      destruct (n_thr s t) eqn:ET; try discriminate.
      + destruct (n_mtx s) eqn:EM; [discriminate|].
        destruct c as [[]|p|]; try discriminate; injection E as <- <-.
        * apply (caller_nil s es _ t (IFlg (IT TStart))); rewrite ?ET; auto; discriminate.
        * apply (caller_eff s es _ t (IFlg (ISetPriority p))); rewrite ?ET; auto; try discriminate.
          cbn. split; [reflexivity|]. split; [reflexivity|]. unfold n_resolve, n_inherit. destruct ((minp <=? p) && (p <=? maxp)); [reflexivity|].
          destruct (Nat.eqb_spec t 0) as [->|]; [|reflexivity]. assert (K : n_task s = KRun) by (apply (zero_run s 0 I); congruence).
          destruct (si_pri s I) as [X|[X|(u & X)]]; [unfold n_dormant in X; rewrite K in X; discriminate|exact X|].
          apply busy_holds in X. apply I in X. congruence.
        * apply (caller_eff s es _ t (IUnlock (Some (IPrio (n_prio s))))); rewrite ?ET; auto; try discriminate. cbn. split; reflexivity.
      + assert (KD : n_task s <> KDel) by (intros X; rewrite X in TK; exact TK).
        assert (E1 : (if n_fin s then Some (n_go s t (IDorm c), []) else n_is_finished s t c false) = Some (s', e)) by (destruct (n_task s); auto; now elim KD).
        clear E. destruct (n_fin s) eqn:EF.
        * injection E1 as <- <-. apply (caller_nil s es _ t (IDorm c)); rewrite ?ET; auto; discriminate.
        * eapply (linv_is_finished s es t c false); auto.
      + eapply (linv_is_finished s es t c (n_dormant s)); auto.
      + (* clr_flg *)
        injection E as <- <-. destruct P as (EF & EK). destruct LI as (es' & f & H & L & F & HI).
        assert (SF : spof s = Finished) by (unfold spof; now rewrite EK, EF).
        assert (FT : f t = Pending (IT TStart)) by (rewrite F, stof_busy, ET by (auto; congruence); reflexivity).
        assert (L' : lrun out0 (Finished, prio0) (es' ++ [Eff t (IT TStart) void]) (set_st f t (Done void)) (Started, n_prio s)).
        { eapply lin_run_app; [exact L|]. eapply lr_eff; [exact FT| |constructor]. rewrite SF. cbn. split; [|reflexivity]. exists RVoid. auto. }
        exists (es' ++ [Eff t (IT TStart) void]), (set_st f t (Done void)). split; [now rewrite !history_app, H|]. split; [|split].
        * unfold spof. cbn. rewrite EK. exact L'.
        * intros u. erewrite (stof_caller s _ t ISta); [|reflexivity|now left|apply zero_run; [exact I|congruence]]. unfold set_st. destruct (Nat.eqb u t); [reflexivity|apply F].
        * intros u U. cbn in U. rewrite fupd_eq in U. destruct (Nat.eqb_spec u t) as [UT|N]; [rewrite UT; clear U UT u|].
          -- exists es', [], f, (n_prio s). split; [reflexivity|]. split; [rewrite SF in L; exact L|]. split; [exact FT|]. split; [unfold spof; cbn; rewrite EK; constructor|].
             intros v c V. split; [|intros x []]. cbn in V. rewrite fupd_eq in V. destruct (Nat.eqb_spec v t); [discriminate|].
             rewrite F, stof_busy; [|exact I|intros X; rewrite X in V; discriminate]. destruct (n_thr s v) as [| | |[[]|?|]| | | | | |[]| | | | | |]; cbn in V |- *; congruence.
          -- destruct (ista_fin s u I U). congruence.
      + (* sta_tsk *)
        destruct P as (EF & EK). rewrite EK in E. injection E as <- <-. apply (linv_caller s es _ t IRef); auto; try discriminate.
        * intros x [].
        * apply lrun_nil; auto.
          -- unfold spof. cbn. now rewrite EK, EF.
          -- assert (T0 : t <> 0%nat) by (intros ->; destruct (si_zero s I); congruence).
             intros u. erewrite (stof_caller s _ t IRef); [|reflexivity|right; split; [exact T0|cbn; rewrite EK; split; intros [X|X]; discriminate]|intros ->; now elim T0].
             destruct (Nat.eqb_spec u t) as [->|]; [|reflexivity]. rewrite stof_busy, ET by (auto; congruence). reflexivity.
      + destruct P as (EF & EK & ES). rewrite EK in E. injection E as <- <-. destruct (n_kpri s =? n_prio s);
          [apply (caller_nil s es _ t (IUnlock None))|apply (caller_nil s es _ t IChg)]; rewrite ?ET; auto; discriminate.
      + injection E as <- <-. apply (caller_nil s es _ t (IUnlock None)); rewrite ?ET; auto; discriminate.
      + injection E as <- <-. apply (caller_nil s es _ t (IUnlock (Some void))); rewrite ?ET; auto; discriminate.
      + injection E as <- <-. apply (caller_nil s es _ t (match r with None => ISetSt | Some r0 => IRet r0 end)); rewrite ?ET; auto; try (destruct r; discriminate); try (destruct r; auto).
      + injection E as <- <-. apply (caller_nil s es _ t (IRet void)); rewrite ?ET; auto; discriminate.
      + (* twai_flg *)
        assert (KD : n_task s <> KDel) by (intros X; rewrite X in TK; exact TK).
        destruct c as [[]|p|]; cbn in P; try contradiction.
        assert (E1 : (if ms <? -1 then Some (n_go s t (IRet (IR (RErr OtherError))), [Eff t (IT (TWait ms)) (IR (RErr OtherError))])
                else if n_fin s then Some (n_go s t (IPoll (IT (TWait ms))), [])
                else if ms =? 0 then Some (n_go s t (IRet (IR (RErr TimedOut))), [Eff t (IT (TWait ms)) (IR (RErr TimedOut))])
                else Some (n_go s t (IQue (IT (TWait ms))), [])) = Some (s', e)) by (destruct (n_task s); auto; now elim KD).
        clear E. destruct (Z.ltb_spec ms (-1)); [lia|]. destruct (n_fin s) eqn:EF; [|destruct (Z.eqb_spec ms 0)]; injection E1 as <- <-.
        * apply (caller_nil s es _ t (IPoll (IT (TWait ms)))); rewrite ?ET; auto; discriminate.
        * apply (caller_eff s es _ t (IRet (IR (RErr TimedOut)))); rewrite ?ET; auto; try discriminate. rewrite spof_go. cbn. split; [|reflexivity].
          exists (RErr TimedOut). split; [reflexivity|]. right. split; [reflexivity|]. split; [lia|]. split; [|reflexivity].
          unfold spof. destruct (n_task s); try discriminate. rewrite EF. discriminate.
        * apply (caller_nil s es _ t (IQue (IT (TWait ms)))); rewrite ?ET; auto; discriminate.
      + destruct (n_dormant s) eqn:EK; [|discriminate]. destruct c as [[]|p|]; cbn in P; try contradiction.
        injection E as <- <-. apply linv_hind; auto; [now rewrite ET|]. intros p. cbn. split; [|reflexivity]. exists (RErr OK). split; [reflexivity|]. now left.
      + contradiction.
      + injection E as <- <-. apply (linv_caller s es _ t IIdle); auto; try discriminate.
        * intros x [<-|[]]. reflexivity.
        * apply lrun_ret; auto.
          -- now rewrite stof_busy, ET by (auto; congruence).
          -- eapply (stof_caller s _ t IIdle); [reflexivity|now left|apply zero_run; [exact I|congruence]].
    - destruct (n_thr s t) eqn:ET; try discriminate. destruct c as [[]|p|]; try discriminate. destruct (Z.eqb_spec ms (-1)); [discriminate|]. injection E as <- <-.
      assert (P := si_pc s I t). rewrite ET in P. destruct P as (_ & EF).
      apply (caller_eff s es _ t (IRet (IR (RErr TimedOut)))); rewrite ?ET; auto; try discriminate. rewrite spof_go. cbn. split; [|reflexivity].
      exists (RErr TimedOut). split; [reflexivity|]. right. split; [reflexivity|]. split; [assumption|]. split; [|reflexivity].
      unfold spof. destruct (n_task s); try discriminate. rewrite EF. discriminate.
    - destruct (n_thr s t) eqn:ET; try discriminate. destruct (n_dormant s); [discriminate|]. injection E as <- <-. now rewrite app_nil_r.
    - assert (NS : n_task s <> KDorm -> forall u, n_thr s u <> ISta) by (intros X u U; destruct (ista_fin s u I U); contradiction).
      assert (ZE := si_zero s I).
      destruct (n_task s) eqn:EK; try discriminate; cbn in TK.
      + destruct (n_st s) eqn:ES; [|discriminate]. injection E as <- <-. apply (linv_app s); auto.
        * apply lrun_nil; auto; [unfold spof; cbn; now rewrite EK|]. intros u. unfold stof. cbn. now rewrite EK.
        * intros u U. cbn in U. elim (NS ltac:(discriminate) u U).
      + injection E as <- <-. apply (linv_app s); auto.
        * intros f F. exists (set_st (set_st (set_st f 0%nat (Pending (IT TBegin))) 0%nat (Done void)) 0%nat Out). destruct ZE as [ZE|ZE]; [|discriminate].
          assert (F0 : f 0%nat = Out) by (rewrite F; unfold stof; cbn; now rewrite EK, ZE). split.
          -- apply lr_call; [exact F0|]. eapply lr_eff; [reflexivity| |apply lr_ret; [reflexivity|constructor]].
             unfold spof. cbn. rewrite EK. split; [|reflexivity]. exists RVoid. auto.
          -- intros u. unfold set_st, stof. cbn. destruct (Nat.eqb_spec u 0) as [->|]; [now rewrite ZE|]. rewrite F. unfold stof. cbn. destruct (Nat.eqb_spec u 0); [contradiction|reflexivity].
        * intros u U. cbn in U. elim (NS ltac:(discriminate) u U).
      + destruct (n_thr s 0%nat) eqn:EZ; try discriminate. injection E as <- <-. apply (linv_app s); auto.
        * apply lrun_call; auto; [unfold spof; cbn; now rewrite EK|unfold stof; cbn; now rewrite EK, EZ|]. intros u. unfold stof. cbn. destruct (Nat.eqb u 0); reflexivity.
        * intros u U. cbn in U. elim (NS ltac:(discriminate) u U).
      + injection E as <- <-. apply (linv_app s); auto.
        * apply lrun_nil; auto; [unfold spof; cbn; now rewrite EK|]. intros u. unfold stof. cbn. rewrite EK. destruct (Nat.eqb u 0); [reflexivity|]. destruct (n_thr s u); reflexivity.
        * intros u U. cbn in U. destruct (n_thr s u) eqn:EU; try discriminate. elim (NS ltac:(discriminate) u EU).
      + injection E as <- <-. destruct TK as (EF & ES). apply (linv_app s); auto.
        * intros f F. exists (set_st (set_st f 0%nat (Done void)) 0%nat Out). destruct ZE as [ZE|ZE]; [|discriminate].
          assert (F0 : f 0%nat = Pending (IT TEnd)) by (rewrite F; unfold stof; cbn; now rewrite EK). split.
          -- eapply lr_eff; [exact F0| |apply lr_ret; [reflexivity|constructor]].
             unfold spof. cbn. rewrite EK, EF. split; [|reflexivity]. exists RVoid. auto.
          -- intros u. unfold set_st, stof. cbn. destruct (Nat.eqb_spec u 0) as [->|]; [now rewrite ZE|]. rewrite F. unfold stof. cbn. destruct (Nat.eqb_spec u 0); [contradiction|reflexivity].
        * intros u U. cbn in U. elim (NS ltac:(discriminate) u U).
  Qed.
  Lemma linv_init : linv ini [].
  Proof.
    exists [], out0. split; [reflexivity|]. split; [constructor|]. split; [|discriminate]. intros t. unfold stof. cbn. now destruct (Nat.eqb t 0).
  Qed.
  Lemma reach_inv ls s es : (forall l, In l ls -> n_label_ok l) -> exec stp ini ls = Some (s, es) -> sinv s /\ linv s es.
  Proof.
    intros HL E.
    assert (G : forall ls s0 es0 s es, (forall l, In l ls -> n_label_ok l) -> sinv s0 /\ linv s0 es0 -> exec stp s0 ls = Some (s, es) -> sinv s /\ linv s (es0 ++ es)).
    { clear. induction ls as [|l ls IH]; intros s0 es0 s es HL I E; cbn [exec] in E.
      - injection E as <- <-. now rewrite app_nil_r.
      - destruct (stp s0 l) as [[s1 e1]|] eqn:E1; [|discriminate]. destruct (exec stp s1 ls) as [[s2 e2]|] eqn:E2; [|discriminate]. injection E as <- <-.
        rewrite app_assoc. apply (IH s1 (es0 ++ e1)); [intros x X; apply HL; now right| |exact E2]. destruct I as (I & LI). split.
        + eapply sinv_step; eauto. apply HL. now left.
        + eapply linv_step; eauto. apply HL. now left. }
    exact (G ls ini [] s es HL (conj sinv_init linv_init) E).
  Qed.
  Lemma ispec_thread l : forall s s', sp_run spec s l s' -> sp_run tspec (fst s) (thread_part l) (fst s').
  Proof.
    induction l as [|[[t c] r] l IH]; intros s s' H; inversion H; subst; [constructor|].
    match goal with h : ispec _ _ _ _ _ _ |- _ => rename h into P end. match goal with h : sp_run _ _ l s' |- _ => rename h into Q end. apply IH in Q.
    destruct c as [c|p|]; cbn [thread_part flat_map].
    - destruct P as ((r0 & -> & P) & _). econstructor; [exact P|exact Q].
    - destruct P as (_ & P & _). rewrite P in Q. exact Q.
    - destruct P as (_ & ->). exact Q.
  Qed.
  Theorem itron_thread_linearizable ls s es : (forall l, In l ls -> n_label_ok l) -> exec stp ini ls = Some (s, es) ->
    exists es' f st p, history es' = history es /\ lrun out0 (Finished, prio0) es' f (st, p) /\
      one_run_per_start st (marks Finished (thread_part (effects es'))).
  Proof.
    intros HL E. destruct (reach_inv ls s es HL E) as (_ & es' & f & H & L & _). exists es', f, (spof s), (n_prio s). split; [exact H|]. split; [exact L|].
    apply thread_runs. exact (ispec_thread _ _ _ (lin_run_effects _ _ _ _ _ _ _ _ _ L)).
  Qed.
  Theorem itron_thread_priority ls s es : (forall l, In l ls -> n_label_ok l) -> exec stp ini ls = Some (s, es) ->
    n_task s = KRun -> n_kpri s = n_prio s \/ exists t, n_setting s t.
  Proof.
    intros HL E K. destruct (reach_inv ls s es HL E) as (I & _). destruct (si_pri s I) as [X|[X|(t & X)]]; [unfold n_dormant in X; rewrite K in X; discriminate|now left|].
    right. exists t. pose proof (si_pc s I t) as P. rewrite K in P. unfold n_setting. destruct (n_thr s t) as [| |[[]|?|]|[[]|?|]| | | | | |[]| | | | | |]; cbn in X, P; try discriminate; auto; intuition discriminate.
  Qed.

  (** * progress *)
  Lemma holder_moves s t : sinv s -> holds (n_thr s t) = true -> stp s (NStep t) <> None.
  Proof.
    intros I H. pose proof (si_pc s I t) as P. cbn [n_step]. destruct (n_thr s t) as [| |c|c| | | | | |r| | | | | |] eqn:ET; try discriminate.
    - cbn in P. assert (X : forall b, n_is_finished s t c b <> None) by (intros b; destruct c as [[]|?|]; cbn; try contradiction; destruct b; discriminate).
      destruct (n_task s); try apply X; destruct (n_fin s); try apply X; discriminate.
    - destruct P as (P & _). destruct c as [[]|?|]; cbn; try contradiction; try discriminate. destruct (n_dormant s); discriminate.
    - destruct (n_task s); discriminate.
  Qed.
  Lemma starter_moves s t : sinv s -> starting (n_thr s t) = true -> stp s (NStep t) <> None.
  Proof.
    intros I H. cbn [n_step]. destruct (n_thr s t) as [| | | | | | | | |[]| | | | | |] eqn:ET; try discriminate. destruct (n_task s); discriminate.
  Qed.
  Definition nowait (q : ipc) : Prop := match q with IWai _ | IQue _ | IPoll _ | IDel => False | _ => True end.
  Lemma zero_nowait ls s0 s es : nowait (n_thr s0 0%nat) -> exec stp s0 ls = Some (s, es) -> nowait (n_thr s 0%nat).
  Proof.
    intros H E. refine (exec_inv_st _ _ _ stp (fun s => nowait (n_thr s 0%nat)) _ ls s0 s es H E). clear.
    intros s l s' e H E.
    assert (G : forall t q, (t = 0%nat -> nowait q) -> nowait (fupd (n_thr s) t q 0%nat)).
    { intros t q X. rewrite fupd_eq. destruct (Nat.eqb_spec 0 t); auto. }
    assert (FN : forall t c b, n_is_finished s t c b = Some (s', e) -> nowait (n_thr s' 0%nat)).
    { intros t c b X. unfold n_is_finished in X. destruct c as [[]|?|]; try discriminate; [destruct b| |]; injection X as <- _; cbn; apply G; intros _; try exact Logic.I. destruct b; exact Logic.I. }
    destruct l as [t c|t|t|t|]; cbn [n_step] in E.
    - destruct (n_thr s t); try discriminate. destruct (n_entry t c) as [q|] eqn:EE; [|discriminate].
      assert (X : t = 0%nat -> nowait q).
      { intros ->. cbn in EE. destruct c as [[]|?|]; try discriminate; injection EE as <-; exact Logic.I. }
      destruct (Nat.eqb t 0); [destruct (n_task s); try discriminate|]; injection E as <- _; cbn; apply G; exact X.
    - destruct (n_thr s t) eqn:ET; try discriminate.
      + destruct (n_mtx s); [discriminate|]. destruct c as [[]|?|]; try discriminate; injection E as <- _; cbn; apply G; intros _; exact Logic.I.
      + destruct (n_task s); try (apply (FN t c false); exact E); destruct (n_fin s); try (apply (FN t c false); exact E); injection E as <- _; cbn; apply G; intros _; exact Logic.I.
      + exact (FN _ _ _ E).
      + injection E as <- _; cbn; apply G; intros _; exact Logic.I.
      + destruct (n_task s); injection E as <- _; cbn; apply G; intros _; exact Logic.I.
      + injection E as <- _; cbn; apply G; intros _. destruct ((match n_task s with KDorm | KDel => 0 | _ => n_kpri s end) =? n_prio s); exact Logic.I.
      + injection E as <- _; cbn; apply G; intros _; exact Logic.I.
      + injection E as <- _; cbn; apply G; intros _; exact Logic.I.
      + injection E as <- _; cbn; apply G; intros _. destruct r; exact Logic.I.
      + injection E as <- _; cbn; apply G; intros _; exact Logic.I.
      + assert (Z : t <> 0%nat) by (intros ->; rewrite ET in H; exact H).
        repeat match type of E with context[match ?x with _ => _ end] => destruct x; try discriminate end; injection E as <- _; cbn; (apply G; contradiction).
      + assert (Z : t <> 0%nat) by (intros ->; rewrite ET in H; exact H).
        repeat match type of E with context[match ?x with _ => _ end] => destruct x; try discriminate end; injection E as <- _; cbn; (apply G; contradiction).
      + injection E as <- _; cbn; apply G; intros _; exact Logic.I.
      + injection E as <- _; cbn; apply G; intros _; exact Logic.I.
    - destruct (n_thr s t) eqn:ET; try discriminate. destruct c as [[]|?|]; try discriminate. destruct (ms =? -1); [discriminate|]. injection E as <- _. cbn. apply G. intros _. exact Logic.I.
    - destruct (n_thr s t); try discriminate. destruct (n_dormant s); [discriminate|]. now injection E as <- _.
    - destruct (n_task s); try discriminate; [destruct (n_st s); [|discriminate]| |destruct (n_thr s 0%nat) eqn:E0; try discriminate| |]; injection E as <- _; cbn; rewrite ?E0; auto.
      destruct (n_thr s 0%nat); auto.
  Qed.
  Theorem itron_thread_no_hang ls s es : (forall l, In l ls -> n_label_ok l) -> exec stp ini ls = Some (s, es) ->
    (forall t, stp s (NStep t) = None) -> stp s NTask = None ->
    (forall t, n_idle s t) /\ n_task s = KDorm /\
    exists es' f p, history es' = history es /\ lrun out0 (Finished, prio0) es' f (Finished, p) /\
      exists k, marks Finished (thread_part (effects es')) = concat (repeat [MStart; MBegin; MEnd] k).
  Proof.
    intros HL E NT TT. destruct (reach_inv ls s es HL E) as (I & es' & f & H & L & _).
    assert (Z := zero_nowait ls ini s es Logic.I E).
    assert (M : n_mtx s = None).
    { destruct (n_mtx s) as [u|] eqn:M; [|reflexivity]. apply (si_mtx s I) in M. elim (holder_moves s u I M). apply NT. }
    assert (NS : forall t, starting (n_thr s t) = false).
    { intros t. destruct (starting (n_thr s t)) eqn:S; [|reflexivity]. elim (starter_moves s t I S). apply NT. }
    assert (K : n_task s = KDorm /\ n_fin s = true).
    { assert (TK := si_task s I). assert (W := si_wit s I). assert (ZR := si_zero s I). assert (NZ := NT 0%nat). cbn [n_step] in TT, NZ.
      destruct (n_task s) eqn:K; try discriminate; cbn in TK.
      - split; [reflexivity|]. destruct (n_fin s); [reflexivity|]. destruct W as (u & U); [auto|]. rewrite NS in U. discriminate.
      - exfalso. destruct (n_st s); [discriminate|]. destruct W as (u & U); [auto|]. rewrite NS in U. discriminate.
      - exfalso. pose proof (holder_moves s 0 I) as HM. cbn [n_step] in HM. rewrite K in HM. pose proof (si_pc s I 0%nat) as P. rewrite K, M in *. destruct TK as (ES & EF).
        destruct (n_thr s 0%nat) as [|c|c|c| | | | | |r| | | | | |]; cbn in Z, TT; try contradiction; try discriminate.
        + destruct c as [[]|?|]; try contradiction P; discriminate.
        + rewrite EF in *. destruct c as [[]|?|]; try contradiction P; cbn in NZ; discriminate.
        + destruct c as [[]|?|]; cbn in P; try (destruct P; contradiction); cbn in NZ; try discriminate; destruct (n_dormant s); discriminate.
      - contradiction. }
    destruct K as (K & EF).
    assert (ID : forall t, n_idle s t).
    { intros t. unfold n_idle. specialize (NT t). specialize (NS t). pose proof (si_pc s I t) as P. pose proof (holder_moves s t I) as HM. cbn [n_step] in NT, HM. rewrite K, EF, M in *. unfold n_dormant in *. rewrite K in *.
      destruct (n_thr s t) as [|c|c|c| | | | | |r| |c|c|c| |]; cbn in P, NS; try reflexivity; try discriminate; exfalso.
      - destruct c as [[]|?|]; try contradiction P; discriminate.
      - destruct P as (P & _). destruct c as [[]|?|]; try contradiction P; discriminate.
      - destruct c as [[]|?|]; try contradiction P. destruct (ms <? -1); discriminate.
      - destruct P; discriminate.
      - destruct c as [[]|?|]; try contradiction P. discriminate. }
    split; [exact ID|]. split; [exact K|]. exists es', f, (n_prio s). assert (SF : spof s = Finished) by (unfold spof; now rewrite K, EF). rewrite SF in L.
    split; [exact H|]. split; [exact L|]. destruct (thread_runs _ _ (ispec_thread _ _ _ (lin_run_effects _ _ _ _ _ _ _ _ _ L))) as (k & X). exists k. now rewrite app_nil_r in X.
  Qed.

  Definition nw (q : ipc) : nat :=
    match q with
    | IIdle => 0 | IRet _ => 1 | ISetSt => 2 | IUnlock _ => 3 | ISetChg => 4 | IChg => 4 | IRef => 5 | ISta => 11 | IClr => 12
    | IDorm _ => 13 | IFlg _ => 14 | ILock _ => 15 | IDel => 2 | IPoll _ => 3 | IQue _ => 4 | IWai _ => 5
    end.
  Definition kw (k : kpc) : nat := match k with KDorm | KDel => 0 | KExit => 1 | KFin => 2 | KRun => 3 | KClr => 4 | KAwait => 5 end.
  Definition nmeasure (n : nat) (s : its) : nat := (sumn (fun t => nw (n_thr s t)) n + kw (n_task s))%nat.
  Definition below (n : nat) (s : its) : Prop := forall t, (n <= t)%nat -> n_idle s t.
  Lemma nm_step n s l s' e : below n s -> n_own_step l -> stp s l = Some (s', e) -> below n s' /\ (nmeasure n s' < nmeasure n s)%nat.
  Proof.
    intros B OS E.
    assert (CL : forall t q fi st m k kp p, n_thr s t <> IIdle -> (nw q + kw k < nw (n_thr s t) + kw (n_task s))%nat ->
              below n (mkI fi st m k kp p (fupd (n_thr s) t q)) /\ (nmeasure n (mkI fi st m k kp p (fupd (n_thr s) t q)) < nmeasure n s)%nat).
    { intros t q fi st m k kp p NI LT. assert (TN : (t < n)%nat) by (destruct (Nat.lt_ge_cases t n) as [|X]; [assumption|elim NI; now apply B]). split.
      - intros u Hu. unfold n_idle. cbn. rewrite fupd_other by lia. now apply B.
      - unfold nmeasure. cbn [n_thr n_task].
        pose proof (sumn_change n (fun u => nw (n_thr s u)) (fun u => nw (fupd (n_thr s) t q u)) t TN) as X. cbn beta in X. rewrite fupd_same in X.
        assert (Y : forall u, u <> t -> nw (fupd (n_thr s) t q u) = nw (n_thr s u)) by (intros u Hu; now rewrite fupd_other). specialize (X Y). lia. }
    assert (FN : forall t c b, n_thr s t = IFlg c \/ n_thr s t = IDorm c -> n_is_finished s t c b = Some (s', e) -> below n s' /\ (nmeasure n s' < nmeasure n s)%nat).
    { intros t c b T X. unfold n_is_finished in X. destruct c as [[]|?|]; try discriminate; [destruct b| |destruct b]; injection X as <- _; unfold n_go; apply CL; destruct T as [-> | ->]; try discriminate; cbn; lia. }
    destruct l as [t c|t|t|t|]; cbn in OS; try contradiction; cbn [n_step] in E.
    - assert (NI : n_thr s t <> IIdle) by (intros X; rewrite X in E; discriminate).
      destruct (n_thr s t) eqn:ET; try discriminate.
      + destruct (n_mtx s); [discriminate|]. destruct c as [[]|?|]; try discriminate; injection E as <- _; apply CL; rewrite ?ET; auto; cbn; lia.
      + destruct (n_task s) eqn:K; try (apply (FN t c false); [auto|exact E]); destruct (n_fin s); try (apply (FN t c false); [auto|exact E]); injection E as <- _; unfold n_go; apply CL; rewrite ?ET, ?K; auto; cbn; lia.
      + apply (FN t c (n_dormant s)); auto.
      + injection E as <- _; apply CL; rewrite ?ET; auto; cbn; lia.
      + destruct (n_task s) eqn:K; injection E as <- _; unfold n_go; apply CL; rewrite ?ET; auto; rewrite ?K; cbn; lia.
      + injection E as <- _; unfold n_go; apply CL; rewrite ?ET; auto. destruct ((match n_task s with KDorm | KDel => 0 | _ => n_kpri s end) =? n_prio s); cbn; lia.
      + injection E as <- _; apply CL; rewrite ?ET; auto; cbn; lia.
      + injection E as <- _; apply CL; rewrite ?ET; auto; cbn; lia.
      + injection E as <- _; apply CL; rewrite ?ET; auto. destruct r; cbn; lia.
      + injection E as <- _; apply CL; rewrite ?ET; auto; cbn; lia.
      + repeat match type of E with context[match ?x with _ => _ end] => destruct x eqn:?; try discriminate end; injection E as <- _; unfold n_go; apply CL; rewrite ?ET; auto; repeat match goal with h : n_task s = _ |- _ => rewrite h in * end; cbn; lia.
      + repeat match type of E with context[match ?x with _ => _ end] => destruct x eqn:?; try discriminate end; injection E as <- _; unfold n_go; apply CL; rewrite ?ET; auto; repeat match goal with h : n_task s = _ |- _ => rewrite h in * end; cbn; lia.
      + injection E as <- _; apply CL; rewrite ?ET; auto; cbn; lia.
      + injection E as <- _; unfold n_go; apply CL; rewrite ?ET; auto; cbn; lia.
    - destruct (n_thr s t) eqn:ET; try discriminate. destruct c as [[]|?|]; try discriminate. destruct (ms =? -1); [discriminate|]. injection E as <- _. unfold n_go. apply CL; rewrite ET; [discriminate|cbn; lia].
    - destruct (n_task s) eqn:K; try discriminate; [destruct (n_st s); [|discriminate]| |destruct (n_thr s 0%nat) eqn:E0; try discriminate| |]; injection E as <- _; unfold nmeasure; cbn [n_thr n_task]; rewrite K.
      all: try (split; [exact B|cbn; lia]).
      split.
      + intros u Hu. unfold n_idle. cbn. now rewrite (B u Hu).
      + pose proof (sumn_le n (fun t => nw (match n_thr s t with IQue c => IPoll c | q => q end)) (fun t => nw (n_thr s t))) as X. cbn beta in X.
        assert (Y : forall k, (k < n)%nat -> (nw (match n_thr s k with IQue c => IPoll c | q => q end) <= nw (n_thr s k))%nat) by (intros k _; destruct (n_thr s k); cbn; lia).
        specialize (X Y). cbn [kw]. lia.
  Qed.
  Theorem itron_thread_calls_end n s ls s' es : (forall t, (n <= t)%nat -> n_idle s t) -> (forall l, In l ls -> n_own_step l) ->
    exec stp s ls = Some (s', es) -> (length ls <= 15 * n + 5)%nat.
  Proof.
    intros B OS E. pose proof (exec_measure _ _ _ stp (below n) n_own_step (nmeasure n) (fun s l s' e h o x => nm_step n s l s' e h o x) ls s s' es B OS E) as X.
    assert (sumn (fun t => nw (n_thr s t)) n <= n * 15)%nat by (apply sumn_bound; intros k _; destruct (n_thr s k); cbn; lia).
    unfold nmeasure in X. assert (kw (n_task s) <= 5)%nat by (destruct (n_task s); cbn; lia). lia.
  Qed.

  (** * destroy *)
  Definition dcore (s : its) : Prop :=
    match n_task s with
    | KDorm => n_fin s = true
    | KAwait => n_st s = true /\ n_fin s = false
    | KClr | KRun | KFin => n_fin s = false
    | KExit => n_fin s = true
    | KDel => False
    end.
  Definition dpc (s : its) (q : ipc) : Prop :=
    match q with
    | IWai (IT TDestroy) | IPoll (IT TDestroy) => dcore s
    | IQue (IT TDestroy) => dcore s /\ n_fin s = false
    | IDel => n_task s = KDorm /\ n_fin s = true
    | IRet r => r = void /\ n_task s = KDel
    | IIdle => n_task s = KDel
    | _ => False
    end.
  Definition dinv (d : nat) (s : its) (es : list (event icall ires)) : Prop :=
    d <> 0%nat /\ (forall u, u <> d -> n_thr s u = IIdle) /\ dpc s (n_thr s d) /\
    exists es' f, history es' = history es /\ lrun out0 (Finished, prio0) es' f (spof s, n_prio s) /\ forall t, f t = stof s t.
  Lemma dinv_lin d s es s' ev : dinv d s es ->
    (forall f, (forall t, f t = stof s t) -> exists f', lrun f (spof s, n_prio s) ev f' (spof s', n_prio s') /\ forall t, f' t = stof s' t) ->
    exists es' f, history es' = history (es ++ ev) /\ lrun out0 (Finished, prio0) es' f (spof s', n_prio s') /\ forall t, f t = stof s' t.
  Proof.
    intros (_ & _ & _ & es' & f & H & L & F) ST. destruct (ST f F) as (f' & L' & F'). exists (es' ++ ev), f'. split; [now rewrite !history_app, H|].
    split; [eapply lin_run_app; eauto|exact F'].
  Qed.
  Lemma dinv_step d s es l s' e : dinv d s es -> n_own_step l -> stp s l = Some (s', e) -> dinv d s' (es ++ e).
  Proof.
    intros DI OS E. assert (DI' := DI). destruct DI' as (D0 & OT & PC & _).
    assert (MK : forall s' ev q, n_thr s' = fupd (n_thr s) d q -> dpc s' q ->
       (forall f, (forall t, f t = stof s t) -> exists f', lrun f (spof s, n_prio s) ev f' (spof s', n_prio s') /\ forall t, f' t = stof s' t) -> dinv d s' (es ++ ev)).
    { intros s1 ev q T P ST. split; [exact D0|]. split; [intros u N; rewrite T, fupd_other by exact N; auto|]. split; [now rewrite T, fupd_same|]. exact (dinv_lin d s es s1 ev DI ST). }
    assert (SO : stof s d = st_of (n_thr s d)) by (unfold stof; destruct (Nat.eqb_spec d 0); [contradiction|reflexivity]).
    assert (SK : forall s1 q, n_thr s1 = fupd (n_thr s) d q -> (n_task s1 = n_task s \/ n_task s = KDorm /\ n_task s1 = KDel) -> forall u, stof s1 u = if Nat.eqb u d then st_of q else stof s u).
    { intros s1 q T K. apply (stof_caller s s1 d q T); [|intros; contradiction]. destruct K as [K|(K1 & K2)]; [now left|]. right. split; [exact D0|]. rewrite K1, K2. split; intros [X|X]; discriminate. }
    assert (NIL : forall q, st_of q = st_of (n_thr s d) -> forall f, (forall t, f t = stof s t) -> exists f', lrun f (spof s, n_prio s) [] f' (spof (n_go s d q), n_prio (n_go s d q)) /\ forall t, f' t = stof (n_go s d q) t).
    { intros q Q. apply lrun_nil; auto. intros u. rewrite (SK (n_go s d q) q eq_refl (or_introl eq_refl)). destruct (Nat.eqb_spec u d) as [->|]; [now rewrite SO|reflexivity]. }
    destruct l as [t c|t|t|t|]; cbn in OS; try contradiction; cbn [n_step] in E.
    - destruct (Nat.eq_dec t d) as [->|N]; [|rewrite (OT t N) in E; discriminate].
      destruct (n_thr s d) as [|c|c|c| | | | | |r| |c|c|c| |r] eqn:ET; cbn in PC; try contradiction; try discriminate.
      + destruct c as [[]|?|]; try contradiction. assert (KD : n_task s <> KDel) by (intros X; unfold dcore in PC; rewrite X in PC; exact PC).
        assert (E1 : (if n_fin s then Some (n_go s d (IPoll (IT TDestroy)), []) else Some (n_go s d (IQue (IT TDestroy)), [])) = Some (s', e)) by (destruct (n_task s); auto; now elim KD).
        clear E. destruct (n_fin s) eqn:EF; injection E1 as <- <-; (eapply MK; [reflexivity| |apply NIL; reflexivity]); cbn; auto.
      + destruct c as [[]|?|]; try contradiction. destruct (n_dormant s) eqn:DM; [|discriminate]. injection E as <- <-. eapply MK; [reflexivity| |apply NIL; reflexivity].
        cbn. unfold dcore, n_dormant in *. destruct (n_task s); try discriminate. auto.
      + injection E as <- <-. destruct PC as (K & EF). eapply MK; [reflexivity|cbn; auto|].
        apply lrun_eff; [exact SO| |intros u; erewrite (SK _ (IRet void)); [reflexivity|reflexivity|auto]]. unfold spof. cbn. rewrite K, EF. split; [|reflexivity]. exists RVoid. auto.
      + injection E as <- <-. destruct PC as (-> & K). eapply MK; [reflexivity|exact K|]. apply lrun_ret; auto. intros u; erewrite (SK _ IIdle); [reflexivity|reflexivity|auto].
    - destruct (Nat.eq_dec t d) as [->|N]; [|rewrite (OT t N) in E; discriminate].
      destruct (n_thr s d) as [|c|c|c| | | | | |r| |c|c|c| |r] eqn:ET; cbn in PC; try contradiction; try discriminate. destruct c as [[]|?|]; try contradiction; discriminate.
    - assert (TH : forall th, (forall u, u <> d -> th u = IIdle) -> forall s1 ev, n_thr s1 = th -> dpc s1 (th d) ->
         (forall f, (forall t, f t = stof s t) -> exists f', lrun f (spof s, n_prio s) ev f' (spof s1, n_prio s1) /\ forall t, f' t = stof s1 t) -> dinv d s1 (es ++ ev)).
      { intros th HT s1 ev T P ST. split; [exact D0|]. rewrite T. split; [exact HT|]. split; [exact P|]. exact (dinv_lin d s es s1 ev DI ST). }
      assert (Z0 : n_thr s 0%nat = IIdle) by (apply OT; auto).
      destruct (n_task s) eqn:K; try discriminate.
      + destruct (n_st s) eqn:ES; [|discriminate]. injection E as <- <-. apply (TH (n_thr s) OT); [reflexivity| |].
        * destruct (n_thr s d) as [|c|c|c| | | | | |r| |c|c|c| |r]; cbn in PC |- *; try tauto; unfold dcore in *; cbn; try (destruct c as [[]|?|]; try contradiction); rewrite ?K in *; intuition congruence.
        * apply lrun_nil; auto; [unfold spof; cbn; now rewrite K|]. intros u. unfold stof. cbn. now rewrite K.
      + injection E as <- <-. apply (TH (n_thr s) OT); [reflexivity| |].
        * destruct (n_thr s d) as [|c|c|c| | | | | |r| |c|c|c| |r]; cbn in PC |- *; try tauto; unfold dcore in *; cbn; try (destruct c as [[]|?|]; try contradiction); rewrite ?K in *; intuition congruence.
        * intros f F. exists (set_st (set_st (set_st f 0%nat (Pending (IT TBegin))) 0%nat (Done void)) 0%nat Out).
          assert (F0 : f 0%nat = Out) by (rewrite F; unfold stof; cbn; now rewrite K, Z0). split.
          -- apply lr_call; [exact F0|]. eapply lr_eff; [reflexivity| |apply lr_ret; [reflexivity|constructor]].
             unfold spof. cbn. rewrite K. split; [|reflexivity]. exists RVoid. auto.
          -- intros u. unfold set_st, stof. cbn. destruct (Nat.eqb_spec u 0) as [->|]; [now rewrite Z0|]. rewrite F. unfold stof. cbn. destruct (Nat.eqb_spec u 0); [contradiction|reflexivity].
      + rewrite Z0 in E. injection E as <- <-. apply (TH (n_thr s) OT); [reflexivity| |].
        * destruct (n_thr s d) as [|c|c|c| | | | | |r| |c|c|c| |r]; cbn in PC |- *; try tauto; unfold dcore in *; cbn; try (destruct c as [[]|?|]; try contradiction); rewrite ?K in *; intuition congruence.
        * apply lrun_call; auto; [unfold spof; cbn; now rewrite K|unfold stof; cbn; now rewrite K, Z0|]. intros u. unfold stof. cbn. destruct (Nat.eqb u 0); reflexivity.
      + injection E as <- <-. apply (TH (fun u => match n_thr s u with IQue c => IPoll c | q => q end)); [intros u N; now rewrite (OT u N)|reflexivity| |].
        * destruct (n_thr s d) as [|c|c|c| | | | | |r| |c|c|c| |r]; cbn in PC |- *; try tauto; unfold dcore in *; cbn; try (destruct c as [[]|?|]; try contradiction); rewrite ?K in *; intuition congruence.
        * apply lrun_nil; auto; [unfold spof; cbn; now rewrite K|]. intros u. unfold stof. cbn. rewrite K. destruct (Nat.eqb u 0); [reflexivity|]. destruct (n_thr s u); reflexivity.
      + injection E as <- <-. assert (EF : n_fin s = true).
        { destruct (n_thr s d) as [|c|c|c| | | | | |r| |c|c|c| |r]; cbn in PC; try contradiction; unfold dcore in *; try (destruct c as [[]|?|]; try contradiction); rewrite ?K in *; intuition congruence. }
        apply (TH (n_thr s) OT); [reflexivity| |].
        * destruct (n_thr s d) as [|c|c|c| | | | | |r| |c|c|c| |r]; cbn in PC |- *; try tauto; unfold dcore in *; cbn; try (destruct c as [[]|?|]; try contradiction); rewrite ?K in *; intuition congruence.
        * intros f F. exists (set_st (set_st f 0%nat (Done void)) 0%nat Out).
          assert (F0 : f 0%nat = Pending (IT TEnd)) by (rewrite F; unfold stof; cbn; now rewrite K). split.
          -- eapply lr_eff; [exact F0| |apply lr_ret; [reflexivity|constructor]].
             unfold spof. cbn. rewrite K, EF. split; [|reflexivity]. exists RVoid. auto.
          -- intros u. unfold set_st, stof. cbn. destruct (Nat.eqb_spec u 0) as [->|]; [now rewrite Z0|]. rewrite F. unfold stof. cbn. destruct (Nat.eqb_spec u 0); [contradiction|reflexivity].
  Qed.
  (** all calls have returned; then one client destroys the thread *)
  Theorem itron_thread_destroy ls0 s0 es0 d ls s es : (forall l, In l ls0 -> n_label_ok l) -> exec stp ini ls0 = Some (s0, es0) -> (forall t, n_idle s0 t) ->
    (forall l, In l ls -> n_own_step l) -> exec stp s0 (NCall d (IT TDestroy) :: ls) = Some (s, es) ->
    (exists es' f st p, history es' = history (es0 ++ es) /\ lrun out0 (Finished, prio0) es' f (st, p) /\
       (n_idle s d -> st = Destroyed /\ n_task s = KDel /\ exists k, marks Finished (thread_part (effects es')) = concat (repeat [MStart; MBegin; MEnd] k))) /\
    ((forall t, stp s (NStep t) = None) -> stp s NTask = None -> n_idle s d).
  Proof.
    intros HL E0 ID OS E. destruct (reach_inv ls0 s0 es0 HL E0) as (I & es' & f & H & L & F & _).
    cbn [exec n_step] in E. rewrite (ID d) in E. destruct (Nat.eq_dec d 0) as [->|D0]; [discriminate|]. unfold n_entry in E.
    destruct (Nat.eqb_spec d 0); [contradiction|].
    destruct (exec stp (n_go s0 d (IWai (IT TDestroy))) ls) as [[s1 es1]|] eqn:E1; [|discriminate]. injection E as <- <-.
    assert (NS : forall t, starting (n_thr s0 t) = false) by (intros t; now rewrite (ID t)).
    assert (D : dinv d (n_go s0 d (IWai (IT TDestroy))) (es0 ++ [Call d (IT TDestroy)])).
    { split; [exact D0|]. split; [intros u N; cbn; rewrite fupd_other by exact N; apply ID|]. split.
      - cbn. rewrite fupd_same. cbn. unfold dcore. cbn. assert (TK := si_task s0 I). assert (W := si_wit s0 I). destruct (n_task s0); cbn in TK; try tauto.
        + destruct (n_fin s0); [reflexivity|]. destruct W as (u & U); [auto|]. rewrite NS in U. discriminate.
        + split; [|exact TK]. destruct (n_st s0); [reflexivity|]. destruct W as (u & U); [auto|]. rewrite NS in U. discriminate.
      - exists (es' ++ [Call d (IT TDestroy)]), (set_st f d (Pending (IT TDestroy))). split; [now rewrite !history_app, H|]. split.
        + eapply lin_run_app; [exact L|]. apply lr_call; [rewrite F; unfold stof; destruct (Nat.eqb_spec d 0); [contradiction|]; now rewrite (ID d)|constructor].
        + intros u. erewrite (stof_caller s0 _ d (IWai (IT TDestroy))); [|reflexivity|now left|intros; contradiction]. unfold set_st. destruct (Nat.eqb u d); [reflexivity|apply F]. }
    assert (G : forall ls s2 es2 s3 es3, (forall l, In l ls -> n_own_step l) -> dinv d s2 es2 -> exec stp s2 ls = Some (s3, es3) -> dinv d s3 (es2 ++ es3)).
    { clear. induction ls as [|l ls IH]; intros s2 es2 s3 es3 HL I E; cbn [exec] in E.
      - injection E as <- <-. now rewrite app_nil_r.
      - destruct (stp s2 l) as [[s4 e4]|] eqn:E1; [|discriminate]. destruct (exec stp s4 ls) as [[s5 e5]|] eqn:E2; [|discriminate]. injection E as <- <-.
        rewrite app_assoc. apply (IH s4); [intros x X; apply HL; now right| |exact E2]. eapply dinv_step; eauto. apply HL. now left. }
    specialize (G ls _ _ _ _ OS D E1). rewrite <- app_assoc in G. destruct G as (_ & OT & PC & es'' & f' & H' & L' & F'). split.
    - exists es'', f', (spof s1), (n_prio s1). split; [exact H'|]. split; [exact L'|]. intros T. unfold n_idle in T. rewrite T in PC. cbn in PC.
      assert (SD : spof s1 = Destroyed) by (unfold spof; now rewrite PC). split; [exact SD|]. split; [exact PC|].
      destruct (thread_runs _ _ (ispec_thread _ _ _ (lin_run_effects _ _ _ _ _ _ _ _ _ L'))) as (k & X). exists k. cbn [fst] in X. rewrite SD in X. cbn in X. now rewrite app_nil_r in X.
    - intros NT TT. specialize (NT d). cbn [n_step] in NT, TT. unfold n_idle. assert (Z0 : n_thr s1 0%nat = IIdle) by (apply OT; auto). rewrite Z0 in TT.
      destruct (n_thr s1 d) as [|c|c|c| | | | | |r| |c|c|c| |r] eqn:ET; cbn in PC; try contradiction; try discriminate; try reflexivity; exfalso.
      + destruct c as [[]|?|]; try contradiction. unfold dcore in PC. destruct (n_task s1); try contradiction; destruct (n_fin s1); discriminate.
      + destruct c as [[]|?|]; try contradiction. unfold dcore in PC. destruct PC as (PC & EF). destruct (n_task s1); try discriminate; try congruence; try contradiction. destruct PC as (X & _). rewrite X in TT. discriminate.
      + destruct c as [[]|?|]; try contradiction. unfold dcore, n_dormant in *. destruct (n_task s1); try discriminate; try contradiction. destruct PC as (X & _). rewrite X in TT. discriminate.
  Qed.
End Proofs.

(** client 2 polls when the first run has set EV_FINISHED but its task is not dormant yet; client 1 starts the thread again:
    tryWait does not return before the second run ends *)
Definition trywait_schedule : list ilabel :=
  [NCall 1 (IT TStart); NStep 1; NStep 1; NStep 1; NStep 1; NStep 1; NStep 1; NStep 1; NStep 1; NStep 1] ++
  [NTask; NTask; NTask; NTask; NCall 2 (IT (TWait 0)); NStep 2; NTask] ++
  [NCall 1 (IT TStart); NStep 1; NStep 1; NStep 1; NStep 1; NStep 1; NStep 1; NStep 1; NStep 1; NTask; NTask].
Theorem itron_trywait_blocks :
  ~ (forall prio0 minp maxp ext ls s es t ms, (forall l, In l ls -> n_label_ok l) -> exec (n_step prio0 minp maxp ext) (n_init prio0) ls = Some (s, es) ->
       n_running s t = Some (IT (TWait ms)) -> ms <> -1 -> n_step prio0 minp maxp ext s (NStep t) <> None \/ n_step prio0 minp maxp ext s (NTimeout t) <> None).
Proof.
  intros H. destruct (exec (n_step 5 1 10 (fun _ => 5)) (n_init 5) trywait_schedule) as [[s es]|] eqn:E; [|vm_compute in E; discriminate].
  specialize (H 5 1 10 (fun _ => 5) trywait_schedule s es 2%nat 0). vm_compute in E. injection E as <- <-.
  destruct H as [H|H]; try discriminate.
  - intros l X. cbn in X. intuition (subst; cbn; lia).
  - reflexivity.
  - reflexivity.
  - apply H. reflexivity.
  - apply H. reflexivity.
Qed.
