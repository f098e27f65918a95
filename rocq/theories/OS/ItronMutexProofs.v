(** Proofs about ItronMutex. *)
From Coq Require Import List ZArith Bool Lia Arith.
Import ListNotations.
From Verif Require Import Spec.OSError Spec.Linear Spec.MutexSpec OS.Sched OS.ItronMutexModel.
Open Scope Z_scope.

Definition ist_of (q : ipc) : status mcall err :=
  match q with IIdle => Out | IAcq c | IMine c | IInc c => Pending c | UAsk | UCnt | UDec | UUnl => Pending MUnlock | IRet r => Done r end.
Definition iabs (s : ist) : option (nat * nat) := match i_owner s with None => None | Some t => Some (t, S (Z.to_nat (i_count s))) end.

Section Inv.
  Variable M : nat.
  Definition ilin (s : ist) (es : list (event mcall err)) : Prop :=
    exists f, lin_run (mspec M) (fun _ => Out) None es f (iabs s) /\ forall t, f t = ist_of (i_thr s t).
  (** [n]: steps done so far *)
  Record iinv (n : nat) (s : ist) (es : list (event mcall err)) : Prop := {
    ii_cnt : 0 <= i_count s <= Z.of_nat n;
    ii_free : i_owner s = None -> i_count s = 0;
    ii_inc : forall t c, i_thr s t = IInc c -> i_owner s = Some t;
    ii_lock : forall t c, i_thr s t = IAcq c \/ i_thr s t = IMine c \/ i_thr s t = IInc c -> is_lock c = true;
    ii_ucnt : forall t, i_thr s t = UCnt -> i_owner s = Some t;
    ii_udec : forall t, i_thr s t = UDec -> i_owner s = Some t /\ 0 < i_count s;
    ii_uunl : forall t, i_thr s t = UUnl -> i_owner s = Some t -> i_count s = 0;
    ii_lin : ilin s es
  }.
  Lemma iinv_init : iinv 0 i_init [].
  Proof.
    constructor; cbn; try discriminate; try lia; auto.
    - intros t c [H|[H|H]]; discriminate.
    - exists (fun _ => Out). split; [constructor|reflexivity].
  Qed.
  Lemma lin_nil s es s' : ilin s es ->
    iabs s' = iabs s -> (forall u, ist_of (i_thr s' u) = ist_of (i_thr s u)) ->
    ilin s' (es ++ []).
  Proof. intros (f & L & F) A E. exists f. rewrite app_nil_r, A. split; [exact L|]. intros t. now rewrite F, E. Qed.
  Lemma lin_call s es s' t c : ilin s es ->
    iabs s' = iabs s -> ist_of (i_thr s t) = Out -> (forall u, ist_of (i_thr s' u) = if Nat.eqb u t then Pending c else ist_of (i_thr s u)) ->
    ilin s' (es ++ [Call t c]).
  Proof.
    intros (f & L & F) A O E. exists (set_st f t (Pending c)). rewrite A. split.
    - eapply lin_run_app; [exact L|]. apply lr_call; [now rewrite F|constructor].
    - intros u. unfold set_st. rewrite E. destruct (Nat.eqb u t); [reflexivity|apply F].
  Qed.
  Lemma lin_eff s es s' t c r : ilin s es ->
    mspec M (iabs s) t c r (iabs s') -> ist_of (i_thr s t) = Pending c -> (forall u, ist_of (i_thr s' u) = if Nat.eqb u t then Done r else ist_of (i_thr s u)) ->
    ilin s' (es ++ [Eff t c r]).
  Proof.
    intros (f & L & F) A O E. exists (set_st f t (Done r)). split.
    - eapply lin_run_app; [exact L|]. eapply lr_eff; [now rewrite F|exact A|constructor].
    - intros u. unfold set_st. rewrite E. destruct (Nat.eqb u t); [reflexivity|apply F].
  Qed.
  Lemma lin_ret s es s' t r : ilin s es ->
    iabs s' = iabs s -> ist_of (i_thr s t) = Done r -> (forall u, ist_of (i_thr s' u) = if Nat.eqb u t then Out else ist_of (i_thr s u)) ->
    ilin s' (es ++ [Ret t r]).
  Proof.
    intros (f & L & F) A O E. exists (set_st f t Out). rewrite A. split.
    - eapply lin_run_app; [exact L|]. apply lr_ret; [now rewrite F|constructor].
    - intros u. unfold set_st. rewrite E. destruct (Nat.eqb u t); [reflexivity|apply F].
  Qed.

  Lemma owns_true s t : owns s t = true <-> i_owner s = Some t.
  Proof. unfold owns. destruct (i_owner s) as [u|]; [|split; discriminate]. rewrite Nat.eqb_eq. split; congruence. Qed.

  (** the position of [t] changes to [q], owner and count to [o] and [k] *)
  Lemma mk n s es e o k t q :
    iinv n s es -> (o = i_owner s /\ k = i_count s) \/ (o = i_owner s /\ i_owner s = Some t) \/ (i_owner s = None /\ o = Some t /\ k = 0) \/ (i_owner s = Some t /\ o = None /\ k = 0) ->
    0 <= k <= Z.of_nat (S n) -> (o = None -> k = 0) ->
    (forall c, q = IInc c -> o = Some t) -> (forall c, q = IAcq c \/ q = IMine c \/ q = IInc c -> is_lock c = true) ->
    (q = UCnt -> o = Some t) -> (q = UDec -> o = Some t /\ 0 < k) -> (q = UUnl -> o = Some t -> k = 0) ->
    ilin (mkI o k (fupd (i_thr s) t q)) (es ++ e) ->
    iinv (S n) (mkI o k (fupd (i_thr s) t q)) (es ++ e).
  Proof.
    intros I CH B FR Q1 Q2 Q3 Q4 Q5 L. constructor; cbn [i_owner i_count i_thr]; try assumption.
    - intros u c. rewrite fupd_eq. destruct (Nat.eqb_spec u t) as [->|N]; [apply Q1|]. intros X. pose proof (ii_inc _ _ _ I u c X).
      destruct CH as [(-> & _)|[(-> & _)|[(X1 & -> & _)|(X1 & -> & _)]]]; congruence.
    - intros u c. rewrite fupd_eq. destruct (Nat.eqb_spec u t) as [->|N]; [apply Q2|]. apply (ii_lock _ _ _ I).
    - intros u. rewrite fupd_eq. destruct (Nat.eqb_spec u t) as [->|N]; [apply Q3|]. intros X. pose proof (ii_ucnt _ _ _ I u X).
      destruct CH as [(-> & _)|[(-> & _)|[(X1 & -> & _)|(X1 & -> & _)]]]; congruence.
    - intros u. rewrite fupd_eq. destruct (Nat.eqb_spec u t) as [->|N]; [apply Q4|]. intros X. pose proof (ii_udec _ _ _ I u X) as (Y & Z).
      destruct CH as [(-> & ->)|[(-> & X1)|[(X1 & -> & _)|(X1 & -> & _)]]]; try congruence. auto.
    - intros u. rewrite fupd_eq. destruct (Nat.eqb_spec u t) as [->|N]; [apply Q5|]. intros X Y.
      destruct CH as [(-> & ->)|[(-> & X1)|[(X1 & -> & ->)|(X1 & -> & ->)]]]; try congruence. exact (ii_uunl _ _ _ I u X Y).
  Qed.

  Ltac mkt := match goal with I : iinv _ _ _ |- _ => apply mk; [exact I|first [tauto | (repeat match goal with h : i_owner _ = _ |- _ => rewrite h end; auto 7)]|..]; try (lia || discriminate || (intros ? [X|[X|X]]; discriminate) || apply (ii_free _ _ _ I) || (intros; discriminate)); auto end.
  Lemma iinv_step n s es l s' e : iinv n s es -> (S (S n) < M)%nat -> Z.of_nat (S n) < 2 ^ 64 -> i_step s l = Some (s', e) -> iinv (S n) s' (es ++ e).
  Proof.
    intros I BM BN E. pose proof (ii_cnt _ _ _ I) as CN. pose proof (ii_lin _ _ _ I) as LN.
    destruct l as [t c|t|t|t]; cbn in E.
    - destruct (i_thr s t) eqn:ET; try discriminate. injection E as <- <-. unfold i_go.
      mkt; try (intros; destruct (is_lock c); discriminate).
      + intros c'. destruct (is_lock c) eqn:IL; intros [X|[X|X]]; try discriminate. congruence.
      + apply (lin_call s _ _ _ _ LN); [reflexivity|now rewrite ET|]. intros u. cbn. rewrite fupd_eq. destruct (Nat.eqb u t); [destruct c; reflexivity|reflexivity].
    - destruct (i_thr s t) as [|c|c|c| | | | |r] eqn:ET; try discriminate.
      + destruct (i_owner s) as [u|] eqn:EO.
        * destruct (Nat.eqb_spec u t) as [->|]; [|discriminate]. injection E as <- <-. unfold i_go. rewrite EO.
          mkt.
          { intros c' [X|[X|X]]; try discriminate. injection X as <-. apply (ii_lock _ _ _ I t). auto. }
          apply (lin_nil s _ _ LN); [unfold iabs; cbn; now rewrite EO|]. intros u. cbn. rewrite fupd_eq. destruct (Nat.eqb_spec u t) as [->|]; [now rewrite ET|reflexivity].
        * injection E as <- <-. pose proof (ii_free _ _ _ I EO) as C0. rewrite C0.
          mkt.
          pose proof (ii_lock _ _ _ I t c ltac:(auto)) as IL.
          apply (lin_eff s _ _ _ _ _ LN); [|now rewrite ET|intros u; cbn; rewrite fupd_eq; destruct (Nat.eqb u t); reflexivity].
          unfold mspec. rewrite IL. left. unfold iabs. rewrite EO. cbn. auto.
      + pose proof (ii_lock _ _ _ I t c ltac:(auto)) as IL.
        destruct (owns s t) eqn:OW; injection E as <- <-; unfold i_go; mkt.
        * intros c' _. now apply owns_true.
        * intros c' [X|[X|X]]; try discriminate. congruence.
        * apply (lin_nil s _ _ LN); [reflexivity|]. intros u. cbn. rewrite fupd_eq. destruct (Nat.eqb_spec u t) as [->|]; [now rewrite ET|reflexivity].
        * apply (lin_eff s _ _ _ _ _ LN); [|now rewrite ET|intros u; cbn; rewrite fupd_eq; destruct (Nat.eqb u t); reflexivity].
          unfold mspec. rewrite IL. reflexivity.
      + injection E as <- <-. pose proof (ii_lock _ _ _ I t c ltac:(auto)) as IL. pose proof (ii_inc _ _ _ I t c ET) as OW.
        rewrite Z.mod_small by lia. mkt.
        * rewrite OW. discriminate.
        * apply (lin_eff s _ _ _ _ _ LN); [|now rewrite ET|intros u; cbn; rewrite fupd_eq; destruct (Nat.eqb u t); reflexivity].
          unfold mspec. rewrite IL. right. unfold iabs. cbn. rewrite OW. eexists. split; [reflexivity|]. split; [lia|]. do 2 f_equal. lia.
      + injection E as <- <-. unfold i_go. destruct (owns s t) eqn:OW; mkt.
        * intros _. now apply owns_true.
        * apply (lin_nil s _ _ LN); [reflexivity|]. intros u. cbn. rewrite fupd_eq. destruct (Nat.eqb_spec u t) as [->|]; [now rewrite ET|reflexivity].
        * intros _ X. apply owns_true in X. congruence.
        * apply (lin_nil s _ _ LN); [reflexivity|]. intros u. cbn. rewrite fupd_eq. destruct (Nat.eqb_spec u t) as [->|]; [now rewrite ET|reflexivity].
      + injection E as <- <-. unfold i_go. pose proof (ii_ucnt _ _ _ I t ET) as OW.
        destruct (Z.gtb_spec (i_count s) 0); mkt.
        * apply (lin_nil s _ _ LN); [reflexivity|]. intros u. cbn. rewrite fupd_eq. destruct (Nat.eqb_spec u t) as [->|]; [now rewrite ET|reflexivity].
        * apply (lin_nil s _ _ LN); [reflexivity|]. intros u. cbn. rewrite fupd_eq. destruct (Nat.eqb_spec u t) as [->|]; [now rewrite ET|reflexivity].
      + injection E as <- <-. destruct (ii_udec _ _ _ I t ET) as (OW & PO).
        rewrite Z.mod_small by lia. mkt.
        * rewrite OW. discriminate.
        * apply (lin_eff s _ _ _ _ _ LN); [|now rewrite ET|intros u; cbn; rewrite fupd_eq; destruct (Nat.eqb u t); reflexivity].
          unfold mspec, iabs. cbn. rewrite OW, Nat.eqb_refl. split; [reflexivity|].
          replace (Z.to_nat (i_count s)) with (S (Z.to_nat (i_count s - 1))) by lia. reflexivity.
      + destruct (owns s t) eqn:OW.
        * injection E as <- <-. apply owns_true in OW. pose proof (ii_uunl _ _ _ I t ET OW) as C0. rewrite C0.
          mkt.
          apply (lin_eff s _ _ _ _ _ LN); [|now rewrite ET|intros u; cbn; rewrite fupd_eq; destruct (Nat.eqb u t); reflexivity].
          unfold mspec, iabs. cbn. rewrite OW, Nat.eqb_refl, C0. cbn. auto.
        * injection E as <- <-. unfold i_go. mkt.
          apply (lin_eff s _ _ _ _ _ LN); [|now rewrite ET|intros u; cbn; rewrite fupd_eq; destruct (Nat.eqb u t); reflexivity].
          unfold mspec, iabs, owns in *. cbn. destruct (i_owner s) as [u|]; [|auto]. rewrite OW. auto.
      + injection E as <- <-. unfold i_go. mkt.
        apply (lin_ret s _ _ _ _ LN); [reflexivity|now rewrite ET|]. intros u. cbn. rewrite fupd_eq. destruct (Nat.eqb u t); reflexivity.
    - destruct (i_thr s t) as [|c|c|c| | | | |r] eqn:ET; try discriminate. destruct (i_owner s) as [u|] eqn:EO; [|discriminate].
      destruct (forever c) eqn:FO; [discriminate|]. destruct (Nat.eqb_spec u t) as [|NU]; [discriminate|]. cbn in E. injection E as <- <-. unfold i_go. rewrite EO.
      mkt.
      pose proof (ii_lock _ _ _ I t c ltac:(auto)) as IL.
      apply (lin_eff s _ _ _ _ _ LN); [|now rewrite ET|intros v; cbn; rewrite fupd_eq; destruct (Nat.eqb v t); reflexivity].
      unfold mspec. rewrite IL. unfold iabs. cbn. rewrite EO. split; [|split; [reflexivity|eauto]].
      destruct c; cbn in *; try tauto; try discriminate. intros ->. discriminate.
    - destruct (i_thr s t) as [|c|c|c| | | | |r] eqn:ET; try discriminate. injection E as <- <-. unfold i_go.
      mkt.
      { intros c' [X|[X|X]]; try discriminate. injection X as <-. apply (ii_lock _ _ _ I t). auto. }
      apply (lin_nil s _ _ LN); [reflexivity|]. intros u. cbn. rewrite fupd_eq. destruct (Nat.eqb_spec u t) as [->|]; [now rewrite ET|reflexivity].
  Qed.
  Lemma iinv_exec : forall ls n s es s' es', iinv n s es -> (S (n + length ls) < M)%nat -> Z.of_nat (n + length ls) < 2 ^ 64 ->
    exec i_step s ls = Some (s', es') -> iinv (n + length ls) s' (es ++ es').
  Proof.
    induction ls as [|l ls IH]; intros n s es s' es' I BM BN E; cbn in E.
    - injection E as <- <-. cbn. now rewrite app_nil_r, Nat.add_0_r.
    - destruct (i_step s l) as [[s1 e1]|] eqn:E1; [|discriminate]. destruct (exec i_step s1 ls) as [[s2 e2]|] eqn:E2; [|discriminate]. injection E as <- <-.
      rewrite app_assoc. cbn [length] in *. replace (n + S (length ls))%nat with (S n + length ls)%nat in * by lia.
      apply (IH (S n) s1 (es ++ e1) s2 e2); try lia; [|exact E2]. apply (iinv_step n s es l); auto; lia.
  Qed.
End Inv.
Theorem itron_linearizable M ls s es :
  exec i_step i_init ls = Some (s, es) -> (S (length ls) < M)%nat -> Z.of_nat (length ls) < 2 ^ 64 -> linearizable (mspec M) None (history es).
Proof.
  intros E BM BN. pose proof (iinv_exec M ls 0 i_init [] s es (iinv_init M) BM BN E) as I.
  destruct (ii_lin _ _ _ _ I) as (f & L & _). exists es, f, (iabs s). split; [reflexivity|exact L].
Qed.
Definition i_running (s : ist) (t : nat) : option mcall := match i_thr s t with IAcq c => Some c | _ => None end.
Theorem itron_blocked s : (forall t, i_step s (KStep t) = None) ->
  forall t, i_idle s t \/ exists c u, i_running s t = Some c /\ i_owner s = Some u /\ u <> t /\ i_idle s u.
Proof.
  intros H.
  assert (P : forall t, i_idle s t \/ exists c u, i_running s t = Some c /\ i_owner s = Some u /\ u <> t).
  { intros t. specialize (H t). unfold i_idle, i_running. cbn in H. destruct (i_thr s t) as [|c|c|c| | | | |r] eqn:ET; try discriminate; [now left|..].
    - destruct (i_owner s) as [u|] eqn:EO; [|discriminate]. destruct (Nat.eqb_spec u t); [discriminate|]. right. eauto.
    - destruct (owns s t); discriminate.
    - destruct (owns s t); discriminate. }
  intros t. destruct (P t) as [X|(c & u & R & O & N)]; [now left|]. right. exists c, u. repeat split; try assumption.
  destruct (P u) as [X|(c' & v & R' & O' & N')]; [exact X|]. congruence.
Qed.
Definition iw (q : ipc) : nat :=
  match q with IIdle => 0 | IAcq _ => 4 | IMine _ => 3 | IInc _ => 2 | UAsk => 4 | UCnt => 3 | UDec => 2 | UUnl => 2 | IRet _ => 1 end%nat.
Theorem itron_calls_end n s ls s' es :
  (forall t, (n <= t)%nat -> i_idle s t) -> (forall l, In l ls -> i_own_step l) -> exec i_step s ls = Some (s', es) -> (length ls <= 4 * n)%nat.
Proof.
  intros GI OS E.
  assert (GO : forall s t q o k, (forall t, (n <= t)%nat -> i_idle s t) -> i_thr s t <> IIdle -> (iw q < iw (i_thr s t))%nat ->
     (forall u, (n <= u)%nat -> i_idle (mkI o k (fupd (i_thr s) t q)) u) /\ (sumn (fun u => iw (fupd (i_thr s) t q u)) n < sumn (fun u => iw (i_thr s u)) n)%nat).
  { clear. intros s t q o k GI NI LT. assert (TN : (t < n)%nat) by (destruct (Nat.lt_ge_cases t n) as [|X]; [assumption|elim NI; now apply GI]).
    split.
    - intros u Hu. unfold i_idle. cbn. rewrite fupd_other by lia. now apply GI.
    - pose proof (sumn_change n (fun u => iw (i_thr s u)) (fun u => iw (fupd (i_thr s) t q u)) t TN) as X. cbn beta in X. rewrite fupd_same in X.
      assert (Y : forall u, u <> t -> iw (fupd (i_thr s) t q u) = iw (i_thr s u)) by (intros u Hu; now rewrite fupd_other). specialize (X Y). lia. }
  pose proof (exec_measure _ _ _ i_step (fun s => forall t, (n <= t)%nat -> i_idle s t) i_own_step (fun s => sumn (fun u => iw (i_thr s u)) n)) as X.
  assert (BD : (sumn (fun t => iw (i_thr s t)) n <= n * 4)%nat) by (apply sumn_bound; intros k _; destruct (i_thr s k); cbn; lia).
  enough ((length ls + sumn (fun u => iw (i_thr s' u)) n <= sumn (fun u => iw (i_thr s u)) n)%nat) by lia.
  apply (X) with (es' := es); auto. clear X BD E GI OS ls s s' es. intros s l s' e GI O E.
  destruct l as [t c|t|t|t]; cbn in O; try contradiction; cbn in E;
    repeat match type of E with context[match ?x with _ => _ end] => destruct x eqn:?; try discriminate end; injection E as <- _; unfold i_go; cbn [i_thr];
    apply GO; try assumption; try congruence; repeat match goal with h : i_thr s t = _ |- _ => rewrite h end; cbn; lia.
Qed.
