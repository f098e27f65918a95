(** Proofs about the MessageQueue model. *)
From Coq Require Import List ZArith Bool Lia Arith.
Import ListNotations.
From Verif Require Import Spec.OSError Spec.Linear Spec.MessageQueueSpec OS.Sched OS.MessageQueueModel.
Open Scope Z_scope.

(** * the ring buffer *)
Section Ring.
  Variable V : Type.
  Variable B : Z.
  Hypothesis HB : 1 <= B < 2 ^ 64.
  Notation len q := (Z.of_nat (length q)).

  Record ring_rep (r : ring V) (q : list V) : Prop := {
    rr_b : 0 <= r_begin r < B;
    rr_len : len q <= B - 1;
    rr_e : r_end r = (r_begin r + len q) mod B;
    rr_buf : forall j, 0 <= j < B -> r_buf r j = nth_error q (Z.to_nat ((j - r_begin r) mod B))
  }.
  Lemma wrap a : 0 <= a < 2 * B -> a mod B = if a <? B then a else a - B.
  Proof.
    intros H. destruct (Z.ltb_spec a B); [apply Z.mod_small; lia|].
    replace a with (a - B + 1 * B) at 1 by lia. rewrite Z.mod_add by lia. apply Z.mod_small. lia.
  Qed.
  Lemma wrap_sub j b : 0 <= j < B -> 0 <= b < B -> (j - b) mod B = if b <=? j then j - b else j - b + B.
  Proof.
    intros Hj Hb. destruct (Z.leb_spec b j); [apply Z.mod_small; lia|].
    replace (j - b) with (j - b + B + (-1) * B) at 1 by lia. rewrite Z.mod_add by lia. apply Z.mod_small. lia.
  Qed.
  Lemma u64_small x : 0 <= x < 2 ^ 64 -> u64 x = x.
  Proof. apply Z.mod_small. Qed.
  Lemma next_idx_mod i : 0 <= i < B -> next_idx B i = (i + 1) mod B.
  Proof.
    intros H. unfold next_idx. rewrite wrap by lia. destruct (Z.eq_dec (i + 1) (2 ^ 64)) as [E|E]; [lia|].
    rewrite (u64_small (i + 1)) by lia. destruct (i + 1 <? B) eqn:L; [reflexivity|]. apply Z.ltb_ge in L. apply u64_small. lia.
  Qed.

  Lemma ring_rep_init : ring_rep ring_init [].
  Proof.
    constructor; cbn; try lia. intros j Hj. now destruct (Z.to_nat _).
  Qed.
  Lemma ring_max_ok : ring_max B = B - 1.
  Proof. unfold ring_max. apply u64_small. lia. Qed.
  Lemma ring_size_ok r q : ring_rep r q -> ring_size V B r = len q.
  Proof.
    intros R. pose proof (rr_b _ _ R) as Hb. pose proof (rr_len _ _ R) as Hl. pose proof (rr_e _ _ R) as He.
    unfold ring_size. rewrite wrap in He by lia.
    destruct (Z.ltb_spec (r_begin r + len q) B) as [L|L].
    - destruct (Z.leb_spec (r_begin r) (r_end r)); [|lia]. rewrite u64_small; lia.
    - destruct (Z.leb_spec (r_begin r) (r_end r)); [lia|]. rewrite (u64_small (B - r_begin r)) by lia. rewrite u64_small; lia.
  Qed.
  Lemma ring_full_ok r q : ring_rep r q -> (ring_full V B r = true <-> len q = B - 1).
  Proof. intros R. unfold ring_full. rewrite (ring_size_ok r q R), ring_max_ok. apply Z.eqb_eq. Qed.
  Lemma ring_empty_ok r q : ring_rep r q -> (ring_empty V r = true <-> q = []).
  Proof.
    intros R. pose proof (rr_b _ _ R) as Hb. pose proof (rr_len _ _ R) as Hl. pose proof (rr_e _ _ R) as He.
    unfold ring_empty. rewrite Z.eqb_eq, He. rewrite wrap by lia. destruct q as [|v q].
    - cbn. replace (r_begin r + 0) with (r_begin r) by lia. destruct (Z.ltb_spec (r_begin r) B); [|lia]. tauto.
    - split; [|discriminate]. cbn [length] in *. destruct (Z.ltb_spec (r_begin r + Z.of_nat (S (length q))) B); lia.
  Qed.
  Lemma in_buf_ok i : 0 <= i < B -> in_buf B i = true.
  Proof. intros H. unfold in_buf. rewrite andb_true_iff, Z.leb_le, Z.ltb_lt. exact H. Qed.

  Lemma ring_push_ok r q v : ring_rep r q -> len q < B - 1 -> exists r', ring_push V B r v = Some r' /\ ring_rep r' (q ++ [v]).
  Proof.
    intros R L. pose proof (rr_b _ _ R) as Hb. pose proof (rr_e _ _ R) as He.
    assert (Ee : 0 <= r_end r < B) by (rewrite He; apply Z.mod_pos_bound; lia).
    assert (D : (r_end r - r_begin r) mod B = len q).
    { rewrite He, Zminus_mod_idemp_l. replace (r_begin r + len q - r_begin r) with (len q) by lia. apply Z.mod_small. lia. }
    unfold ring_push. rewrite in_buf_ok by assumption. rewrite (rr_buf _ _ R) by assumption. rewrite D, Nat2Z.id.
    rewrite (proj2 (nth_error_None q (length q))) by lia.
    eexists. split; [reflexivity|]. constructor; cbn [r_begin r_end r_buf].
    - exact Hb.
    - rewrite app_length. cbn. lia.
    - rewrite next_idx_mod by assumption. rewrite He, Zplus_mod_idemp_l. f_equal. rewrite app_length. cbn. lia.
    - intros j Hj. unfold slot_upd. destruct (Z.eqb_spec j (r_end r)) as [->|N].
      + rewrite D, Nat2Z.id, nth_error_app2 by lia. now rewrite Nat.sub_diag.
      + rewrite (rr_buf _ _ R) by assumption.
        assert (M : (j - r_begin r) mod B <> len q).
        { intros X. apply N. rewrite He, <- X, Zplus_mod_idemp_r. replace (r_begin r + (j - r_begin r)) with j by lia. symmetry. apply Z.mod_small. lia. }
        pose proof (Z.mod_pos_bound (j - r_begin r) B ltac:(lia)) as Hm.
        destruct (Z_lt_le_dec ((j - r_begin r) mod B) (len q)).
        * rewrite nth_error_app1 by lia. reflexivity.
        * rewrite (proj2 (nth_error_None q _)) by lia. symmetry. apply nth_error_None. rewrite app_length. cbn. lia.
  Qed.
  Lemma ring_pop_ok r v q : ring_rep r (v :: q) -> exists r', ring_pop V B r = Some (v, r') /\ ring_rep r' q.
  Proof.
    intros R. pose proof (rr_b _ _ R) as Hb. pose proof (rr_e _ _ R) as He. pose proof (rr_len _ _ R) as Hl. cbn [length] in Hl.
    unfold ring_pop. rewrite in_buf_ok by assumption. rewrite (rr_buf _ _ R) by assumption. rewrite Z.sub_diag, Z.mod_0_l by lia. cbn [Z.to_nat nth_error].
    eexists. split; [reflexivity|]. constructor; cbn [r_begin r_end r_buf].
    - rewrite next_idx_mod by assumption. apply Z.mod_pos_bound. lia.
    - lia.
    - rewrite next_idx_mod by assumption. rewrite He, Zplus_mod_idemp_l. f_equal. cbn [length]. lia.
    - intros j Hj. rewrite next_idx_mod by assumption. unfold slot_upd.
      assert (X : (j - (r_begin r + 1) mod B) mod B = (j - r_begin r - 1) mod B) by (rewrite Zminus_mod_idemp_r; f_equal; lia).
      rewrite X. destruct (Z.eqb_spec j (r_begin r)) as [->|N].
      + replace (r_begin r - r_begin r - 1) with (B - 1 + (-1) * B) by lia. rewrite Z.mod_add by lia. rewrite Z.mod_small by lia.
        symmetry. apply nth_error_None. lia.
      + rewrite (rr_buf _ _ R) by assumption. rewrite wrap_sub by lia.
        assert (Y : (j - r_begin r - 1) mod B = (if r_begin r <=? j then j - r_begin r else j - r_begin r + B) - 1).
        { destruct (Z.leb_spec (r_begin r) j); [apply Z.mod_small; lia|].
          replace (j - r_begin r - 1) with (j - r_begin r + B - 1 + (-1) * B) by lia. rewrite Z.mod_add by lia. apply Z.mod_small. lia. }
        rewrite Y. set (k := if r_begin r <=? j then j - r_begin r else j - r_begin r + B).
        assert (1 <= k) by (unfold k; destruct (Z.leb_spec (r_begin r) j); lia).
        replace (Z.to_nat k) with (S (Z.to_nat (k - 1))) by lia. reflexivity.
  Qed.
End Ring.

(** * the queue *)
Section Proofs.
  Variable V : Type.
  Variable maxSize : Z.
  Hypothesis HM : 0 <= maxSize < 2 ^ 64 - 1.
  Notation N := (Z.to_nat maxSize).
  Notation B := (rbBufSize maxSize).
  Notation stp := (q_step V maxSize).
  Notation spec := (qspec V N).
  Notation qst := (qst V).
  Notation out := (list (event (qcall V) (qres V))).

  Lemma B_eq : B = maxSize + 1.
  Proof. unfold rbBufSize. apply u64_small. lia. Qed.
  Lemma B_ok : 1 <= B < 2 ^ 64.
  Proof. rewrite B_eq. lia. Qed.

  Definition sr (c : qcall V) : Prop := match c with QSend _ _ | QRecv _ _ => True | _ => False end.
  (** the call may go on *)
  Definition nb (c : qcall V) (q : list V) : Prop :=
    match c with QSend _ _ => (length q < N)%nat | QRecv _ _ => q <> [] | _ => True end.
  Definition nb' (c : qcall V) (q : list V) : Prop :=
    match c with QSend _ _ => q <> [] | QRecv _ _ => (length q < N)%nat | _ => True end.

  Definition h_rb (x : qpc V) : bool :=
    match x with QAt _ PChk | QAt _ PResetEv | QAt _ (PUnlockChk _) | QAt _ POp | QAt _ (PSetEv _) | QAt _ (PUnlockOp _) => true | _ => false end.
  Definition in_outer (p : point V) : bool := match p with PLockOuter | PRet _ => false | _ => true end.
  Definition h_send (x : qpc V) : bool := match x with QAt (QSend _ _) p => in_outer p | _ => false end.
  Definition h_recv (x : qpc V) : bool := match x with QAt (QRecv _ _) p => in_outer p | _ => false end.

  Definition pc_ok (q : list V) (x : qpc V) : Prop :=
    match x with
    | QIdle => True
    | QAt c p =>
        match p with
        | PLockOuter | PLockChk | PChk | PUnlockChk true | PWait | PUnlockOuter _ => sr c
        | PResetEv => sr c /\ ~ nb c q
        | PUnlockChk false => sr c /\ nb c q
        | PLockOp | POp => nb c q
        | PSetEv _ => sr c /\ nb' c q
        | PUnlockOp _ | PRet _ => True
        end
    end.
  Definition waiting (p : point V) : bool := match p with PUnlockChk true | PWait => true | _ => false end.
  Definition st_of (x : qpc V) : status (qcall V) (qres V) :=
    match x with
    | QIdle => Out
    | QAt c p => match p with PSetEv r | PUnlockOp r | PUnlockOuter r | PRet r => Done r | _ => Pending c end
    end.
  Definition lock_ok (h : qpc V -> bool) (thr : nat -> qpc V) (o : option nat) : Prop := forall t, h (thr t) = true <-> o = Some t.
  Definition signaller (thr : nat -> qpc V) (c : qcall V) : Prop :=
    exists u c' r, thr u = QAt c' (PSetEv r) /\ sr c' /\ is_send c' <> is_send c.
  Definition wait_ok (q : list V) (ne nf : bool) (thr : nat -> qpc V) : Prop :=
    forall t c p, thr t = QAt c p -> waiting p = true ->
      if (if is_send c then nf else ne) then nb c q else ~ nb c q \/ signaller thr c.

  Record qinv (s : qst) (es : out) : Prop := {
    qi_ub : q_ub s = false;
    qi_rb : lock_ok h_rb (q_thr s) (q_mrb s);
    qi_send : lock_ok h_send (q_thr s) (q_msend s);
    qi_recv : lock_ok h_recv (q_thr s) (q_mrecv s);
    qi_q : exists q, ring_rep V B (q_ring s) q /\ (forall t, pc_ok q (q_thr s t)) /\
           wait_ok q (q_ne s) (q_nf s) (q_thr s) /\
           exists f, lin_run spec (fun _ => Out) [] es f q /\ forall t, f t = st_of (q_thr s t)
  }.

  Lemma qinv_init : qinv (q_init V) [].
  Proof.
    constructor; cbn; try reflexivity; try (intros t; split; discriminate).
    exists []. split; [exact (ring_rep_init V B B_ok)|]. split; [exact (fun _ => I)|]. split; [discriminate|].
    exists (fun _ => Out). split; [constructor|reflexivity].
  Qed.

  Lemma lock_upd h thr o t x o' : lock_ok h thr o ->
    (o' = o /\ h x = h (thr t)) \/ (o = None /\ o' = Some t /\ h x = true) \/ (h (thr t) = true /\ o' = None /\ h x = false) ->
    lock_ok h (fupd thr t x) o'.
  Proof.
    intros L C u. pose proof (L u) as Lu. pose proof (L t) as Lt. rewrite fupd_eq.
    destruct (Nat.eqb_spec u t) as [->|Nu]; destruct C as [(-> & Hx)|[(-> & -> & Hx)|(Ht & -> & Hx)]]; rewrite ?Hx.
    - exact Lu.
    - tauto.
    - split; discriminate.
    - exact Lu.
    - split; [intros X; apply Lu in X; discriminate|intros X; congruence].
    - split; [|discriminate]. intros X. apply Lu in X. apply Lt in Ht. congruence.
  Qed.

  Lemma lin_ev es f q e f' q' : lin_run spec (fun _ => Out) [] es f q -> lin_run spec f q e f' q' ->
    lin_run spec (fun _ => Out) [] (es ++ e) f' q'.
  Proof. intros A X. eapply lin_run_app; eauto. Qed.

  (** the events of a step of thread [t] *)
  Definition ev_ok (t : nat) (x y : qpc V) (q q' : list V) (e : out) : Prop :=
    (e = [] /\ st_of y = st_of x /\ q' = q) \/
    (exists c, e = [Call t c] /\ st_of x = Out /\ st_of y = Pending c /\ q' = q) \/
    (exists r, e = [Ret t r] /\ st_of x = Done r /\ st_of y = Out /\ q' = q) \/
    (exists c r, e = [Eff t c r] /\ st_of x = Pending c /\ st_of y = Done r /\ spec q t c r q').
  Lemma ev_lin t x q q' e es f (thr : nat -> qpc V) : ev_ok t (thr t) x q q' e ->
    lin_run spec (fun _ => Out) [] es f q -> (forall u, f u = st_of (thr u)) ->
    exists f', lin_run spec (fun _ => Out) [] (es ++ e) f' q' /\ forall u, f' u = st_of (fupd thr t x u).
  Proof.
    intros EV L F.
    assert (G : forall y, st_of x = y -> forall u, set_st f t y u = st_of (fupd thr t x u)).
    { intros y <- u. unfold set_st. rewrite fupd_eq. destruct (Nat.eqb u t); [reflexivity|apply F]. }
    destruct EV as [(-> & S & ->)|[(c & -> & S & S' & ->)|[(r & -> & S & S' & ->)|(c & r & -> & S & S' & P)]]].
    - exists f. rewrite app_nil_r. split; [exact L|]. intros u. rewrite fupd_eq. destruct (Nat.eqb_spec u t) as [->|]; [rewrite S|]; apply F.
    - exists (set_st f t (Pending c)). split; [|now apply G]. eapply lin_ev; [exact L|]. apply lr_call; [rewrite F; exact S|constructor].
    - exists (set_st f t Out). split; [|now apply G]. eapply lin_ev; [exact L|]. apply lr_ret with (r := r); [rewrite F; exact S|constructor].
    - exists (set_st f t (Done r)). split; [|now apply G]. eapply lin_ev; [exact L|]. eapply lr_eff; [rewrite F; exact S|exact P|constructor].
  Qed.

  Lemma mk_inv s es t x rg ne nf mrb ms mr e q q' :
    qinv s es -> ring_rep V B rg q' -> (forall u, pc_ok q' (fupd (q_thr s) t x u)) -> wait_ok q' ne nf (fupd (q_thr s) t x) ->
    lock_ok h_rb (fupd (q_thr s) t x) mrb -> lock_ok h_send (fupd (q_thr s) t x) ms -> lock_ok h_recv (fupd (q_thr s) t x) mr ->
    (exists f, lin_run spec (fun _ => Out) [] es f q /\ forall t, f t = st_of (q_thr s t)) ->
    ev_ok t (q_thr s t) x q q' e ->
    qinv (mkQ rg ne nf mrb ms mr (q_ub s) (fupd (q_thr s) t x)) (es ++ e).
  Proof.
    intros I R P W L1 L2 L3 (f & Lf & Ff) EV. constructor; cbn; try assumption; [apply I|].
    exists q'. split; [exact R|]. split; [exact P|]. split; [exact W|]. eapply ev_lin; eauto.
  Qed.
  Lemma pc_upd (q q' : list V) (thr : nat -> qpc V) t x : (forall u, u <> t -> pc_ok q' (thr u)) -> pc_ok q' x -> forall u, pc_ok q' (fupd thr t x u).
  Proof. intros A C u. rewrite fupd_eq. destruct (Nat.eqb_spec u t) as [->|n]; auto. Qed.

  (** the queue and the bits stay; [t] was not at PSetEv and goes to no wait point, or already waits *)
  Lemma wait_upd q ne nf thr t x : wait_ok q ne nf thr ->
    (forall c r, thr t <> QAt c (PSetEv r)) ->
    (forall c p, x = QAt c p -> waiting p = true -> exists p', thr t = QAt c p' /\ waiting p' = true) ->
    wait_ok q ne nf (fupd thr t x).
  Proof.
    intros W NS NW u c p. rewrite fupd_eq. destruct (Nat.eqb_spec u t) as [->|n]; intros E Wp.
    - destruct (NW c p E Wp) as (p' & E' & Wp'). specialize (W t c p' E' Wp').
      destruct (if is_send c then nf else ne); [exact W|]. destruct W as [W|(v & c' & r & Ev & S & D)]; [now left|right].
      exists v, c', r. split; [|split; assumption]. rewrite fupd_eq. destruct (Nat.eqb_spec v t) as [->|]; [now elim (NS c' r)|exact Ev].
    - specialize (W u c p E Wp). destruct (if is_send c then nf else ne); [exact W|]. destruct W as [W|(v & c' & r & Ev & S & D)]; [now left|right].
      exists v, c', r. split; [|split; assumption]. rewrite fupd_eq. destruct (Nat.eqb_spec v t) as [->|]; [now elim (NS c' r)|exact Ev].
  Qed.

  Lemma blocked_ok s es q c : qinv s es -> ring_rep V B (q_ring s) q -> sr c -> (blocked V maxSize s c = true <-> ~ nb c q).
  Proof.
    intros _ R S. pose proof (rr_len _ _ _ _ R) as L. unfold blocked, nb. pose proof B_eq as EB.
    destruct c as [v ms|st ms| |]; try contradiction; cbn [is_send].
    - rewrite (ring_full_ok V B B_ok _ _ R). lia.
    - rewrite (ring_empty_ok V B B_ok _ _ R). destruct q; split; intro; try congruence; try discriminate. elim H; discriminate.
  Qed.

  Definition lock_chg (h : qpc V -> bool) (t : nat) (x y : qpc V) (o o' : option nat) : Prop :=
    (o' = o /\ h y = h x) \/ (o = None /\ o' = Some t /\ h y = true) \/ (h x = true /\ o' = None /\ h y = false).
  Lemma simple_inv s es t y mrb ms mr e :
    qinv s es ->
    lock_chg h_rb t (q_thr s t) y (q_mrb s) mrb -> lock_chg h_send t (q_thr s t) y (q_msend s) ms -> lock_chg h_recv t (q_thr s t) y (q_mrecv s) mr ->
    (forall c r, q_thr s t <> QAt c (PSetEv r)) ->
    (forall c p, y = QAt c p -> waiting p = true -> exists p', q_thr s t = QAt c p' /\ waiting p' = true) ->
    (forall q, ring_rep V B (q_ring s) q -> pc_ok q (q_thr s t) -> wait_ok q (q_ne s) (q_nf s) (q_thr s) -> pc_ok q y /\ ev_ok t (q_thr s t) y q q e) ->
    qinv (mkQ (q_ring s) (q_ne s) (q_nf s) mrb ms mr (q_ub s) (fupd (q_thr s) t y)) (es ++ e).
  Proof.
    intros I L1 L2 L3 NS NW H. destruct (qi_q _ _ I) as (q & R & P & W & F). destruct (H q R (P t) W) as (Py & EV).
    eapply mk_inv; [exact I|exact R| | | | | |exact F|exact EV].
    - now apply pc_upd.
    - now apply wait_upd.
    - eapply lock_upd; [apply I|exact L1].
    - eapply lock_upd; [apply I|exact L2].
    - eapply lock_upd; [apply I|exact L3].
  Qed.

  Ltac keep := left; split; reflexivity.
  Ltac acq := right; left; split; [|split]; [assumption|reflexivity|reflexivity].
  Ltac rel := right; right; split; [|split]; reflexivity.
  Ltac nwait := let c := fresh in let p := fresh in let E := fresh in intros c p E; injection E as <- <-; discriminate.

  Lemma free_none o : free o = true -> o = None.
  Proof. now destruct o. Qed.

  (** two calls of one kind are not both past their outer lock; two threads are not both inside m_mtxRB *)
  Lemma outer_excl s es t u c d p p' : qinv s es -> q_thr s t = QAt c p -> q_thr s u = QAt d p' -> u <> t -> sr c -> sr d ->
    in_outer p = true -> in_outer p' = true -> is_send d <> is_send c.
  Proof.
    intros I Q X Nu SC SD O1 O2 DE. apply Nu. pose proof (qi_send _ _ I t) as A1. pose proof (qi_send _ _ I u) as A2.
    pose proof (qi_recv _ _ I t) as B1. pose proof (qi_recv _ _ I u) as B2. rewrite Q in A1, B1. rewrite X in A2, B2.
    destruct c, d; try contradiction; try discriminate; cbn in *.
    - assert (q_msend s = Some t) by tauto. assert (q_msend s = Some u) by tauto. congruence.
    - assert (q_mrecv s = Some t) by tauto. assert (q_mrecv s = Some u) by tauto. congruence.
  Qed.
  Lemma rb_excl s es t u : qinv s es -> h_rb (q_thr s t) = true -> u <> t -> h_rb (q_thr s u) = false.
  Proof.
    intros I H Nu. destruct (h_rb (q_thr s u)) eqn:X; [|reflexivity]. apply (qi_rb _ _ I) in H. apply (qi_rb _ _ I) in X. congruence.
  Qed.
  Lemma waiting_outer p : waiting p = true -> in_outer p = true.
  Proof. destruct p as [| | | |[|]| | | | | | |]; try discriminate; reflexivity. Qed.
  Lemma waiting_sr q c p : pc_ok q (QAt c p) -> waiting p = true -> sr c.
  Proof. destruct p as [| | | |[|]| | | | | | |]; try discriminate; intros H _; exact H. Qed.

  Lemma op_inv s es t c res rg q q' :
    qinv s es -> q_thr s t = QAt c POp -> sr c -> ring_rep V B rg q' -> nb' c q' -> (forall d, sr d -> is_send d <> is_send c -> nb d q') ->
    (forall u, pc_ok q (q_thr s u)) ->
    (exists f, lin_run spec (fun _ => Out) [] es f q /\ forall t, f t = st_of (q_thr s t)) ->
    spec q t c res q' ->
    qinv (mkQ rg (q_ne s) (q_nf s) (q_mrb s) (q_msend s) (q_mrecv s) (q_ub s) (fupd (q_thr s) t (QAt c (PSetEv res)))) (es ++ [Eff t c res]).
  Proof.
    intros I Q SC R NB' OPP P F SP.
    assert (H : h_rb (q_thr s t) = true) by now rewrite Q.
    eapply mk_inv; [exact I|exact R| | | | | |exact F|rewrite Q; right; right; right; eauto 8].
    - apply pc_upd; [exact q| |now split]. intros u Nu. pose proof (rb_excl s es t u I H Nu) as X. pose proof (P u) as Pu.
      destruct (q_thr s u) as [|d p] eqn:Qu; [exact Logic.I|].
      destruct p as [| | | |[|]| | | | | | |]; try discriminate; try exact Pu.
      cbn [pc_ok] in *. destruct d as [v0 ms0|st0 ms0| |]; try exact Logic.I; apply OPP; try exact Logic.I;
        (eapply (outer_excl s es t u); [exact I|exact Q|exact Qu|exact Nu|exact SC|exact Logic.I|reflexivity|reflexivity]).
    - intros u d p. rewrite fupd_eq. destruct (Nat.eqb_spec u t) as [->|Nu]; intros X Wp; [injection X as <- <-; discriminate|].
      pose proof (P u) as Pu. rewrite X in Pu. pose proof (waiting_sr _ _ _ Pu Wp) as SD.
      assert (DC : is_send d <> is_send c) by exact (outer_excl s es t u c d POp p I Q X Nu SC SD eq_refl (waiting_outer p Wp)).
      destruct (if is_send d then q_nf s else q_ne s); [now apply OPP|]. right. exists t, c, res. split; [now rewrite fupd_same|]. split; [exact SC|congruence].
    - eapply lock_upd; [apply I|]. rewrite Q. keep.
    - eapply lock_upd; [apply I|]. rewrite Q. destruct c; keep.
    - eapply lock_upd; [apply I|]. rewrite Q. destruct c; keep.
  Qed.

  Lemma qinv_step s es l s' es' : qinv s es -> stp s l = Some (s', es') -> qinv s' (es ++ es').
  Proof.
    intros I E. destruct l as [t c|t|t|t|t fl]; cbn [q_step] in E.
    - (* call *)
      destruct (q_thr s t) as [|c0 p0] eqn:Q; [|discriminate]. injection E as <- <-. unfold q_go.
      apply simple_inv; rewrite ?Q; [exact I| | | |discriminate| |].
      + left. split; [reflexivity|]. now destruct c.
      + left. split; [reflexivity|]. now destruct c.
      + left. split; [reflexivity|]. now destruct c.
      + intros d p X. injection X as <- <-. now destruct c.
      + intros q R P W. split; [now destruct c|]. right. left. exists c. split; [reflexivity|]. split; [reflexivity|]. split; [|reflexivity]. now destruct c.
    - destruct (q_thr s t) as [|c p] eqn:Q; [discriminate|].
      assert (EVN : forall y q, st_of y = st_of (QAt c p) -> ev_ok t (QAt c p) y q q []) by (intros y q X; left; auto).
      destruct p as [| | | |b| | | |r|r|r|r].
      + (* PLockOuter *)
        destruct (free (outer s c)) eqn:FR; [|discriminate]. injection E as <- <-. apply free_none in FR.
        pose proof (fun q => EVN (QAt c PLockChk) q eq_refl) as EV.
        destruct (qi_q _ _ I) as (q0 & _ & P0 & _). specialize (P0 t). rewrite Q in P0. cbn in P0.
        destruct c as [v ms|st ms| |]; try contradiction; unfold q_go, set_outer, outer in *; cbn [is_send q_ring q_ne q_nf q_mrb q_msend q_mrecv q_ub q_thr] in *;
          (apply simple_inv; rewrite ?Q; [exact I|keep|first [acq|keep]|first [acq|keep]|discriminate|nwait|]; intros q R P W; split; [exact P|apply EV]).
      + (* PLockChk *)
        destruct (free (q_mrb s)) eqn:FR; [|discriminate]. injection E as <- <-. apply free_none in FR.
        unfold q_go, set_mrb. cbn [q_ring q_ne q_nf q_mrb q_msend q_mrecv q_ub q_thr].
        apply simple_inv; rewrite ?Q; [exact I|acq|destruct c; keep|destruct c; keep|discriminate|nwait|].
        intros q R P W. split; [exact P|now apply EVN].
      + (* PChk *)
        injection E as <- <-. unfold q_go.
        apply simple_inv; rewrite ?Q; [exact I| | | |discriminate| |].
        * left. split; [reflexivity|]. now destruct (blocked V maxSize s c).
        * left. split; [reflexivity|]. destruct c; now destruct (blocked V maxSize s _).
        * left. split; [reflexivity|]. destruct c; now destruct (blocked V maxSize s _).
        * intros d p X. injection X as <- <-. now destruct (blocked V maxSize s c).
        * intros q R P W. pose proof (blocked_ok s es q c I R P) as BL. destruct (blocked V maxSize s c).
          -- split; [|now apply EVN]. split; [exact P|now apply BL].
          -- split; [|now apply EVN]. split; [exact P|]. destruct c as [v ms|st ms| |]; try contradiction; cbn in *.
             ++ destruct (lt_dec (length q) N); [assumption|]. apply BL in n. discriminate.
             ++ intros X. subst q. assert (X : false = true) by (apply BL; auto). discriminate.
      + (* PResetEv *)
        injection E as <- <-. destruct (qi_q _ _ I) as (q & R & P & W & F). pose proof (P t) as Pt. rewrite Q in Pt. destruct Pt as (S & NB).
        assert (SNS : forall c' r, sr c' -> is_send c' <> is_send c -> forall u, q_thr s u <> QAt c' (PSetEv r)).
        { intros c' r _ _ u X. assert (t = u); [|subst; congruence]. pose proof (qi_rb _ _ I t) as A1. pose proof (qi_rb _ _ I u) as A2. rewrite Q in A1. rewrite X in A2. cbn in *.
          assert (q_mrb s = Some t) by tauto. assert (q_mrb s = Some u) by tauto. congruence. }
        assert (RW : qinv (mkQ (q_ring s) (if is_send c then q_ne s else false) (if is_send c then false else q_nf s) (q_mrb s) (q_msend s) (q_mrecv s) (q_ub s)
                      (fupd (q_thr s) t (QAt c (PUnlockChk true)))) (es ++ [])).
        { eapply mk_inv; [exact I|exact R| | | | | |exact F|rewrite Q; now apply EVN].
          - apply pc_upd; [exact q|intros; apply P|exact S].
          - intros u d p. rewrite fupd_eq. destruct (Nat.eqb_spec u t) as [->|Nu].
            + intros X _. injection X as <- <-. destruct c; try contradiction; cbn; now left.
            + intros X Wp. assert (SD : sr d). { pose proof (P u) as Pu. rewrite X in Pu. destruct p as [| | | |[|]| | | | | | |]; try discriminate; exact Pu. }
              assert (DS : is_send d <> is_send c) by exact (outer_excl s es t u c d PResetEv p I Q X Nu S SD eq_refl (waiting_outer p Wp)).
              specialize (W u d p X Wp).
              assert (BT : (if is_send d then if is_send c then false else q_nf s else if is_send c then q_ne s else false) = (if is_send d then q_nf s else q_ne s)).
              { destruct (is_send d), (is_send c); try reflexivity; now elim DS. }
              rewrite BT. destruct (if is_send d then q_nf s else q_ne s); [exact W|]. destruct W as [W|(v & c' & r & Ev & S' & D)]; [now left|right].
              exists v, c', r. split; [|split; assumption]. rewrite fupd_other; [exact Ev|]. intros ->. congruence.
          - eapply lock_upd; [apply I|]. rewrite Q. keep.
          - eapply lock_upd; [apply I|]. rewrite Q. destruct c; keep.
          - eapply lock_upd; [apply I|]. rewrite Q. destruct c; keep. }
        unfold q_go, reset_bit. destruct (is_send c); exact RW.
      + (* PUnlockChk *)
        injection E as <- <-. unfold q_go, set_mrb. cbn [q_ring q_ne q_nf q_mrb q_msend q_mrecv q_ub q_thr].
        apply simple_inv; rewrite ?Q; [exact I| | | |discriminate| |].
        * right. right. split; [reflexivity|]. split; [reflexivity|]. now destruct b.
        * left. split; [reflexivity|]. destruct c; now destruct b.
        * left. split; [reflexivity|]. destruct c; now destruct b.
        * intros d p X Wp. injection X as <- <-. destruct b; [|discriminate]. eexists. split; [reflexivity|reflexivity].
        * intros q R P W. destruct b; (split; [|now apply EVN]); [exact P|]. exact (proj2 P).
      + (* PWait *)
        destruct (wait_bit s c) eqn:WB; [|discriminate]. injection E as <- <-. unfold q_go.
        apply simple_inv; rewrite ?Q; [exact I|keep|destruct c; keep|destruct c; keep|discriminate|nwait|].
        intros q R P W. split; [|now apply EVN]. specialize (W t c PWait Q eq_refl). unfold wait_bit in WB. rewrite WB in W. exact W.
      + (* PLockOp *)
        destruct (free (q_mrb s)) eqn:FR; [|discriminate]. injection E as <- <-. apply free_none in FR.
        unfold q_go, set_mrb. cbn [q_ring q_ne q_nf q_mrb q_msend q_mrecv q_ub q_thr].
        apply simple_inv; rewrite ?Q; [exact I|acq|destruct c; keep|destruct c; keep|discriminate|nwait|].
        intros q R P W. split; [exact P|now apply EVN].
      + (* POp *)
        destruct (qi_q _ _ I) as (q & R & P & W & F). pose proof (P t) as Pt. rewrite Q in Pt. cbn [pc_ok] in Pt.
        pose proof B_eq as EB. injection E as E. unfold q_op in E. destruct c as [v ms|st ms| |]; cbn [nb] in Pt.
        * destruct (ring_push_ok V B B_ok (q_ring s) q v R) as (rg & E1 & R'); [lia|]. rewrite E1 in E. injection E as <- <-.
          unfold q_go, set_ring. cbn [q_ring q_ne q_nf q_mrb q_msend q_mrecv q_ub q_thr].
          apply (op_inv s es t (QSend v ms) (RSend OK) rg q (q ++ [v])); try assumption; try exact Logic.I.
          -- cbn. destruct q; discriminate.
          -- intros d SD DC. destruct d; try contradiction; cbn in *; try congruence; destruct q; discriminate.
          -- left. auto.
        * destruct q as [|v q]; [congruence|]. destruct (ring_pop_ok V B B_ok (q_ring s) v q R) as (rg & E1 & R'). rewrite E1 in E. injection E as <- <-.
          unfold q_go, set_ring. cbn [q_ring q_ne q_nf q_mrb q_msend q_mrecv q_ub q_thr].
          pose proof (rr_len _ _ _ _ R) as LE. cbn [length] in LE.
          apply (op_inv s es t (QRecv st ms) (RRecv OK (if st then Some v else None)) rg (v :: q) q); try assumption; try exact Logic.I.
          -- cbn. lia.
          -- intros d SD DC. destruct d; try contradiction; cbn in *; try congruence; lia.
          -- left. eauto.
        * injection E as <- <-. unfold q_go. apply simple_inv; rewrite ?Q; [exact I|keep|keep|keep|discriminate|nwait|].
          intros q1 R1 P1 W1. split; [exact Logic.I|]. right. right. right. eexists. eexists. repeat split. f_equal. exact (ring_size_ok V B B_ok _ _ R1).
        * injection E as <- <-. unfold q_go. apply simple_inv; rewrite ?Q; [exact I|keep|keep|keep|discriminate|nwait|].
          intros q1 R1 P1 W1. split; [exact Logic.I|]. right. right. right. eexists. eexists. repeat split. f_equal. rewrite (ring_max_ok B B_ok), EB. lia.
      + (* PSetEv *)
        injection E as <- <-. destruct (qi_q _ _ I) as (q & R & P & W & F). pose proof (P t) as Pt. rewrite Q in Pt. destruct Pt as (S & NB').
        assert (H : h_rb (q_thr s t) = true) by now rewrite Q.
        assert (RW : qinv (mkQ (q_ring s) (if is_send c then true else q_ne s) (if is_send c then q_nf s else true) (q_mrb s) (q_msend s) (q_mrecv s) (q_ub s)
                      (fupd (q_thr s) t (QAt c (PUnlockOp r)))) (es ++ [])).
        { eapply mk_inv; [exact I|exact R| | | | | |exact F|rewrite Q; now apply EVN].
          - apply pc_upd; [exact q|intros; apply P|exact Logic.I].
          - intros u d p. rewrite fupd_eq. destruct (Nat.eqb_spec u t) as [->|Nu]; intros X Wp; [injection X as <- <-; discriminate|].
            pose proof (P u) as Pu. rewrite X in Pu. pose proof (waiting_sr _ _ _ Pu Wp) as SD.
            assert (DC : is_send d <> is_send c) by exact (outer_excl s es t u c d (PSetEv r) p I Q X Nu S SD eq_refl (waiting_outer p Wp)).
            destruct c as [v0 ms0|st0 ms0| |]; try contradiction; destruct d as [v1 ms1|st1 ms1| |]; try contradiction; cbn in *; try congruence; exact NB'.
          - eapply lock_upd; [apply I|]. rewrite Q. keep.
          - eapply lock_upd; [apply I|]. rewrite Q. destruct c; keep.
          - eapply lock_upd; [apply I|]. rewrite Q. destruct c; keep. }
        unfold q_go, set_bit. destruct (is_send c); exact RW.
      + (* PUnlockOp *)
        injection E as <- <-. unfold q_go, set_mrb. cbn [q_ring q_ne q_nf q_mrb q_msend q_mrecv q_ub q_thr].
        apply simple_inv; rewrite ?Q; [exact I| | | |discriminate| |].
        * right. right. split; [reflexivity|]. split; [reflexivity|]. now destruct c.
        * left. split; [reflexivity|]. now destruct c.
        * left. split; [reflexivity|]. now destruct c.
        * intros d p X Wp. injection X as <- <-. now destruct c.
        * intros q R P W. split; [now destruct c|]. apply EVN. now destruct c.
      + (* PUnlockOuter *)
        injection E as <- <-. pose proof (fun q => EVN (QAt c (PRet r)) q eq_refl) as EV.
        destruct (qi_q _ _ I) as (q0 & _ & P0 & _). specialize (P0 t). rewrite Q in P0. cbn in P0.
        destruct c as [v ms|st ms| |]; try contradiction; unfold q_go, set_outer, outer in *; cbn [is_send q_ring q_ne q_nf q_mrb q_msend q_mrecv q_ub q_thr] in *;
          (apply simple_inv; rewrite ?Q; [exact I|keep|first [rel|keep]|first [rel|keep]|discriminate|nwait|]; intros q R P W; split; [exact Logic.I|apply EV]).
      + (* PRet *)
        injection E as <- <-. unfold q_go.
        apply simple_inv; rewrite ?Q; [exact I|keep|destruct c; keep|destruct c; keep|discriminate|discriminate|].
        intros q R P W. split; [exact Logic.I|]. right. right. left. exists r. auto.
    - (* timeout *)
      destruct (q_thr s t) as [|c p] eqn:Q; [discriminate|]. destruct p as [| | | |b| | | |r|r|r|r]; try discriminate.
      + destruct (free (outer s c)); [discriminate|]. destruct (Z.eqb_spec (tmout c) (-1)) as [|TM]; [discriminate|]. cbn [orb] in E. injection E as <- <-.
        unfold q_go. apply simple_inv; rewrite ?Q; [exact I|keep|destruct c; keep|destruct c; keep|discriminate|nwait|].
        intros q R P W. split; [exact Logic.I|]. right. right. right. exists c, (fail_res c TimedOut). repeat split.
        cbn in P. destruct c; try contradiction; cbn in *; right; left; auto.
      + destruct (wait_bit s c); [discriminate|]. destruct (Z.eqb_spec (tmout c) (-1)) as [|TM]; [discriminate|]. cbn [orb] in E. injection E as <- <-.
        unfold q_go. apply simple_inv; rewrite ?Q; [exact I|keep|destruct c; keep|destruct c; keep|discriminate|nwait|].
        intros q R P W. split; [exact P|]. right. right. right. exists c, (fail_res c TimedOut). repeat split.
        cbn in P. destruct c; try contradiction; cbn in *; right; left; auto.
    - (* lock failure *)
      destruct (q_thr s t) as [|c p] eqn:Q; [discriminate|]. destruct p as [| | | |b| | | |r|r|r|r]; try discriminate. injection E as <- <-.
      unfold q_go. apply simple_inv; rewrite ?Q; [exact I|keep|destruct c; keep|destruct c; keep|discriminate|nwait|].
      intros q R P W. split; [exact Logic.I|]. right. right. right. exists c, (fail_res c OtherError). repeat split.
      cbn in P. destruct c; try contradiction; cbn in *; right; right; auto.
    - (* a throwing copy *)
      destruct (q_thr s t) as [|c p] eqn:Q; [discriminate|]. destruct c as [v ms|st ms| |]; try discriminate.
      + destruct p as [| | | |b| | | |r|r|r|r]; try discriminate. injection E as <- <-.
        unfold q_go. apply simple_inv; rewrite ?Q; [exact I|keep|keep|keep|discriminate|nwait|].
        intros q R P W. split; [exact Logic.I|]. right. right. right. eexists. eexists. repeat split. destruct fl; cbn; auto 6.
      + destruct st; [|discriminate]. destruct p as [| | | |b| | | |r|r|r|r]; try discriminate. injection E as <- <-.
        unfold q_go. apply simple_inv; rewrite ?Q; [exact I|keep|keep|keep|discriminate|nwait|].
        intros q R P W. split; [exact Logic.I|]. right. right. right. eexists. eexists. repeat split. destruct fl; cbn; auto 6.
  Qed.

  Theorem queue_inv ls s es : exec stp (q_init V) ls = Some (s, es) -> qinv s es.
  Proof. intros E. exact (exec_inv _ _ _ stp qinv qinv_step ls (q_init V) [] s es qinv_init E). Qed.

  Theorem queue_linearizable ls s es : exec stp (q_init V) ls = Some (s, es) -> linearizable spec [] (history es) /\ q_ub s = false.
  Proof.
    intros E. pose proof (queue_inv ls s es E) as I. split; [|apply I]. destruct (qi_q _ _ I) as (q & _ & _ & _ & f & L & _).
    exists es, f, q. split; [reflexivity|exact L].
  Qed.

  (** sequential runs of the specification are first-in first-out *)
  Lemma spec_fifo l : forall q0 q, sp_run spec q0 l q ->
    exists taken, q0 ++ all_sent l = taken ++ q /\ Forall2 delivers taken (all_received l).
  Proof.
    induction l as [|[[t c] r] l IH]; intros q0 q H; inversion H; subst.
    - exists []. cbn. rewrite app_nil_r. split; [reflexivity|constructor].
    - match goal with h : sp_run _ _ l q |- _ => destruct (IH _ _ h) as (tk & E & F) end.
      match goal with h : qspec _ _ _ _ _ _ _ |- _ => rename h into S end.
      cbn [all_sent all_received flat_map sent received]. fold (all_sent l). fold (all_received l).
      destruct c as [v ms|st ms| |]; cbn in S.
      + destruct S as [(-> & _ & ->)|[(-> & _ & ->)|([-> | ->] & ->)]]; cbn; exists tk; (split; [|exact F]); [|exact E..]. rewrite <- E, <- app_assoc. reflexivity.
      + destruct S as [(v & -> & ->)|[(-> & _ & ->)|([-> | ->] & ->)]]; cbn; [|exists tk; split; [exact E|exact F]..].
        exists (v :: tk). split; [cbn; now rewrite <- E|]. constructor; [|exact F]. unfold delivers. cbn. now destruct st.
      + destruct S as (-> & ->). exists tk. split; [exact E|exact F].
      + destruct S as (-> & ->). exists tk. split; [exact E|exact F].
  Qed.
  Definition pending (l : list (nat * qcall V * qres V)) (q : list V) : Prop :=
    exists taken, all_sent l = taken ++ q /\ Forall2 delivers taken (all_received l).
  Theorem queue_fifo h : linearizable spec [] h ->
    exists es f q taken, history es = h /\ lin_run spec (fun _ => Out) [] es f q /\
      all_sent (effects es) = taken ++ q /\ Forall2 delivers taken (all_received (effects es)) /\ (length q <= N)%nat.
  Proof.
    intros (es & f & q & H & L). destruct (spec_fifo (effects es) [] q (lin_run_effects _ _ _ _ _ _ _ _ _ L)) as (tk & E & F).
    exists es, f, q, tk. split; [exact H|]. split; [exact L|]. split; [exact E|]. split; [exact F|].
    assert (G : forall l q0 q1, sp_run spec q0 l q1 -> (length q0 <= N)%nat -> (length q1 <= N)%nat).
    { clear. induction l as [|[[t c] r] l IH]; intros q0 q1 H; inversion H; subst; [auto|]. intros L. eapply IH; [eassumption|].
      match goal with h : qspec _ _ _ _ _ _ _ |- _ => rename h into S end. destruct c as [v ms|st ms| |]; cbn in S.
      - destruct S as [(_ & X & ->)|[(_ & _ & ->)|(_ & ->)]]; [|exact L..]. rewrite app_length. cbn. lia.
      - destruct S as [(v & -> & _)|[(_ & _ & ->)|(_ & ->)]]; [|exact L..]. cbn in L. lia.
      - destruct S as (_ & ->). exact L.
      - destruct S as (_ & ->). exact L. }
    eapply G; [exact (lin_run_effects _ _ _ _ _ _ _ _ _ L)|cbn; lia].
  Qed.

  (** the messages queued now: those taken effect as sent, minus those taken effect as received *)
  Definition queued (es : out) : Z := Z.of_nat (length (all_sent (effects es))) - Z.of_nat (length (all_received (effects es))).
  Lemma queued_ok s es q f : ring_rep V B (q_ring s) q -> lin_run spec (fun _ => Out) [] es f q -> queued es = Z.of_nat (length q).
  Proof.
    intros _ L. destruct (spec_fifo (effects es) [] q (lin_run_effects _ _ _ _ _ _ _ _ _ L)) as (tk & E & F). cbn in E.
    assert (FL : forall (a : list V) b, Forall2 delivers a b -> length a = length b) by (induction 1; cbn; auto). apply FL in F. unfold queued. rewrite E, app_length. lia.
  Qed.
  Theorem queue_bounds ls s es : exec stp (q_init V) ls = Some (s, es) ->
    q_ub s = false /\ 0 <= queued es <= maxSize /\ ring_size V B (q_ring s) = queued es /\ ring_max B = maxSize.
  Proof.
    intros E. pose proof (queue_inv ls s es E) as I. destruct (qi_q _ _ I) as (q & R & _ & _ & f & L & _).
    rewrite (queued_ok s es q f R L). pose proof (rr_len _ _ _ _ R) as Ln. pose proof B_eq.
    split; [apply I|]. split; [lia|]. split; [exact (ring_size_ok V B B_ok _ _ R)|]. rewrite (ring_max_ok B B_ok). lia.
  Qed.

  (** what a blocked call is blocked by *)
  Definition waits_for (es : out) (c : qcall V) : Prop :=
    match c with QSend _ _ => queued es = maxSize | QRecv _ _ => queued es = 0 | _ => False end.
  Lemma not_nb s es q f c : ring_rep V B (q_ring s) q -> lin_run spec (fun _ => Out) [] es f q -> sr c -> ~ nb c q -> waits_for es c.
  Proof.
    intros R L S X. pose proof (rr_len _ _ _ _ R) as Ln. pose proof B_eq. pose proof (queued_ok s es q f R L) as K.
    destruct c; try contradiction; cbn in *; rewrite K; [lia|]. destruct q; [reflexivity|elim X; discriminate].
  Qed.
  Theorem queue_blocked ls s es : exec stp (q_init V) ls = Some (s, es) -> (forall t, stp s (QStep t) = None) ->
    forall t, q_idle s t \/ exists c, q_running s t = Some c /\ waits_for es c.
  Proof.
    intros E ST. pose proof (queue_inv ls s es E) as I. destruct (qi_q _ _ I) as (q & R & P & W & f & L & F).
    assert (RB : q_mrb s = None).
    { destruct (q_mrb s) as [u|] eqn:X; [|reflexivity]. apply (qi_rb _ _ I) in X. specialize (ST u). cbn in ST.
      destruct (q_thr s u) as [|c p]; [discriminate|]. destruct p; discriminate. }
    assert (NS : forall c, ~ signaller (q_thr s) c).
    { intros c (u & c' & r & X & _). specialize (ST u). cbn in ST. rewrite X in ST. discriminate. }
    assert (G : forall t c, q_thr s t = QAt c PWait -> waits_for es c).
    { intros t c X. pose proof (W t c PWait X eq_refl) as Wt. pose proof (P t) as Pt. rewrite X in Pt. specialize (ST t). cbn in ST. rewrite X in ST.
      unfold wait_bit in ST. destruct (if is_send c then q_nf s else q_ne s); [discriminate|]. destruct Wt as [Wt|Wt]; [|now elim (NS c)].
      exact (not_nb s es q f c R L Pt Wt). }
    assert (H : forall t, q_thr s t = QIdle \/ exists c, q_thr s t = QAt c PWait \/ q_thr s t = QAt c PLockOuter /\ outer s c <> None).
    { intros t. specialize (ST t). cbn in ST. destruct (q_thr s t) as [|c p]; [now left|right]. exists c.
      destruct p; try discriminate; try (rewrite RB in ST; discriminate).
      - right. split; [reflexivity|]. destruct (outer s c); discriminate.
      - now left. }
    intros t. unfold q_idle, q_running. destruct (H t) as [X|(c & [X|(X & O)])]; rewrite X; [now left|right..]; exists c; (split; [reflexivity|]).
    - exact (G t c X).
    - pose proof (P t) as Pt. rewrite X in Pt. cbn in Pt.
      destruct c as [v ms|st ms| |]; try contradiction; cbn in O.
      + destruct (q_msend s) as [u|] eqn:Y; [|congruence]. apply (qi_send _ _ I) in Y.
        destruct (H u) as [Z|(d & [Z|(Z & _)])]; rewrite Z in Y; cbn in Y; try discriminate; destruct d; try discriminate. exact (G u _ Z).
      + destruct (q_mrecv s) as [u|] eqn:Y; [|congruence]. apply (qi_recv _ _ I) in Y.
        destruct (H u) as [Z|(d & [Z|(Z & _)])]; rewrite Z in Y; cbn in Y; try discriminate; destruct d; try discriminate. exact (G u _ Z).
  Qed.
  (** a thread waiting for the event flag that cannot go on *)
  Theorem queue_wait ls s es t c : exec stp (q_init V) ls = Some (s, es) -> q_thr s t = QAt c PWait -> stp s (QStep t) = None ->
    waits_for es c \/ exists u d r, q_thr s u = QAt d (PSetEv r) /\ sr d /\ is_send d = negb (is_send c).
  Proof.
    intros E X ST. pose proof (queue_inv ls s es E) as I. destruct (qi_q _ _ I) as (q & R & P & W & f & L & F).
    pose proof (W t c PWait X eq_refl) as Wt. pose proof (P t) as Pt. rewrite X in Pt. cbn in ST. rewrite X in ST.
    unfold wait_bit in ST. destruct (if is_send c then q_nf s else q_ne s); [discriminate|]. destruct Wt as [Wt|Wt].
    - left. exact (not_nb s es q f c R L Pt Wt).
    - right. destruct Wt as (u & d & r & Y & SD & DC). exists u, d, r. split; [exact Y|]. split; [exact SD|]. destruct (is_send d), (is_send c); cbn; congruence.
  Qed.

  Definition qw (x : qpc V) : nat :=
    match x with
    | QIdle => 0
    | QAt _ p => match p with
                 | PRet _ => 1 | PUnlockOuter _ => 2 | PUnlockOp _ => 3 | PSetEv _ => 4 | POp => 5 | PLockOp => 6
                 | PWait => 7 | PUnlockChk _ => 8 | PResetEv => 9 | PChk => 10 | PLockChk => 11 | PLockOuter => 12
                 end
    end%nat.
  Theorem queue_calls_end n ls0 s0 es0 ls s es : exec stp (q_init V) ls0 = Some (s0, es0) ->
    (forall t, (n <= t)%nat -> q_idle s0 t) -> (forall l, In l ls -> q_own_step l) -> exec stp s0 ls = Some (s, es) -> (length ls <= 12 * n)%nat.
  Proof.
    intros E0 ID OL E.
    pose proof (exec_measure _ _ _ stp (fun s => (exists es, qinv s es) /\ forall t, (n <= t)%nat -> q_idle s t) q_own_step (fun s => sumn (fun t => qw (q_thr s t)) n)) as X.
    assert (ST : forall s l s' es', ((exists es, qinv s es) /\ forall t, (n <= t)%nat -> q_idle s t) -> q_own_step l -> stp s l = Some (s', es') ->
              ((exists es, qinv s' es) /\ forall t, (n <= t)%nat -> q_idle s' t) /\ (sumn (fun t => qw (q_thr s' t)) n < sumn (fun t => qw (q_thr s t)) n)%nat).
    { intros s1 l s2 es2 ((es1 & I) & ID1) OL1 E1.
      assert (U : forall t q, q_thr s1 t <> QIdle -> (qw q < qw (q_thr s1 t))%nat -> q_thr s2 = fupd (q_thr s1) t q ->
         ((exists es, qinv s2 es) /\ forall u, (n <= u)%nat -> q_idle s2 u) /\ (sumn (fun u => qw (q_thr s2 u)) n < sumn (fun u => qw (q_thr s1 u)) n)%nat).
      { intros t q NI LT Y. assert (Lt : (t < n)%nat). { destruct (le_lt_dec n t) as [G|]; [|assumption]. elim NI. now apply ID1. }
        split; [split|].
        - eexists. exact (qinv_step s1 es1 l s2 es2 I E1).
        - intros u Gu. unfold q_idle. rewrite Y, fupd_other by lia. now apply ID1.
        - rewrite Y. pose proof (sumn_change n (fun u => qw (q_thr s1 u)) (fun u => qw (fupd (q_thr s1) t q u)) t Lt) as Z. cbn beta in Z.
          rewrite fupd_same in Z. specialize (Z ltac:(intros u Nu; now rewrite fupd_other)). clear HM. lia. }
      pose proof (qi_q _ _ I) as (q & R & P & _).
      destruct l as [t c|t|t|t|t fl]; [contradiction| | | |]; pose proof (P t) as Pt; cbn [q_step] in E1; destruct (q_thr s1 t) as [|c p] eqn:Q; try discriminate.
      - destruct p as [| | | |b| | | |r|r|r|r].
        + destruct (free (outer s1 c)); [|discriminate]. injection E1 as <- <-. eapply U with (t := t); [rewrite Q; discriminate| |cbn; unfold set_outer; destruct (is_send c); reflexivity]. rewrite Q. cbn. lia.
        + destruct (free (q_mrb s1)); [|discriminate]. injection E1 as <- <-. eapply U with (t := t); [rewrite Q; discriminate| |reflexivity]. rewrite Q. cbn. lia.
        + injection E1 as <- <-. eapply U with (t := t); [rewrite Q; discriminate| |reflexivity]. rewrite Q. destruct (blocked V maxSize s1 c); cbn; lia.
        + injection E1 as <- <-. eapply U with (t := t); [rewrite Q; discriminate| |cbn; unfold reset_bit; destruct (is_send c); reflexivity]. rewrite Q. cbn. lia.
        + injection E1 as <- <-. eapply U with (t := t); [rewrite Q; discriminate| |reflexivity]. rewrite Q. destruct b; cbn; lia.
        + destruct (wait_bit s1 c); [|discriminate]. injection E1 as <- <-. eapply U with (t := t); [rewrite Q; discriminate| |reflexivity]. rewrite Q. cbn. lia.
        + destruct (free (q_mrb s1)); [|discriminate]. injection E1 as <- <-. eapply U with (t := t); [rewrite Q; discriminate| |reflexivity]. rewrite Q. cbn. lia.
        + injection E1 as E1. unfold q_op in E1. pose proof B_eq as EB. cbn [pc_ok] in Pt. destruct c as [v ms|st ms| |]; cbn [nb] in Pt.
          * destruct (ring_push_ok V B B_ok (q_ring s1) q v R) as (rg & E2 & _); [lia|]. rewrite E2 in E1. injection E1 as <- <-.
            eapply U with (t := t); [rewrite Q; discriminate| |reflexivity]. rewrite Q. cbn. lia.
          * destruct q as [|v q]; [congruence|]. destruct (ring_pop_ok V B B_ok (q_ring s1) v q R) as (rg & E2 & _). rewrite E2 in E1. injection E1 as <- <-.
            eapply U with (t := t); [rewrite Q; discriminate| |reflexivity]. rewrite Q. cbn. lia.
          * injection E1 as <- <-. eapply U with (t := t); [rewrite Q; discriminate| |reflexivity]. rewrite Q. cbn. lia.
          * injection E1 as <- <-. eapply U with (t := t); [rewrite Q; discriminate| |reflexivity]. rewrite Q. cbn. lia.
        + injection E1 as <- <-. eapply U with (t := t); [rewrite Q; discriminate| |cbn; unfold set_bit; destruct (is_send c); reflexivity]. rewrite Q. cbn. lia.
        + injection E1 as <- <-. eapply U with (t := t); [rewrite Q; discriminate| |reflexivity]. rewrite Q. destruct c; cbn; lia.
        + injection E1 as <- <-. eapply U with (t := t); [rewrite Q; discriminate| |cbn; unfold set_outer; destruct (is_send c); reflexivity]. rewrite Q. cbn. lia.
        + injection E1 as <- <-. eapply U with (t := t); [rewrite Q; discriminate| |reflexivity]. rewrite Q. cbn. lia.
      - destruct p as [| | | |b| | | |r|r|r|r]; try discriminate.
        + destruct (free (outer s1 c) || (tmout c =? -1)); [discriminate|]. injection E1 as <- <-. eapply U with (t := t); [rewrite Q; discriminate| |reflexivity]. rewrite Q. cbn. lia.
        + destruct (wait_bit s1 c || (tmout c =? -1)); [discriminate|]. injection E1 as <- <-. eapply U with (t := t); [rewrite Q; discriminate| |reflexivity]. rewrite Q. cbn. lia.
      - destruct p as [| | | |b| | | |r|r|r|r]; try discriminate. injection E1 as <- <-. eapply U with (t := t); [rewrite Q; discriminate| |reflexivity]. rewrite Q. cbn. lia.
      - destruct c as [v ms|[|] ms| |]; try discriminate; destruct p as [| | | |b| | | |r|r|r|r]; try discriminate; injection E1 as <- <-;
          (eapply U with (t := t); [rewrite Q; discriminate| |reflexivity]; rewrite Q; cbn; lia). }
    assert (I0 : (exists es, qinv s0 es) /\ forall t, (n <= t)%nat -> q_idle s0 t) by (split; [exists es0; exact (queue_inv ls0 s0 es0 E0)|exact ID]).
    specialize (X ST ls s0 s es I0 OL E). cbn beta in X. clear HM.
    assert (BD : (sumn (fun t => qw (q_thr s0 t)) n <= n * 12)%nat) by (apply sumn_bound; intros k _; destruct (q_thr s0 k) as [|c p]; cbn; [|destruct p; cbn]; lia). lia.
  Qed.

  (** C36: when a call gives up *)
  Definition no_call_ret (t : nat) (es : out) : Prop := forall e, In e es -> match e with Call u _ | Ret u _ => u <> t | _ => True end.
  (** at some moment of the run [ls], since which [t] has stayed inside its present call [c], the queue was full / empty *)
  Definition was_blocked (ls : list (qlab V)) (s : qst) (t : nat) (c : qcall V) : Prop :=
    exists ls1 ls2 s1 e1 e2, ls = ls1 ++ ls2 /\ exec stp (q_init V) ls1 = Some (s1, e1) /\ exec stp s1 ls2 = Some (s, e2) /\
      q_running s1 t = Some c /\ no_call_ret t e2 /\ waits_for e1 c.
  Lemma was_blocked_step ls s t c l s' e : was_blocked ls s t c -> stp s l = Some (s', e) -> no_call_ret t e -> was_blocked (ls ++ [l]) s' t c.
  Proof.
    intros (ls1 & ls2 & s1 & e1 & e2 & -> & A & C & D & F & G) E H.
    exists ls1, (ls2 ++ [l]), s1, e1, (e2 ++ e). split; [now rewrite app_assoc|]. split; [exact A|]. split.
    - rewrite exec_app, C. cbn [exec]. rewrite E. now rewrite app_nil_r.
    - split; [exact D|]. split; [|exact G]. intros x Hx. apply in_app_iff in Hx. destruct Hx as [Hx|Hx]; [exact (F x Hx)|exact (H x Hx)].
  Qed.
  Definition past_check (p : point V) : bool := match p with PResetEv | PUnlockChk true | PWait => true | _ => false end.
  Lemma step_other s l s' e u : stp s l = Some (s', e) -> (match l with QCall t _ | QStep t | QTimeout t | QLockFail t | QThrow t _ => t end) <> u ->
    q_thr s' u = q_thr s u /\ no_call_ret u e.
  Proof.
    assert (NC : forall t (o : out), t <> u -> (forall x, In x o -> match x with Call v _ | Ret v _ | Eff v _ _ => v = t end) -> no_call_ret u o).
    { intros t o N H x Hx. specialize (H x Hx). destruct x; try exact Logic.I; congruence. }
    assert (G : forall (x : qst) t y, t <> u -> q_thr x u = q_thr s u -> q_thr (q_go x t y) u = q_thr s u).
    { intros x t y N <-. cbn. apply fupd_other. congruence. }
    assert (SO : forall c o, q_thr (set_outer s c o) u = q_thr s u) by (intros c o; unfold set_outer; destruct (is_send c); reflexivity).
    assert (RB : forall c, q_thr (reset_bit s c) u = q_thr s u) by (intros c; unfold reset_bit; destruct (is_send c); reflexivity).
    assert (SB : forall c, q_thr (set_bit s c) u = q_thr s u) by (intros c; unfold set_bit; destruct (is_send c); reflexivity).
    intros E N.
    assert (FIN : forall t y x (o : out), t <> u -> q_thr x u = q_thr s u -> Some (q_go x t y, o) = Some (s', e) ->
              (forall x, In x o -> match x with Call v _ | Ret v _ | Eff v _ _ => v = t end) -> q_thr s' u = q_thr s u /\ no_call_ret u e).
    { intros t y x o Nt X Y Z. injection Y as <- <-. split; [now apply G|]. now apply (NC t). }
    destruct l as [t c|t|t|t|t fl]; cbn [q_step] in E; destruct (q_thr s t) as [|c0 p0]; try discriminate.
    - eapply FIN; [exact N|reflexivity|exact E|]. cbn. intros x [<-|[]]. reflexivity.
    - destruct p0 as [| | | |b| | | |r|r|r|r].
      + destruct (free (outer s c0)); [|discriminate]. eapply FIN; [exact N|apply SO|exact E|intros x []].
      + destruct (free (q_mrb s)); [|discriminate]. eapply FIN; [exact N| |exact E|intros x []]. reflexivity.
      + eapply FIN; [exact N| |exact E|intros x []]. reflexivity.
      + eapply FIN; [exact N| |exact E|intros x []]. apply RB.
      + eapply FIN; [exact N| |exact E|intros x []]. reflexivity.
      + destruct (wait_bit s c0); [|discriminate]. eapply FIN; [exact N| |exact E|intros x []]. reflexivity.
      + destruct (free (q_mrb s)); [|discriminate]. eapply FIN; [exact N| |exact E|intros x []]. reflexivity.
      + injection E as E. unfold q_op in E. destruct c0 as [v ms|st ms| |].
        * destruct (ring_push V B (q_ring s) v); [|injection E as <- <-; split; [reflexivity|intros x []]].
          eapply FIN; [exact N| |rewrite E; reflexivity|]; [reflexivity|]. intros x [<-|[]]. reflexivity.
        * destruct (ring_pop V B (q_ring s)) as [[v r]|]; [|injection E as <- <-; split; [reflexivity|intros x []]].
          eapply FIN; [exact N| |rewrite <- E; reflexivity|]; [reflexivity|]. intros x [<-|[]]. reflexivity.
        * eapply FIN; [exact N| |rewrite <- E; reflexivity|]; [reflexivity|]. intros x [<-|[]]. reflexivity.
        * eapply FIN; [exact N| |rewrite <- E; reflexivity|]; [reflexivity|]. intros x [<-|[]]. reflexivity.
      + eapply FIN; [exact N| |exact E|intros x []]. apply SB.
      + eapply FIN; [exact N| |exact E|intros x []]. reflexivity.
      + eapply FIN; [exact N| |exact E|intros x []]. apply SO.
      + eapply FIN; [exact N| |exact E|]; [reflexivity|]. intros x [<-|[]]. reflexivity.
    - destruct p0 as [| | | |b| | | |r|r|r|r]; try discriminate.
      + destruct (free (outer s c0) || (tmout c0 =? -1)); [discriminate|]. eapply FIN; [exact N| |exact E|]; [reflexivity|]. intros x [<-|[]]. reflexivity.
      + destruct (wait_bit s c0 || (tmout c0 =? -1)); [discriminate|]. eapply FIN; [exact N| |exact E|]; [reflexivity|]. intros x [<-|[]]. reflexivity.
    - destruct p0 as [| | | |b| | | |r|r|r|r]; try discriminate. eapply FIN; [exact N| |exact E|]; [reflexivity|]. intros x [<-|[]]. reflexivity.
    - destruct c0 as [v ms|[|] ms| |]; try discriminate; destruct p0 as [| | | |b| | | |r|r|r|r]; try discriminate;
        (eapply FIN; [exact N| |exact E|]; [reflexivity|]; intros x [<-|[]]; reflexivity).
  Qed.
  Lemma past_blocked ls : forall s es t c p, exec stp (q_init V) ls = Some (s, es) -> q_thr s t = QAt c p -> past_check p = true -> was_blocked ls s t c.
  Proof.
    induction ls as [|l ls IH] using rev_ind; intros s' es t c p E Q PC.
    - cbn in E. injection E as <- <-. discriminate.
    - rewrite exec_app in E. destruct (exec stp (q_init V) ls) as [[s es1]|] eqn:E1; [|discriminate]. cbn [exec] in E.
      destruct (stp s l) as [[s2 es2]|] eqn:E2; [|discriminate]. injection E as <- <-.
      destruct (Nat.eq_dec (match l with QCall t _ | QStep t | QTimeout t | QLockFail t | QThrow t _ => t end) t) as [ET|NT].
      + destruct l as [u d|u|u|u|u fl]; cbn [q_step] in E2; subst u; destruct (q_thr s t) as [|c0 p0] eqn:Q0; try discriminate.
        * injection E2 as <- <-. cbn in Q. rewrite fupd_same in Q. injection Q as <- <-. destruct d; discriminate.
        * assert (K : forall x y, Some (q_go x t y, []) = Some (s2, es2) -> y = QAt c p).
          { intros x y X. injection X as <- <-. cbn in Q. now rewrite fupd_same in Q. }
          assert (SAME : stp s (QStep t) = Some (s2, es2) -> c0 = c -> past_check p0 = true -> es2 = [] -> was_blocked (ls ++ [QStep t]) s2 t c).
          { intros X <- Y ->. eapply was_blocked_step; [|exact X|intros x []]. eapply IH; [reflexivity|exact Q0|exact Y]. }
          pose proof E2 as E2'. destruct p0 as [| | | |b| | | |r|r|r|r].
          -- destruct (free (outer s c0)); [|discriminate]. apply K in E2. injection E2 as <- <-. discriminate.
          -- destruct (free (q_mrb s)); [|discriminate]. apply K in E2. injection E2 as <- <-. discriminate.
          -- pose proof E2 as E3. apply K in E2. injection E2 as <- Ep. destruct (blocked V maxSize s c0) eqn:BL; [|subst p; discriminate].
             injection E3 as X <-. pose proof (queue_inv ls s es1 E1) as I. destruct (qi_q _ _ I) as (q & R & P & W & f & L & F).
             pose proof (P t) as Pt. rewrite Q0 in Pt. apply (blocked_ok s es1 q c0 I R Pt) in BL.
             exists ls, [QStep t], s, es1, []. split; [reflexivity|]. split; [exact E1|]. split.
             { cbn [exec q_step]. rewrite Q0. pose proof (blocked_ok s es1 q c0 I R Pt) as BL'. rewrite (proj2 BL' BL). now rewrite <- X. }
             split; [unfold q_running; now rewrite Q0|]. split; [intros x []|]. exact (not_nb s es1 q f c0 R L Pt BL).
          -- pose proof E2 as E3. apply K in E2. injection E2 as <- Ep. apply SAME; auto; [cbn [q_step]; rewrite Q0; exact E3|congruence].
          -- pose proof E2 as E3. apply K in E2. injection E2 as <- Ep. destruct b; [|subst p; discriminate]. apply SAME; auto; [cbn [q_step]; rewrite Q0; exact E3|congruence].
          -- destruct (wait_bit s c0); [|discriminate]. apply K in E2. injection E2 as <- <-. discriminate.
          -- destruct (free (q_mrb s)); [|discriminate]. apply K in E2. injection E2 as <- <-. discriminate.
          -- exfalso. injection E2 as E2. unfold q_op in E2. destruct c0 as [v ms|st ms| |].
             ++ destruct (ring_push V B (q_ring s) v); injection E2 as <- <-; cbn in Q; [rewrite fupd_same in Q|rewrite Q0 in Q]; injection Q as <- <-; discriminate.
             ++ destruct (ring_pop V B (q_ring s)) as [[v r]|]; injection E2 as <- <-; cbn in Q; [rewrite fupd_same in Q|rewrite Q0 in Q]; injection Q as <- <-; discriminate.
             ++ injection E2 as <- <-; cbn in Q; rewrite fupd_same in Q; injection Q as <- <-; discriminate.
             ++ injection E2 as <- <-; cbn in Q; rewrite fupd_same in Q; injection Q as <- <-; discriminate.
          -- apply K in E2. injection E2 as <- <-. discriminate.
          -- apply K in E2. injection E2 as <- <-. destruct c0; discriminate.
          -- apply K in E2. injection E2 as <- <-. discriminate.
          -- injection E2 as <- <-. cbn in Q. rewrite fupd_same in Q. discriminate.
        * exfalso. destruct p0 as [| | | |b| | | |r|r|r|r]; try discriminate;
            [destruct (free (outer s c0) || (tmout c0 =? -1))|destruct (wait_bit s c0 || (tmout c0 =? -1))]; try discriminate; injection E2 as <- <-; cbn in Q; rewrite fupd_same in Q; injection Q as <- <-; discriminate.
        * exfalso. destruct p0 as [| | | |b| | | |r|r|r|r]; try discriminate. injection E2 as <- <-; cbn in Q; rewrite fupd_same in Q; injection Q as <- <-; discriminate.
        * exfalso. destruct c0 as [v ms|[|] ms| |]; try discriminate; destruct p0 as [| | | |b| | | |r|r|r|r]; try discriminate; injection E2 as <- <-; cbn in Q; rewrite fupd_same in Q; injection Q as <- <-; discriminate.
      + destruct (step_other s l s2 es2 t E2 NT) as (X & Y). eapply was_blocked_step; [|exact E2|exact Y]. rewrite X in Q. eapply IH; [reflexivity|exact Q|exact PC].
  Qed.
  Theorem queue_timeout ls s es t s' es' : exec stp (q_init V) ls = Some (s, es) -> stp s (QTimeout t) = Some (s', es') ->
    exists c, q_running s t = Some c /\ sr c /\ limited (tmout c) /\ es' = [Eff t c (fail_res c TimedOut)] /\
      (was_blocked ls s t c \/ exists u d, u <> t /\ q_running s u = Some d /\ sr d /\ is_send d = is_send c).
  Proof.
    intros E ST. pose proof (queue_inv ls s es E) as I. destruct (qi_q _ _ I) as (q & R & P & W & f & L & F).
    cbn [q_step] in ST. pose proof (P t) as Pt. destruct (q_thr s t) as [|c p] eqn:Q; [discriminate|]. exists c. unfold q_running at 1. rewrite Q. split; [reflexivity|].
    destruct p as [| | | |b| | | |r|r|r|r]; try discriminate; cbn in Pt; (split; [exact Pt|]).
    - destruct (Z.eqb_spec (tmout c) (-1)) as [|TM]; [rewrite orb_true_r in ST; discriminate|]. split; [exact TM|].
      destruct (free (outer s c)) eqn:FR; [discriminate|]. injection ST as <- <-. split; [reflexivity|]. right.
      destruct c as [v ms|st ms| |]; try contradiction; cbn in FR.
      + destruct (q_msend s) as [u|] eqn:Y; [|discriminate]. apply (qi_send _ _ I) in Y. destruct (q_thr s u) as [|d pd] eqn:Qu; [discriminate|].
        exists u, d. split; [intros ->; rewrite Q in Qu; injection Qu as <- <-; discriminate|]. unfold q_running. rewrite Qu. split; [reflexivity|]. destruct d; try discriminate. split; reflexivity.
      + destruct (q_mrecv s) as [u|] eqn:Y; [|discriminate]. apply (qi_recv _ _ I) in Y. destruct (q_thr s u) as [|d pd] eqn:Qu; [discriminate|].
        exists u, d. split; [intros ->; rewrite Q in Qu; injection Qu as <- <-; discriminate|]. unfold q_running. rewrite Qu. split; [reflexivity|]. destruct d; try discriminate. split; reflexivity.
    - destruct (Z.eqb_spec (tmout c) (-1)) as [|TM]; [rewrite orb_true_r in ST; discriminate|]. split; [exact TM|].
      destruct (wait_bit s c); [discriminate|]. injection ST as <- <-. split; [reflexivity|]. left. eapply past_blocked; [exact E|exact Q|reflexivity].
  Qed.

  (** C37 *)
  Theorem queue_throw ls s es t fl s1 e1 : exec stp (q_init V) ls = Some (s, es) -> stp s (QThrow t fl) = Some (s1, e1) ->
    exists c r s', q_running s t = Some c /\ sr c /\ r = (if fl then RFailure else fail_res c OtherError) /\
      exec stp s [QThrow t fl; QStep t; QStep t; QStep t] = Some (s', [Eff t c r; Ret t r]) /\
      q_ring s' = q_ring s /\ q_ne s' = q_ne s /\ q_nf s' = q_nf s /\ q_mrb s' = None /\ outer s' c = None /\
      (forall d, is_send d <> is_send c -> outer s' d = outer s d) /\ q_idle s' t /\ forall u, u <> t -> q_thr s' u = q_thr s u.
  Proof.
    intros E ST. pose proof ST as ST0. cbn [q_step] in ST.
    destruct (q_thr s t) as [|c p] eqn:Q; [discriminate|]. destruct c as [v ms|[|] ms| |]; try discriminate; destruct p as [| | | |b| | | |r|r|r|r]; try discriminate;
      injection ST as <- <-.
    - exists (QSend v ms), (if fl then RFailure else RSend OtherError). unfold q_running. rewrite Q. cbn [exec]. rewrite ST0.
      cbn [q_step q_go q_thr]. repeat rewrite fupd_same. cbn [q_step q_go q_thr set_mrb]. repeat rewrite fupd_same.
      cbn [q_step q_go q_thr set_mrb set_outer is_send]. repeat rewrite fupd_same. eexists. split; [reflexivity|]. split; [exact Logic.I|]. split; [now destruct fl|]. split; [reflexivity|].
      cbn. repeat (split; [reflexivity|]). split; [intros d D; unfold outer; cbn; destruct (is_send d); [now elim D|reflexivity]|].
      split; [unfold q_idle; cbn; apply fupd_same|]. intros u Nu. now rewrite !fupd_other.
    - exists (QRecv true ms), (if fl then RFailure else RRecv OtherError None). unfold q_running. rewrite Q. cbn [exec]. rewrite ST0.
      cbn [q_step q_go q_thr]. repeat rewrite fupd_same. cbn [q_step q_go q_thr set_mrb]. repeat rewrite fupd_same.
      cbn [q_step q_go q_thr set_mrb set_outer is_send]. repeat rewrite fupd_same. eexists. split; [reflexivity|]. split; [exact Logic.I|]. split; [now destruct fl|]. split; [reflexivity|].
      cbn. repeat (split; [reflexivity|]). split; [intros d D; unfold outer; cbn; destruct (is_send d); [reflexivity|now elim D]|].
      split; [unfold q_idle; cbn; apply fupd_same|]. intros u Nu. now rewrite !fupd_other.
  Qed.

  (** errors other than TimedOut are reported only when a lock call failed or a copy threw *)
  Definition is_failure (r : qres V) : bool :=
    match r with RFailure => true | RSend e | RRecv e _ => negb (err_eqb e OK || err_eqb e TimedOut) | RNum _ => false end.
  Lemma ret_has_eff es : forall f0 q0 f q t r, lin_run spec f0 q0 es f q -> In (Ret t r) es -> f0 t = Done r \/ exists c, In (Eff t c r) es.
  Proof.
    induction es as [|e es IH]; intros f0 q0 f q t r L H; [destruct H|]. inversion L; subst.
    - destruct H as [H|H]; [discriminate|]. match goal with h : lin_run _ _ _ es _ _ |- _ => destruct (IH _ _ _ _ t r h H) as [X|(d & X)] end.
      + unfold set_st in X. destruct (Nat.eqb t t0); [discriminate|now left].
      + right. exists d. now right.
    - destruct H as [H|H]; [discriminate|]. match goal with h : lin_run _ _ _ es _ _ |- _ => destruct (IH _ _ _ _ t r h H) as [X|(d & X)] end.
      + unfold set_st in X. destruct (Nat.eqb_spec t t0) as [->|]; [|now left]. injection X as ->. right. exists c. now left.
      + right. exists d. now right.
    - destruct H as [H|H].
      + injection H as -> ->. now left.
      + match goal with h : lin_run _ _ _ es _ _ |- _ => destruct (IH _ _ _ _ t r h H) as [X|(d & X)] end.
        * unfold set_st in X. destruct (Nat.eqb t t0); [discriminate|now left].
        * right. exists d. now right.
  Qed.
  Lemma eff_label ls : forall s es s' es' t c r, qinv s es -> exec stp s ls = Some (s', es') -> In (Eff t c r) es' -> is_failure r = true ->
    In (QLockFail t) ls \/ exists fl, In (QThrow t fl) ls.
  Proof.
    induction ls as [|l ls IH]; intros s es s' es' t c r I E H BD; cbn in E.
    - injection E as <- <-. destruct H.
    - destruct (stp s l) as [[s1 e1]|] eqn:E1; [|discriminate]. destruct (exec stp s1 ls) as [[s2 e2]|] eqn:E2; [|discriminate]. injection E as <- <-.
      apply in_app_iff in H. destruct H as [H|H].
      + assert (G : l = QLockFail t \/ exists fl, l = QThrow t fl); [|destruct G as [-> |(fl & ->)]; [left; now left|right; exists fl; now left]].
        destruct (qi_q _ _ I) as (q & R & P & _).
        destruct l as [u d|u|u|u|u fl]; cbn [q_step] in E1; pose proof (P u) as Pu; destruct (q_thr s u) as [|c0 p0] eqn:Q; try discriminate.
        * injection E1 as <- <-. destruct H as [H|[]]. discriminate.
        * exfalso. destruct p0 as [| | | |b| | | |r0|r0|r0|r0].
          -- destruct (free (outer s c0)); [|discriminate]. injection E1 as <- <-. destruct H.
          -- destruct (free (q_mrb s)); [|discriminate]. injection E1 as <- <-. destruct H.
          -- injection E1 as <- <-. destruct H.
          -- injection E1 as <- <-. destruct H.
          -- injection E1 as <- <-. destruct H.
          -- destruct (wait_bit s c0); [|discriminate]. injection E1 as <- <-. destruct H.
          -- destruct (free (q_mrb s)); [|discriminate]. injection E1 as <- <-. destruct H.
          -- injection E1 as E1. unfold q_op in E1. destruct c0 as [v ms|st ms| |].
             ++ destruct (ring_push V B (q_ring s) v); injection E1 as <- <-; [destruct H as [H|[]]|destruct H]. injection H as <- <- <-. discriminate.
             ++ destruct (ring_pop V B (q_ring s)) as [[v rg]|]; injection E1 as <- <-; [destruct H as [H|[]]|destruct H]. injection H as <- <- <-. discriminate.
             ++ injection E1 as <- <-. destruct H as [H|[]]. injection H as <- <- <-. discriminate.
             ++ injection E1 as <- <-. destruct H as [H|[]]. injection H as <- <- <-. discriminate.
          -- injection E1 as <- <-. destruct H.
          -- injection E1 as <- <-. destruct H.
          -- injection E1 as <- <-. destruct H.
          -- injection E1 as <- <-. destruct H as [H|[]]. discriminate.
        * exfalso. destruct p0 as [| | | |b| | | |r0|r0|r0|r0]; try discriminate;
            [destruct (free (outer s c0) || (tmout c0 =? -1))|destruct (wait_bit s c0 || (tmout c0 =? -1))]; try discriminate; injection E1 as <- <-; destruct H as [H|[]];
            injection H as <- <- <-; destruct c0; discriminate.
        * destruct p0 as [| | | |b| | | |r0|r0|r0|r0]; try discriminate. injection E1 as <- <-. destruct H as [H|[]]. injection H as <- <- <-. now left.
        * right. exists fl. destruct c0 as [v ms|[|] ms| |]; try discriminate; destruct p0 as [| | | |b| | | |r0|r0|r0|r0]; try discriminate; injection E1 as <- <-;
            destruct H as [H|[]]; injection H as <- <- <-; reflexivity.
      + destruct (IH s1 (es ++ e1) s2 e2 t c r (qinv_step s es l s1 e1 I E1) E2 H BD) as [X|(fl & X)]; [left; now right|right; exists fl; now right].
  Qed.
  Theorem queue_no_failure ls s es t r : exec stp (q_init V) ls = Some (s, es) -> In (Ret t r) es -> is_failure r = true ->
    In (QLockFail t) ls \/ exists fl, In (QThrow t fl) ls.
  Proof.
    intros E H BD. pose proof (queue_inv ls s es E) as I. destruct (qi_q _ _ I) as (q & _ & _ & _ & f & L & _).
    destruct (ret_has_eff es _ _ _ _ t r L H) as [X|(c & X)]; [discriminate|].
    exact (eff_label ls (q_init V) [] s es t c r qinv_init E X BD).
  Qed.

  (** C38: the slots that hold a constructed message *)
  Theorem queue_live_slots ls s es : exec stp (q_init V) ls = Some (s, es) ->
    exists q, pending (effects es) q /\
      (forall i, (i < length q)%nat -> exists j, 0 <= j < B /\ j = (r_begin (q_ring s) + Z.of_nat i) mod B /\ r_buf (q_ring s) j = nth_error q i) /\
      (forall j v, 0 <= j < B -> r_buf (q_ring s) j = Some v -> exists i, (i < length q)%nat /\ j = (r_begin (q_ring s) + Z.of_nat i) mod B /\ nth_error q i = Some v).
  Proof.
    intros E. pose proof (queue_inv ls s es E) as I. destruct (qi_q _ _ I) as (q & R & _ & _ & f & L & _).
    exists q. split; [exact (spec_fifo (effects es) [] q (lin_run_effects _ _ _ _ _ _ _ _ _ L))|].
    pose proof (rr_len _ _ _ _ R) as LE. pose proof (rr_b _ _ _ _ R) as BE. pose proof B_ok as HB. split.
    - intros i Hi. exists ((r_begin (q_ring s) + Z.of_nat i) mod B). pose proof (Z.mod_pos_bound (r_begin (q_ring s) + Z.of_nat i) B ltac:(lia)) as Hm.
      split; [exact Hm|]. split; [reflexivity|]. rewrite (rr_buf _ _ _ _ R _ Hm), Zminus_mod_idemp_l.
      replace (r_begin (q_ring s) + Z.of_nat i - r_begin (q_ring s)) with (Z.of_nat i) by lia. rewrite Z.mod_small by lia. now rewrite Nat2Z.id.
    - intros j v Hj X. rewrite (rr_buf _ _ _ _ R j Hj) in X. pose proof (Z.mod_pos_bound (j - r_begin (q_ring s)) B ltac:(lia)) as Hm.
      exists (Z.to_nat ((j - r_begin (q_ring s)) mod B)). split; [apply nth_error_Some; congruence|]. split; [|exact X].
      rewrite Z2Nat.id by lia. rewrite Zplus_mod_idemp_r. replace (r_begin (q_ring s) + (j - r_begin (q_ring s))) with j by lia. symmetry. now apply Z.mod_small.
  Qed.
End Proofs.

(** C36 is false: thread 0 is inside send() holding m_mtxSend, thread 1's trySend returns TimedOut although the queue is empty *)
Definition try_schedule {V} (v w : V) : list (qlab V) := [QCall 0 (QSend v (-1)); QStep 0; QCall 1 (QSend w 0); QTimeout 1; QStep 1].
Lemma exec_prefix {St Lab Ev} (step : St -> Lab -> option (St * list Ev)) ls1 ls2 s s1 e1 s2 e2 :
  exec step s ls1 = Some (s1, e1) -> exec step s (ls1 ++ ls2) = Some (s2, e2) -> exists e, e2 = e1 ++ e.
Proof.
  intros A B. rewrite exec_app, A in B. destruct (exec step s1 ls2) as [[s3 e3]|]; [|discriminate]. injection B as <- <-. now exists e3.
Qed.
Lemma queue_try_bad (V : Type) (v w : V) (maxSize : Z) : exists s es,
  exec (q_step V maxSize) (q_init V) (try_schedule v w) = Some (s, es) /\
  history es = [Call 0%nat (QSend v (-1)); Call 1%nat (QSend w 0); Ret 1%nat (RSend TimedOut)] /\
  forall ls1 ls2 s1 e1, try_schedule v w = ls1 ++ ls2 -> exec (q_step V maxSize) (q_init V) ls1 = Some (s1, e1) -> queued V e1 = 0.
Proof.
  assert (E : exists s, exec (q_step V maxSize) (q_init V) (try_schedule v w) =
     Some (s, [Call 0%nat (QSend v (-1)); Call 1%nat (QSend w 0); Eff 1%nat (QSend w 0) (RSend TimedOut); Ret 1%nat (RSend TimedOut)])).
  { eexists. cbn. reflexivity. }
  destruct E as (s & E). exists s. eexists. split; [exact E|]. split; [reflexivity|].
  intros ls1 ls2 s1 e1 X Y. rewrite X in E. destruct (exec_prefix _ _ _ _ _ _ _ _ Y E) as (e & Z).
  assert (F : effects e1 ++ effects e = [(1%nat, QSend w 0, RSend TimedOut)]).
  { unfold effects. rewrite <- flat_map_app, <- Z. reflexivity. }
  unfold queued. destruct (effects e1) as [|x [|y l]]; [reflexivity| |].
  - injection F as -> _. reflexivity.
  - discriminate F.
Qed.

(** C38 is false *)
Definition leak_schedule : list (qlab nat) := QCall 0 (QSend 7%nat (-1)) :: repeat (QStep 0) 10.
Lemma queue_leak : exists s es,
  exec (q_step nat 3) (q_init nat) leak_schedule = Some (s, es) /\ (forall t, q_idle s t) /\
  history es = [Call 0%nat (QSend 7%nat (-1)); Ret 0%nat (RSend OK)] /\ r_buf (ring_destroy nat (q_ring s)) 0 = Some 7%nat.
Proof.
  assert (X : match exec (q_step nat 3) (q_init nat) leak_schedule with
              | Some (s, es) => (forall t, q_idle s t) /\ history es = [Call 0%nat (QSend 7%nat (-1)); Ret 0%nat (RSend OK)] /\ r_buf (ring_destroy nat (q_ring s)) 0 = Some 7%nat
              | None => False end).
  { vm_compute. split; [|split; reflexivity]. intros t. destruct t; reflexivity. }
  destruct (exec (q_step nat 3) (q_init nat) leak_schedule) as [[s es]|]; [|contradiction]. exists s, es. split; [reflexivity|exact X].
Qed.
