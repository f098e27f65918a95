(** Proofs about the EventFlag model. *)
From Coq Require Import List ZArith Bool Lia Arith.
Import ListNotations.
From Verif Require Import Spec.OSError Spec.Linear Spec.BitSpec Spec.EventFlagSpec Container.BitPatternModel OS.Sched OS.EventFlagModel.
Open Scope Z_scope.

Section Bits.
  Variable w : Z.
  Hypothesis Hw : 0 < w.
  Definition inw (p : Z) := 0 <= p < 2 ^ w.

  Lemma high_bit p i : inw p -> w <= i -> Z.testbit p i = false.
  Proof. intros [A B] H. rewrite <- (Z.mod_small p (2 ^ w)) by lia. apply Z.mod_pow2_bits_high. lia. Qed.
  Lemma castT_in x : inw (castT w x).
  Proof. unfold inw, castT. apply Z.mod_pos_bound. apply Z.pow_pos_nonneg; lia. Qed.
  Lemma cast_low x i : i < w -> Z.testbit (castT w x) i = Z.testbit x i.
  Proof. intros H. unfold castT. apply Z.mod_pow2_bits_low. exact H. Qed.
  Lemma inw0 : inw 0.
  Proof. split; [lia|]. apply Z.pow_pos_nonneg; lia. Qed.
  Lemma zero_bits p : inw p -> (forall i, 0 <= i < w -> Z.testbit p i = false) -> p = 0.
  Proof.
    intros Hp H. apply Z.bits_inj'. intros i Hi. rewrite Z.bits_0.
    destruct (Z.lt_ge_cases i w); [apply H; lia|now apply high_bit].
  Qed.
  Lemma some_bit p : inw p -> p <> 0 -> exists i, 0 <= i < w /\ Z.testbit p i = true.
  Proof.
    intros Hp N. assert (0 < p) by (destruct Hp; lia). exists (Z.log2 p).
    split; [|apply Z.bit_log2; lia]. split; [apply Z.log2_nonneg|]. destruct Hp as [_ B]. apply Z.log2_lt_pow2; lia.
  Qed.
  Lemma land_in a b : inw a -> 0 <= b -> inw (Z.land a b).
  Proof.
    intros Ha Hb. replace (Z.land a b) with (castT w (Z.land a b)); [apply castT_in|].
    apply Z.bits_inj'. intros i Hi. destruct (Z.lt_ge_cases i w) as [L|G].
    - now apply cast_low.
    - rewrite (high_bit (castT w (Z.land a b))) by (try apply castT_in; lia). rewrite Z.land_spec, (high_bit a i Ha G). reflexivity.
  Qed.
  Lemma cast_lor a b : inw a -> inw b -> forall i, 0 <= i -> Z.testbit (castT w (Z.lor a b)) i = Z.testbit a i || Z.testbit b i.
  Proof.
    intros Ha Hb i Hi. destruct (Z.lt_ge_cases i w) as [L|G].
    - rewrite cast_low by lia. apply Z.lor_spec.
    - rewrite (high_bit (castT w _)), (high_bit a), (high_bit b); auto using castT_in.
  Qed.
  Lemma bnot_low x i : 0 <= i < w -> Z.testbit (bnot w x) i = negb (Z.testbit x i).
  Proof. intros H. unfold bnot. destruct (w <? 32); [|rewrite cast_low by lia]; apply Z.lnot_spec; lia. Qed.
  Lemma cast_clear a b : inw a -> inw b -> forall i, 0 <= i ->
    Z.testbit (castT w (Z.land a (bnot w b))) i = Z.testbit a i && negb (Z.testbit b i).
  Proof.
    intros Ha Hb i Hi. destruct (Z.lt_ge_cases i w) as [L|G].
    - rewrite cast_low by lia. rewrite Z.land_spec, bnot_low by lia. reflexivity.
    - rewrite (high_bit (castT w _)), (high_bit a); auto using castT_in.
  Qed.
  (** Pattern().set() and Pattern().set(pos) *)
  Definition all_ones : Z := castT w (bnot w (castT w 0)).
  Lemma all_ones_bit i : 0 <= i < w -> Z.testbit all_ones i = true.
  Proof.
    intros H. unfold all_ones. rewrite cast_low by lia. rewrite bnot_low by lia. rewrite cast_low by lia. now rewrite Z.bits_0.
  Qed.
  Lemma all_ones_in : inw all_ones. Proof. apply castT_in. Qed.
  Lemma all_ones_nz : all_ones <> 0.
  Proof. intros E. pose proof (all_ones_bit 0 ltac:(lia)) as H. rewrite E, Z.bits_0 in H. discriminate. Qed.
  Lemma set_one_ok dbg pos : 0 <= pos < w -> exists v, b_step w dbg b_init (BSet pos) = BOk (v, OUnitB) /\ inw v /\
    (forall i, 0 <= i -> Z.testbit v i = (i =? pos)).
  Proof.
    intros H. cbn [b_step]. unfold dassert_pos, with_shl, shl1.
    destruct (Z.ltb_spec pos w) as [_|]; [|lia].
    assert (G : forall x, (forall i, 0 <= i < w -> Z.testbit x i = (i =? pos)) ->
                forall i, 0 <= i -> Z.testbit (castT w (Z.lor b_init (castT w x))) i = (i =? pos)).
    { intros x Hx i Hi. destruct (Z.lt_ge_cases i w) as [L|GE].
      - rewrite cast_low by lia. unfold b_init. rewrite Z.lor_0_l, cast_low by lia. now apply Hx.
      - rewrite high_bit by (auto using castT_in). symmetry. apply Z.eqb_neq. lia. }
    assert (S1 : forall i, 0 <= i < w -> Z.testbit (Z.shiftl 1 pos) i = (i =? pos)).
    { intros i Hi. rewrite Z.shiftl_spec by lia. destruct (Z.eqb_spec i pos) as [->|N].
      - now rewrite Z.sub_diag.
      - destruct (Z.lt_ge_cases i pos); [apply Z.testbit_neg_r; lia|]. apply Z.bits_above_log2; [lia|].
        change (Z.log2 1) with 0. lia. }
    assert (W : exists x, (if w <? 32 then if pos <? 31 then BOk (Z.shiftl 1 pos) else BUndef
                     else BOk (castT w (Z.shiftl 1 pos))) = BOk x /\ forall i, 0 <= i < w -> Z.testbit x i = (i =? pos)).
    { destruct (Z.ltb_spec w 32).
      - destruct (Z.ltb_spec pos 31); [|lia]. eexists; split; [reflexivity|exact S1].
      - eexists; split; [reflexivity|]. intros i Hi. rewrite cast_low by lia. now apply S1. }
    destruct W as (x & E & Hx). rewrite E. eexists. split; [destruct dbg; reflexivity|]. split; [apply castT_in|]. now apply G.
  Qed.
End Bits.

Section Proofs.
  Variable w : Z.
  Hypothesis Hw : 0 < w.
  Variables dbg ar : bool.
  Notation entry_of := (ef_entry w dbg).
  Notation pred := (wait_pred w).
  Notation stp := (e_step w dbg ar).
  Notation spec := (espec w ar).
  Notation inw := (inw w).
  Notation label_ok := (label_ok w).

  (** the prepared operation does what the call asks for *)
  Definition op_ok (c : ecall) (o : eop) : Prop :=
    match o with
    | OWait P m rel tmout =>
        inw P /\ is_wait c = true /\ rel = wants_released c /\ (tmout = -1 <-> forever c) /\
        exists Q, econd w c = Some Q /\ forall p, inw p -> (pred P m p = true <-> Q p)
    | OSet P => is_set c = true /\ forall p t, inw p -> spec p t c (ERes OK None) (castT w (Z.lor p P))
    | OReset P => is_set c = false /\ is_wait c = false /\
        forall p t, inw p -> spec p t c (ERes OK None) (castT w (Z.land p (bnot w P)))
    | OGet => is_set c = false /\ is_wait c = false /\ forall p t, inw p -> spec p t c (EPat p) p
    end.

  Lemma pred_or P p : inw P -> inw p -> (pred P ModeOR p = true <-> exists i, 0 <= i < w /\ has P i /\ has p i).
  Proof.
    intros HP Hp. cbn [wait_pred]. rewrite negb_true_iff, Z.eqb_neq.
    assert (E : castT w (Z.land P p) = Z.land P p).
    { unfold castT. apply Z.mod_small. apply land_in; [exact Hw|exact HP|destruct Hp; lia]. }
    rewrite E. split.
    - intros N. destruct (some_bit w (Z.land P p)) as (i & Hi & B).
      + apply land_in; [exact Hw|exact HP|destruct Hp; lia].
      + exact N.
      + rewrite Z.land_spec in B. apply andb_true_iff in B. exists i. tauto.
    - intros (i & Hi & A & B) Z0. assert (X : Z.testbit (Z.land P p) i = true) by (rewrite Z.land_spec; unfold has in *; now rewrite A, B).
      rewrite Z0, Z.bits_0 in X. discriminate.
  Qed.
  Lemma pred_and P p : inw P -> inw p -> (pred P ModeAND p = true <-> forall i, 0 <= i < w -> has P i -> has p i).
  Proof.
    intros HP Hp. cbn [wait_pred]. rewrite Z.eqb_eq. split.
    - intros E i Hi A. unfold has in *. rewrite <- E, Z.land_spec in A. now apply andb_true_iff in A.
    - intros H. apply Z.bits_inj'. intros i Hi. rewrite Z.land_spec. destruct (Z.testbit P i) eqn:E; [|reflexivity].
      destruct (Z.lt_ge_cases i w); [apply H; [lia|exact E]|]. rewrite (high_bit w Hw P i HP) in E by lia. discriminate.
  Qed.

  Lemma timed_entry P m rel k : inw P ->
    match timedWait_entry w dbg P m rel (ms k) with
    | Broken => False
    | Reject e => e = InvalidParameter /\ (P = 0 \/ m = ModeInvalid)
    | Go o => o = OWait P m rel (ms k) /\ P <> 0 /\ m <> ModeInvalid
    end.
  Proof.
    intros HP. unfold timedWait_entry. cbn [b_step].
    destruct m; [| |tauto]; destruct (Z.eqb_spec P 0); try tauto; (split; [reflexivity|split; [assumption|discriminate]]).
  Qed.
  Lemma ms_forever k : ms k = -1 <-> (k = Forever \/ k = Within (-1)).
  Proof.
    destruct k; cbn; unfold FOREVER, POLLING.
    - tauto.
    - split; [discriminate|intros [|]; discriminate].
    - split; [intros ->; tauto|intros [H|H]; [discriminate|now injection H]].
  Qed.

  Lemma entry_ok c : ecall_ok w c ->
    match entry_of c with
    | Broken => False
    | Reject e => forall p t, inw p -> spec p t c (ERes e None) p
    | Go o => op_ok c o
    end.
  Proof.
    intros OKc. destruct c as [k|pos k|P m rel k| |pos|P| |pos|P|]; cbn [ef_entry].
    - (* EWaitAny *)
      change (b_step w dbg b_init BSetAll) with (@BOk (Z * bout) (all_ones w, OUnitB)). cbn [with_pat].
      pose proof (timed_entry (all_ones w) ModeOR false k (all_ones_in w Hw)) as T.
      destruct (timedWait_entry _ _ _ _ _ _); [|destruct T as (_ & [T | T]); [now apply all_ones_nz in T|discriminate]|exact T].
      destruct T as (-> & _ & _). cbn [op_ok]. split; [apply all_ones_in; exact Hw|].
      split; [reflexivity|]. split; [reflexivity|]. split; [apply ms_forever|].
      eexists; split; [reflexivity|]. intros p Hp. rewrite pred_or; [|apply all_ones_in; exact Hw|exact Hp].
      split; intros (i & Hi & R); exists i; (split; [exact Hi|]).
      + tauto. 
      + split; [|exact R]. now apply all_ones_bit.
    - (* EWaitOne *)
      change (pat_size w dbg) with w. cbn in OKc. destruct (Z.leb_spec w pos) as [G|L].
      + intros p t Hp. split; [exact Hp|]. cbn [econd]. destruct (Z.ltb_spec pos w); [lia|]. split; reflexivity.
      + destruct (set_one_ok w Hw dbg pos ltac:(lia)) as (v & E & Hv & Hb). rewrite E. cbn [with_pat].
        pose proof (timed_entry v ModeOR false k Hv) as T.
        assert (NZ : v <> 0). { intros ->. specialize (Hb pos OKc). rewrite Z.bits_0, Z.eqb_refl in Hb. discriminate. }
        destruct (timedWait_entry _ _ _ _ _ _); [|destruct T as (_ & [T | T]); [contradiction|discriminate]|exact T].
        destruct T as (-> & _ & _). cbn [op_ok]. split; [exact Hv|].
        split; [reflexivity|]. split; [reflexivity|]. split; [apply ms_forever|].
        cbn [econd]. destruct (Z.ltb_spec pos w); [|lia].
        eexists; split; [reflexivity|]. intros p Hp. rewrite pred_or by assumption. split.
        * intros (i & Hi & A & B). unfold has in A. rewrite Hb in A by lia. apply Z.eqb_eq in A. now subst.
        * intros H1. exists pos. split; [lia|]. split; [|exact H1]. unfold has. rewrite Hb by lia. apply Z.eqb_refl.
    - (* EWait *)
      cbn in OKc. pose proof (timed_entry P m rel k OKc) as T.
      destruct (timedWait_entry _ _ _ _ _ _) as [o|e|]; [| |exact T].
      + destruct T as (-> & NZ & NI). cbn [op_ok]. split; [exact OKc|].
        split; [reflexivity|]. split; [reflexivity|]. split; [apply ms_forever|].
        cbn [econd]. destruct (Z.eqb_spec P 0); [contradiction|].
        destruct m; [| |contradiction]; (eexists; split; [reflexivity|]); intros p Hp; [now apply pred_or|now apply pred_and].
      + destruct T as (-> & D). intros p t Hp. split; [exact Hp|]. cbn [econd].
        destruct (Z.eqb_spec P 0); [split; reflexivity|]. destruct D as [-> | ->]; [contradiction|split; reflexivity].
    - (* ESetAll *)
      change (b_step w dbg b_init BSetAll) with (@BOk (Z * bout) (all_ones w, OUnitB)). cbn [with_pat op_ok].
      split; [reflexivity|]. intros p t Hp. split; [apply castT_in; exact Hw|]. split; [reflexivity|].
      intros i Hi. unfold has. rewrite cast_lor by (auto using all_ones_in; lia). rewrite all_ones_bit by assumption. apply orb_true_r.
    - (* ESetOne *)
      change (pat_size w dbg) with w. cbn in OKc. destruct (Z.leb_spec w pos) as [G|L].
      + intros p t Hp. split; [exact Hp|]. destruct (Z.ltb_spec pos w); [lia|]. split; reflexivity.
      + destruct (set_one_ok w Hw dbg pos ltac:(lia)) as (v & E & Hv & Hb). rewrite E. cbn [with_pat op_ok].
        split; [reflexivity|]. intros p t Hp. split; [apply castT_in; exact Hw|]. destruct (Z.ltb_spec pos w); [|lia].
        split; [reflexivity|]. intros i Hi. rewrite cast_lor by (assumption || lia). rewrite Hb by lia.
        destruct (i =? pos); [apply orb_true_r|apply orb_false_r].
    - (* ESet *)
      cbn [op_ok]. split; [reflexivity|]. intros p t Hp. split; [apply castT_in; exact Hw|]. split; [reflexivity|].
      intros i Hi. now apply cast_lor.
    - (* EResetAll *)
      change (b_step w dbg b_init BSetAll) with (@BOk (Z * bout) (all_ones w, OUnitB)). cbn [with_pat op_ok].
      split; [reflexivity|]. split; [reflexivity|]. intros p t Hp. split; [apply castT_in; exact Hw|]. split; [reflexivity|].
      apply (zero_bits w Hw); [apply castT_in; exact Hw|]. intros i Hi. rewrite cast_clear by (auto using all_ones_in; lia).
      rewrite all_ones_bit by assumption. apply andb_false_r.
    - (* EResetOne *)
      change (pat_size w dbg) with w. cbn in OKc. destruct (Z.leb_spec w pos) as [G|L].
      + intros p t Hp. split; [exact Hp|]. destruct (Z.ltb_spec pos w); [lia|]. split; reflexivity.
      + destruct (set_one_ok w Hw dbg pos ltac:(lia)) as (v & E & Hv & Hb). rewrite E. cbn [with_pat op_ok].
        split; [reflexivity|]. split; [reflexivity|]. intros p t Hp. split; [apply castT_in; exact Hw|]. destruct (Z.ltb_spec pos w); [|lia].
        split; [reflexivity|]. intros i Hi. rewrite cast_clear by (assumption || lia). rewrite Hb by lia.
        destruct (i =? pos); [apply andb_false_r|apply andb_true_r].
    - (* EReset *)
      cbn [op_ok]. split; [reflexivity|]. split; [reflexivity|]. intros p t Hp. split; [apply castT_in; exact Hw|]. split; [reflexivity|].
      intros i Hi. now apply cast_clear.
    - (* EGet *)
      cbn [op_ok]. split; [reflexivity|]. split; [reflexivity|]. intros p t Hp. split; [exact Hp|]. split; reflexivity.
  Qed.

  Definition holding (q : epc) : bool := match q with EBody _ _ | EEval _ _ _ | ENotify _ | EUnlock _ => true | _ => false end.
  Definition st_of (q : epc) : status ecall eres :=
    match q with
    | EIdle => Out
    | EEntry c | EAcq c _ | EBody c _ | EAsleep c _ | EWoken c _ _ | EEval c _ _ => Pending c
    | ENotify r | EUnlock r | ERet r => Done r
    end.
  Definition is_owait (o : eop) : bool := match o with OWait _ _ _ _ => true | _ => false end.
  Definition can_time_out (o : eop) : bool := match o with OWait _ _ _ tm => negb (tm =? -1) | _ => false end.
  Definition pc_ok (q : epc) : Prop :=
    match q with
    | EEntry c => ecall_ok w c
    | EAcq c o | EBody c o => op_ok c o
    | EAsleep c o => op_ok c o /\ is_owait o = true
    | EWoken c o tmo | EEval c o tmo => op_ok c o /\ is_owait o = true /\ (tmo = true -> can_time_out o = true)
    | _ => True
    end.
  (** sleeping although the condition holds *)
  Definition overslept (p : Z) (q : epc) : bool := match q with EAsleep _ (OWait P m _ _) => pred P m p | _ => false end.
  Definition notifying (q : epc) : bool := match q with ENotify _ => true | _ => false end.

  Record einv (s : est) (es : list (event ecall eres)) : Prop := {
    ei_pat : inw (e_pat s);
    ei_lock : forall t, holding (e_thr s t) = true <-> e_lock s = Some t;
    ei_pc : forall t, pc_ok (e_thr s t);
    ei_lost : forall t, overslept (e_pat s) (e_thr s t) = true -> exists u, notifying (e_thr s u) = true;
    ei_lin : exists f, lin_run spec (fun _ => Out) 0 es f (e_pat s) /\ forall t, f t = st_of (e_thr s t)
  }.

  Lemma einv_init : einv e_init [].
  Proof.
    constructor; cbn.
    - apply inw0; exact Hw.
    - intros t. split; discriminate.
    - trivial.
    - discriminate.
    - exists (fun _ => Out). split; [constructor|reflexivity].
  Qed.


  (** the trace part, one event at a time *)
  Lemma lin_snoc_none es f p g : lin_run spec (fun _ => Out) 0 es f p -> (forall t : nat, f t = g t) ->
    exists f', lin_run spec (fun _ => Out) 0 (es ++ []) f' p /\ forall t, f' t = g t.
  Proof. intros H E. rewrite app_nil_r. eauto. Qed.
  Lemma lin_snoc_eff es f p t c r p' g :
    lin_run spec (fun _ => Out) 0 es f p -> f t = Pending c -> spec p t c r p' ->
    (forall u, g u = if Nat.eqb u t then Done r else f u) ->
    exists f', lin_run spec (fun _ => Out) 0 (es ++ [Eff t c r]) f' p' /\ forall u, f' u = g u.
  Proof.
    intros H F S G. exists (set_st f t (Done r)). split.
    - eapply lin_run_app; [exact H|]. eapply lr_eff; [exact F|exact S|]. constructor.
    - intros u. rewrite G. reflexivity.
  Qed.
  Lemma lin_snoc_call es f p t c g :
    lin_run spec (fun _ => Out) 0 es f p -> f t = Out ->
    (forall u, g u = if Nat.eqb u t then Pending c else f u) ->
    exists f', lin_run spec (fun _ => Out) 0 (es ++ [Call t c]) f' p /\ forall u, f' u = g u.
  Proof.
    intros H F G. exists (set_st f t (Pending c)). split.
    - eapply lin_run_app; [exact H|]. eapply lr_call; [exact F|]. constructor.
    - intros u. rewrite G. reflexivity.
  Qed.
  Lemma lin_snoc_ret es f p t r g :
    lin_run spec (fun _ => Out) 0 es f p -> f t = Done r ->
    (forall u, g u = if Nat.eqb u t then Out else f u) ->
    exists f', lin_run spec (fun _ => Out) 0 (es ++ [Ret t r]) f' p /\ forall u, f' u = g u.
  Proof.
    intros H F G. exists (set_st f t Out). split.
    - eapply lin_run_app; [exact H|]. eapply lr_ret; [exact F|]. constructor.
    - intros u. rewrite G. reflexivity.
  Qed.

  Ltac thr_cases u t := rewrite !fupd_eq; destruct (Nat.eqb_spec u t) as [?E|?N]; [subst u|].

  (** a step that changes only thread [t]'s position: the parts about locks, positions and sleepers *)
  Lemma lock_keep s t q : (forall u, holding (e_thr s u) = true <-> e_lock s = Some u) -> holding q = holding (e_thr s t) ->
    forall u, holding (fupd (e_thr s) t q u) = true <-> e_lock s = Some u.
  Proof. intros H E u. rewrite fupd_eq. destruct (Nat.eqb_spec u t) as [->|N]; [rewrite E|]; apply H. Qed.
  Lemma lock_take s t q : (forall u, holding (e_thr s u) = true <-> e_lock s = Some u) -> e_lock s = None -> holding q = true ->
    forall u, holding (fupd (e_thr s) t q u) = true <-> Some t = Some u.
  Proof.
    intros H F E u. rewrite fupd_eq. destruct (Nat.eqb_spec u t) as [->|N]; [tauto|].
    rewrite (H u), F. split; [discriminate|intros X; injection X as X; congruence].
  Qed.
  Lemma lock_drop s t q : (forall u, holding (e_thr s u) = true <-> e_lock s = Some u) -> holding (e_thr s t) = true -> holding q = false ->
    forall u, holding (fupd (e_thr s) t q u) = true <-> None = Some u.
  Proof.
    intros H F E u. rewrite fupd_eq. destruct (Nat.eqb_spec u t) as [->|N]; [rewrite E; split; discriminate|].
    apply H in F. rewrite (H u), F. split; [intros X; injection X as X; congruence|discriminate].
  Qed.
  Lemma pc_keep s t q : (forall u, pc_ok (e_thr s u)) -> pc_ok q -> forall u, pc_ok (fupd (e_thr s) t q u).
  Proof. intros H E u. rewrite fupd_eq. destruct (Nat.eqb u t); auto. Qed.
  (** nobody new oversleeps *)
  Lemma lost_keep s t q : (forall u, overslept (e_pat s) (e_thr s u) = true -> exists v, notifying (e_thr s v) = true) ->
    overslept (e_pat s) q = false -> notifying (e_thr s t) = false ->
    forall u, overslept (e_pat s) (fupd (e_thr s) t q u) = true -> exists v, notifying (fupd (e_thr s) t q v) = true.
  Proof.
    intros H E N u. rewrite fupd_eq. destruct (Nat.eqb_spec u t) as [->|D]; [congruence|].
    intros X. destruct (H u X) as (v & V). exists v. rewrite fupd_eq. destruct (Nat.eqb_spec v t) as [->|]; [congruence|exact V].
  Qed.
  (** two threads cannot both hold the lock, so nobody else notifies while [t] holds it *)
  Lemma no_other_notifier s t : (forall u, holding (e_thr s u) = true <-> e_lock s = Some u) -> holding (e_thr s t) = true ->
    notifying (e_thr s t) = false -> forall u, notifying (e_thr s u) = false.
  Proof.
    intros H A B u. destruct (notifying (e_thr s u)) eqn:E; [|reflexivity].
    assert (X : holding (e_thr s u) = true) by (destruct (e_thr s u); cbn in *; congruence).
    apply H in X. apply H in A. rewrite A in X. injection X as ->. congruence.
  Qed.
  Lemma st_upd s t q (f : nat -> status ecall eres) : (forall u, f u = st_of (e_thr s u)) ->
    forall u, st_of (fupd (e_thr s) t q u) = if Nat.eqb u t then st_of q else f u.
  Proof. intros H u. rewrite fupd_eq, H. destruct (Nat.eqb u t); reflexivity. Qed.
  Lemma st_keep s t q (f : nat -> status ecall eres) : (forall u, f u = st_of (e_thr s u)) -> st_of q = st_of (e_thr s t) ->
    forall u, f u = st_of (fupd (e_thr s) t q u).
  Proof. intros H E u. rewrite fupd_eq, H. destruct (Nat.eqb_spec u t) as [->|]; congruence. Qed.

  Lemma overslept_drop (s : est) t q p' :
    (forall u, notifying (e_thr s u) = false) ->
    (forall u, overslept (e_pat s) (e_thr s u) = true -> exists v, notifying (e_thr s v) = true) ->
    (forall u, overslept p' (e_thr s u) = true -> overslept (e_pat s) (e_thr s u) = true) ->
    overslept p' q = false ->
    forall u, overslept p' (fupd (e_thr s) t q u) = true -> exists v, notifying (fupd (e_thr s) t q v) = true.
  Proof.
    intros A B C D u. rewrite fupd_eq. destruct (Nat.eqb_spec u t) as [->|N]; [congruence|].
    intros X. apply C in X. destruct (B u X) as (v & V). rewrite A in V. discriminate.
  Qed.
  (** clearing bits satisfies no new condition *)
  Definition subset (p' p : Z) : Prop := forall i, 0 <= i -> Z.testbit p' i = true -> Z.testbit p i = true.
  Lemma pred_mono P m p p' : inw P -> inw p -> inw p' -> subset p' p -> pred P m p' = true -> pred P m p = true.
  Proof.
    intros HP Hp Hp' S. destruct m.
    - rewrite !pred_or by assumption. intros (i & Hi & A & B). exists i. split; [exact Hi|]. split; [exact A|]. apply S; [lia|exact B].
    - rewrite !pred_and by assumption. intros H i Hi A. apply S; [lia|]. now apply H.
    - change (wait_pred w P ModeInvalid) with (wait_pred w P ModeAND).
      rewrite !pred_and by assumption. intros H i Hi A. apply S; [lia|]. now apply H.
  Qed.
  Lemma overslept_mono p p' q : pc_ok q -> inw p -> inw p' -> subset p' p -> overslept p' q = true -> overslept p q = true.
  Proof.
    intros K Hp Hp' S. destruct q as [| | | |c o| | | | |]; cbn [overslept]; try discriminate. destruct o as [P m rel tm|P|P|]; try discriminate.
    destruct K as (K & _). apply pred_mono; try assumption. exact (proj1 K).
  Qed.
  Lemma zero_subset p : subset 0 p.
  Proof. intros i _. rewrite Z.bits_0. discriminate. Qed.

  Lemma pred_false_cond c P m rel tm p : op_ok c (OWait P m rel tm) -> inw p -> pred P m p = false ->
    exists Q, econd w c = Some Q /\ ~ Q p.
  Proof.
    intros (_ & _ & _ & _ & Q & E & H) Hp F. exists Q. split; [exact E|]. intros X. apply (H p Hp) in X. congruence.
  Qed.
  Lemma spec_wait_ok c P m rel tm p t : op_ok c (OWait P m rel tm) -> inw p -> pred P m p = true ->
    spec p t c (ERes OK (if rel then Some p else None)) (if ar then 0 else p).
  Proof.
    intros (HP & W & R & _ & Q & E & H) Hp T. apply (H p Hp) in T.
    split. { destruct ar; [apply inw0; exact Hw|exact Hp]. }
    subst rel. destruct c; try discriminate; rewrite E; left; (split; [exact T|]; split; reflexivity).
  Qed.
  Lemma spec_wait_timeout c P m rel tm p t : op_ok c (OWait P m rel tm) -> inw p -> pred P m p = false -> tm <> -1 ->
    spec p t c (ERes TimedOut None) p.
  Proof.
    intros (HP & W & R & F & Q & E & H) Hp T NF. split; [exact Hp|].
    assert (NQ : ~ Q p) by (intros X; apply (H p Hp) in X; congruence).
    assert (nf : ~ forever c) by tauto.
    destruct c; try discriminate; rewrite E; right; (split; [exact NQ|]; split; [exact nf|]; split; reflexivity).
  Qed.

  Lemma wait_success_inv s es t c P m rel tm :
    einv s es -> (exists b, e_thr s t = EBody c (OWait P m rel tm) \/ e_thr s t = EEval c (OWait P m rel tm) b) ->
    pred P m (e_pat s) = true ->
    forall s' es', wait_success ar s t c rel = (s', es') -> einv s' (es ++ es').
  Proof.
    intros [I1 I2 I3 I4 (f & L & F)] Hpc T s' es' E. unfold wait_success in E. injection E as <- <-.
    assert (OKo : op_ok c (OWait P m rel tm)).
    { destruct Hpc as (b & [X | X]); specialize (I3 t); rewrite X in I3; cbn [pc_ok] in I3; tauto. }
    assert (HO : holding (e_thr s t) = true) by (destruct Hpc as (b & [X | X]); now rewrite X).
    assert (NN : notifying (e_thr s t) = false) by (destruct Hpc as (b & [X | X]); now rewrite X).
    assert (Ft : f t = Pending c) by (rewrite F; destruct Hpc as (b & [X | X]); now rewrite X).
    assert (IP : inw (if ar then 0 else e_pat s)) by (destruct ar; [apply inw0; exact Hw|exact I1]).
    constructor; cbn [e_pat e_lock e_thr].
    - exact IP.
    - apply lock_keep; [exact I2|]. now rewrite HO.
    - apply pc_keep; [exact I3|exact I].
    - apply overslept_drop; [now apply (no_other_notifier s t)|exact I4| |reflexivity].
      intros u. apply overslept_mono; [apply I3|exact I1|exact IP|]. destruct ar; [apply zero_subset|intros i _ H; exact H].
    - eapply lin_snoc_eff; [exact L|exact Ft|now apply (spec_wait_ok c P m rel tm)|]. apply st_upd. exact F.
  Qed.

  Lemma go_to_sleep_inv s es t c P m rel tm :
    einv s es -> (exists b, e_thr s t = EBody c (OWait P m rel tm) \/ e_thr s t = EEval c (OWait P m rel tm) b) ->
    pred P m (e_pat s) = false ->
    einv (mkE (e_pat s) None (fupd (e_thr s) t (EAsleep c (OWait P m rel tm)))) (es ++ []).
  Proof.
    intros [I1 I2 I3 I4 (f & L & F)] Hpc T.
    assert (OKo : op_ok c (OWait P m rel tm)).
    { destruct Hpc as (b & [X | X]); specialize (I3 t); rewrite X in I3; cbn [pc_ok] in I3; tauto. }
    assert (HO : holding (e_thr s t) = true) by (destruct Hpc as (b & [X | X]); now rewrite X).
    assert (NN : notifying (e_thr s t) = false) by (destruct Hpc as (b & [X | X]); now rewrite X).
    constructor; cbn [e_pat e_lock e_thr].
    - exact I1.
    - apply lock_drop; [exact I2|exact HO|reflexivity].
    - apply pc_keep; [exact I3|]. split; [exact OKo|reflexivity].
    - apply lost_keep; [exact I4|exact T|exact NN].
    - eapply lin_snoc_none; [exact L|]. apply st_keep; [exact F|]. destruct Hpc as (b & [X | X]); now rewrite X.
  Qed.

  Lemma einv_step s es l s' es' : label_ok l -> einv s es -> stp s l = Some (s', es') -> einv s' (es ++ es').
  Proof.
    intros LO II E. pose proof II as [I1 I2 I3 I4 (f & L & F)]. destruct l as [t c|t|t|t]; cbn [e_step] in E.
    - (* call *)
      destruct (e_thr s t) eqn:Q; try discriminate. injection E as <- <-. constructor; cbn [e_pat e_lock e_thr].
      + exact I1.
      + apply lock_keep; [exact I2|now rewrite Q].
      + apply pc_keep; [exact I3|exact LO].
      + apply lost_keep; [exact I4|reflexivity|now rewrite Q].
      + eapply lin_snoc_call; [exact L|rewrite F, Q; reflexivity|]. apply st_upd. exact F.
    - pose proof (I3 t) as K. destruct (e_thr s t) as [|c|c o|c o|c o|c o tmo|c o tmo|r|r|r] eqn:Q; try discriminate.
      + (* entry *)
        cbn [pc_ok] in K. pose proof (entry_ok c K) as EN. destruct (ef_entry w dbg c) as [o|e|]; [| |contradiction].
        * injection E as <- <-. constructor; cbn [e_pat e_lock e_thr].
          -- exact I1.
          -- apply lock_keep; [exact I2|now rewrite Q].
          -- apply pc_keep; [exact I3|exact EN].
          -- apply lost_keep; [exact I4|reflexivity|now rewrite Q].
          -- eapply lin_snoc_none; [exact L|]. apply st_keep; [exact F|now rewrite Q].
        * injection E as <- <-. constructor; cbn [e_pat e_lock e_thr].
          -- exact I1.
          -- apply lock_keep; [exact I2|now rewrite Q].
          -- apply pc_keep; [exact I3|exact I].
          -- apply lost_keep; [exact I4|reflexivity|now rewrite Q].
          -- eapply lin_snoc_eff; [exact L|rewrite F, Q; reflexivity|now apply EN|]. apply st_upd. exact F.
      + (* acquire *)
        destruct (e_lock s) eqn:LK; [discriminate|]. cbn in E. injection E as <- <-. constructor; cbn [e_pat e_lock e_thr].
        * exact I1.
        * apply lock_take; [now rewrite LK|exact LK|reflexivity].
        * apply pc_keep; [exact I3|exact K].
        * apply lost_keep; [exact I4|reflexivity|now rewrite Q].
        * eapply lin_snoc_none; [exact L|]. apply st_keep; [exact F|now rewrite Q].
      + (* body *)
        destruct o as [P m rel tm|P|P|].
        * destruct (wait_pred w P m (e_pat s)) eqn:T.
          -- injection E as <- <-. eapply (wait_success_inv s es t c P m rel tm); [exact II|exists false; now left|exact T|].
             reflexivity.
          -- injection E as <- <-. eapply go_to_sleep_inv; [exact II|exists false; now left|exact T].
        * (* set *)
          injection E as <- <-. cbn [pc_ok op_ok] in K. constructor; cbn [e_pat e_lock e_thr].
          -- apply castT_in; exact Hw.
          -- apply lock_keep; [exact I2|now rewrite Q].
          -- apply pc_keep; [exact I3|exact I].
          -- intros u _. exists t. now rewrite fupd_same.
          -- eapply lin_snoc_eff; [exact L|rewrite F, Q; reflexivity|apply K; exact I1|]. apply st_upd. exact F.
        * (* reset *)
          injection E as <- <-. cbn [pc_ok op_ok] in K. constructor; cbn [e_pat e_lock e_thr].
          -- apply castT_in; exact Hw.
          -- apply lock_keep; [exact I2|now rewrite Q].
          -- apply pc_keep; [exact I3|exact I].
          -- apply overslept_drop; [apply (no_other_notifier s t); [exact I2|now rewrite Q|now rewrite Q]|exact I4| |reflexivity].
             intros u. apply overslept_mono; [apply I3|exact I1|apply castT_in; exact Hw|].
             intros i Hi B. destruct (Z.lt_ge_cases i w) as [Lt|Ge].
             ++ rewrite cast_low in B by lia. rewrite Z.land_spec in B. now apply andb_true_iff in B.
             ++ rewrite (high_bit w Hw) in B by (try apply castT_in; try exact Hw; lia). discriminate.
          -- eapply lin_snoc_eff; [exact L|rewrite F, Q; reflexivity|apply K; exact I1|]. apply st_upd. exact F.
        * (* get *)
          injection E as <- <-. cbn [pc_ok op_ok] in K. constructor; cbn [e_pat e_lock e_thr].
          -- exact I1.
          -- apply lock_keep; [exact I2|now rewrite Q].
          -- apply pc_keep; [exact I3|exact I].
          -- apply lost_keep; [exact I4|reflexivity|now rewrite Q].
          -- eapply lin_snoc_eff; [exact L|rewrite F, Q; reflexivity|apply K; exact I1|]. apply st_upd. exact F.
      + (* woken *)
        destruct (e_lock s) eqn:LK; [discriminate|]. cbn in E. injection E as <- <-. constructor; cbn [e_pat e_lock e_thr].
        * exact I1.
        * apply lock_take; [now rewrite LK|exact LK|reflexivity].
        * apply pc_keep; [exact I3|exact K].
        * apply lost_keep; [exact I4|reflexivity|now rewrite Q].
        * eapply lin_snoc_none; [exact L|]. apply st_keep; [exact F|now rewrite Q].
      + (* eval *)
        destruct o as [P m rel tm| | |]; try discriminate. cbn [pc_ok] in K. destruct K as (K & _ & KT).
        destruct (wait_pred w P m (e_pat s)) eqn:T; [|destruct tmo].
        * injection E as <- <-. eapply (wait_success_inv s es t c P m rel tm); [exact II|exists tmo; now right|exact T|].
          reflexivity.
        * injection E as <- <-. constructor; cbn [e_pat e_lock e_thr].
          -- exact I1.
          -- apply lock_keep; [exact I2|now rewrite Q].
          -- apply pc_keep; [exact I3|exact I].
          -- apply lost_keep; [exact I4|reflexivity|now rewrite Q].
          -- eapply lin_snoc_eff; [exact L|rewrite F, Q; reflexivity| |apply st_upd; exact F].
             apply (spec_wait_timeout c P m rel tm); [exact K|exact I1|exact T|].
             specialize (KT eq_refl). cbn in KT. apply negb_true_iff, Z.eqb_neq in KT. exact KT.
        * injection E as <- <-. eapply go_to_sleep_inv; [exact II|exists false; now right|exact T].
      + (* notify *)
        injection E as <- <-. constructor; cbn [e_pat e_lock e_thr].
        * exact I1.
        * intros u. rewrite fupd_eq. destruct (Nat.eqb_spec u t) as [->|N].
          -- rewrite <- (I2 t), Q. reflexivity.
          -- rewrite <- (I2 u). destruct (e_thr s u); reflexivity.
        * intros u. rewrite fupd_eq. destruct (Nat.eqb_spec u t) as [->|N]; [exact I|].
          pose proof (I3 u) as Ku. destruct (e_thr s u); try exact Ku. cbn [wake pc_ok] in *. destruct Ku. repeat split; auto; discriminate.
        * intros u. rewrite fupd_eq. destruct (Nat.eqb_spec u t) as [->|N]; [discriminate|]. destruct (e_thr s u); discriminate.
        * eapply lin_snoc_none; [exact L|]. intros u. rewrite fupd_eq, F. destruct (Nat.eqb_spec u t) as [->|N]; [now rewrite Q|].
          destruct (e_thr s u); reflexivity.
      + (* unlock *)
        injection E as <- <-. constructor; cbn [e_pat e_lock e_thr].
        * exact I1.
        * apply lock_drop; [exact I2|now rewrite Q|reflexivity].
        * apply pc_keep; [exact I3|exact I].
        * apply lost_keep; [exact I4|reflexivity|now rewrite Q].
        * eapply lin_snoc_none; [exact L|]. apply st_keep; [exact F|now rewrite Q].
      + (* return *)
        injection E as <- <-. constructor; cbn [e_pat e_lock e_thr].
        * exact I1.
        * apply lock_keep; [exact I2|now rewrite Q].
        * apply pc_keep; [exact I3|exact I].
        * apply lost_keep; [exact I4|reflexivity|now rewrite Q].
        * eapply lin_snoc_ret; [exact L|rewrite F, Q; reflexivity|]. apply st_upd. exact F.
    - (* time-out *)
      pose proof (I3 t) as K. destruct (e_thr s t) as [| | | |c o| | | | |] eqn:Q; try discriminate. destruct o as [P m rel tm| | |]; try discriminate.
      destruct (Z.eqb_spec tm FOREVER) as [|NF]; [discriminate|]. injection E as <- <-. constructor; cbn [e_pat e_lock e_thr].
      + exact I1.
      + apply lock_keep; [exact I2|now rewrite Q].
      + apply pc_keep; [exact I3|]. cbn [pc_ok] in *. destruct K as (K & W). split; [exact K|]. split; [exact W|].
        intros _. cbn. apply negb_true_iff, Z.eqb_neq. exact NF.
      + apply lost_keep; [exact I4|reflexivity|now rewrite Q].
      + eapply lin_snoc_none; [exact L|]. apply st_keep; [exact F|now rewrite Q].
    - (* spurious *)
      pose proof (I3 t) as K. destruct (e_thr s t) as [| | | |c o| | | | |] eqn:Q; try discriminate.
      injection E as <- <-. constructor; cbn [e_pat e_lock e_thr].
      + exact I1.
      + apply lock_keep; [exact I2|now rewrite Q].
      + apply pc_keep; [exact I3|]. cbn [pc_ok] in *. destruct K as (K & W). repeat split; auto; discriminate.
      + apply lost_keep; [exact I4|reflexivity|now rewrite Q].
      + eapply lin_snoc_none; [exact L|]. apply st_keep; [exact F|now rewrite Q].
  Qed.

  Lemma einv_exec ls : (forall l, In l ls -> label_ok l) -> forall s es s' es', einv s es -> exec stp s ls = Some (s', es') -> einv s' (es ++ es').
  Proof.
    induction ls as [|l ls IH]; intros HL s es s' es' H E; cbn in E.
    - injection E as <- <-. now rewrite app_nil_r.
    - destruct (e_step w dbg ar s l) as [[s1 e1]|] eqn:E1; [|discriminate].
      destruct (exec stp s1 ls) as [[s2 e2]|] eqn:E2; [|discriminate]. injection E as <- <-.
      rewrite app_assoc. eapply IH; [intros; apply HL; now right| |exact E2].
      eapply einv_step; [apply HL; now left|exact H|exact E1].
  Qed.
  Lemma einv_reach ls s es : (forall l, In l ls -> label_ok l) -> exec stp e_init ls = Some (s, es) -> einv s es.
  Proof. intros HL E. exact (einv_exec ls HL e_init [] s es einv_init E). Qed.

  Theorem ef_linearizable ls s es : (forall l, In l ls -> label_ok l) -> exec stp e_init ls = Some (s, es) ->
    linearizable spec 0 (history es).
  Proof.
    intros HL E. destruct (einv_reach ls s es HL E) as [_ _ _ _ (f & L & _)]. exists es, f, (e_pat s). split; [reflexivity|exact L].
  Qed.

  (** if nothing can move by itself, every thread inside a call is a wait whose condition is false *)
  Lemma ef_stuck_shape s es : einv s es ->
    (forall t, stp s (LStep t) = None) ->
    forall t, e_idle s t \/ exists c P m rel tm, e_thr s t = EAsleep c (OWait P m rel tm) /\ op_ok c (OWait P m rel tm) /\ pred P m (e_pat s) = false.
  Proof.
    intros [I1 I2 I3 I4 _] ST.
    assert (FREE : e_lock s = None).
    { destruct (e_lock s) as [u|] eqn:LK; [|reflexivity]. exfalso.
      pose proof (proj2 (I2 u) eq_refl) as HU. specialize (ST u). cbn [e_step] in ST. specialize (I3 u).
      destruct (e_thr s u) as [|c|c o|c o|c o|c o tmo|c o tmo|r|r|r]; try discriminate.
      - destruct o as [P m rel tm| | |]; try discriminate. destruct (wait_pred w P m (e_pat s)); discriminate.
      - destruct o as [P m rel tm| | |]; try (destruct I3 as (_ & X & _); discriminate).
        destruct (wait_pred w P m (e_pat s)); [discriminate|]. destruct tmo; discriminate. }
    intros t. specialize (ST t). pose proof (I3 t) as K. cbn [e_step] in ST. unfold e_idle. rewrite FREE in ST. cbn in ST.
    destruct (e_thr s t) as [|c|c o|c o|c o|c o tmo|c o tmo|r|r|r] eqn:Q; try discriminate.
    - now left.
    - exfalso. cbn [pc_ok] in K. pose proof (entry_ok c K). destruct (ef_entry w dbg c); [discriminate|discriminate|contradiction].
    - exfalso. assert (X : holding (e_thr s t) = true) by now rewrite Q. apply I2 in X. congruence.
    - right. destruct K as (K & W). destruct o as [P m rel tm| | |]; try discriminate.
      destruct (wait_pred w P m (e_pat s)) eqn:T.
      + exfalso. destruct (I4 t) as (u & N); [rewrite Q; exact T|].
        assert (HU : holding (e_thr s u) = true) by (destruct (e_thr s u); cbn in *; congruence).
        apply I2 in HU. congruence.
      + exists c, P, m, rel, tm. repeat split; try assumption; apply K.
    - exfalso. assert (X : holding (e_thr s t) = true) by now rewrite Q. apply I2 in X. congruence.
  Qed.


  Theorem ef_no_lost_wakeup ls s es : (forall l, In l ls -> label_ok l) -> exec stp e_init ls = Some (s, es) ->
    (forall t, stp s (LStep t) = None) ->
    forall t, e_idle s t \/ exists c Q, e_running s t = Some c /\ econd w c = Some Q /\ ~ Q (e_pat s).
  Proof.
    intros HL E ST t. pose proof (einv_reach ls s es HL E) as II.
    destruct (ef_stuck_shape s es II ST t) as [D|(c & P & m & rel & tm & A & B & D)]; [now left|right].
    destruct (pred_false_cond c P m rel tm (e_pat s) B (ei_pat _ _ II) D) as (Q & X & Y). exists c, Q.
    unfold e_running. rewrite A. tauto.
  Qed.
  (** ... and if time-outs are over too, it waits without a time limit *)
  Theorem ef_only_forever_waits_remain ls s es : (forall l, In l ls -> label_ok l) -> exec stp e_init ls = Some (s, es) ->
    (forall t, stp s (LStep t) = None) -> (forall t, stp s (LTimeout t) = None) ->
    forall t, e_idle s t \/ exists c Q, e_running s t = Some c /\ forever c /\ econd w c = Some Q /\ ~ Q (e_pat s).
  Proof.
    intros HL E ST TM t. pose proof (einv_reach ls s es HL E) as II.
    destruct (ef_stuck_shape s es II ST t) as [D|(c & P & m & rel & tm & A & B & D)]; [now left|right].
    destruct (pred_false_cond c P m rel tm (e_pat s) B (ei_pat _ _ II) D) as (Q & X & Y). exists c, Q.
    unfold e_running. rewrite A. split; [reflexivity|]. split; [|tauto].
    specialize (TM t). cbn [e_step] in TM. rewrite A in TM. destruct (Z.eqb_spec tm FOREVER) as [EQ|]; [|discriminate].
    destruct B as (_ & _ & _ & F & _). apply F. exact EQ.
  Qed.

  (** without new calls and spurious wake-ups, only finitely many steps are possible *)
  Definition wt (n : nat) (q : epc) : nat :=
    match q with
    | EIdle => 0 | ERet _ => 1 | EUnlock _ => 2
    | EEval _ _ true => 3 | EWoken _ _ true => 4 | EAsleep _ _ => 5 | EEval _ _ false => 6 | EWoken _ _ false => 7
    | ENotify _ => 3 + 2 * n | EBody _ _ => 6 + 2 * n | EAcq _ _ => 7 + 2 * n | EEntry _ => 8 + 2 * n
    end%nat.
  Definition measure (n : nat) (s : est) : nat := sumn (fun t => wt n (e_thr s t)) n.

  Lemma measure_upd n s t q (g : nat -> epc) : (t < n)%nat -> (forall u, u <> t -> g u = e_thr s u) -> g t = q ->
    (wt n q < wt n (e_thr s t))%nat ->
    forall p l, (measure n (mkE p l g) < measure n s)%nat.
  Proof.
    intros H G Gt L p l. unfold measure. cbn [e_thr].
    pose proof (sumn_change n (fun u => wt n (e_thr s u)) (fun u => wt n (g u)) t H) as X. cbn beta in X.
    rewrite Gt in X. specialize (X ltac:(intros u N; now rewrite G)). lia.
  Qed.

  Lemma measure_step n s l s' es' : (forall t, (n <= t)%nat -> e_idle s t) -> own_step l -> stp s l = Some (s', es') ->
    (forall t, (n <= t)%nat -> e_idle s' t) /\ (measure n s' < measure n s)%nat.
  Proof.
    intros ID OL E.
    assert (Tn : forall t, e_thr s t <> EIdle -> (t < n)%nat).
    { intros t N. destruct (le_lt_dec n t) as [G|]; [|assumption]. elim N. now apply ID. }
    assert (U : forall t q p lk, e_thr s t <> EIdle -> (wt n q < wt n (e_thr s t))%nat ->
             (forall u, (n <= u)%nat -> e_idle (mkE p lk (fupd (e_thr s) t q)) u) /\ (measure n (mkE p lk (fupd (e_thr s) t q)) < measure n s)%nat).
    { intros t q p lk N L. pose proof (Tn t N) as Lt. split.
      - intros u Gu. unfold e_idle. cbn [e_thr]. rewrite fupd_other by lia. now apply ID.
      - apply measure_upd with (t := t) (q := q); [exact Lt|intros; now apply fupd_other|apply fupd_same|exact L]. }
    destruct l as [t c|t|t|t]; try contradiction; cbn [e_step] in E.
    - destruct (e_thr s t) as [|c|c o|c o|c o|c o tmo|c o tmo|r|r|r] eqn:Q; try discriminate.
      + destruct (ef_entry w dbg c); try discriminate; injection E as <- <-; apply U; rewrite Q; try discriminate; cbn; lia.
      + destruct (is_free (e_lock s)); [|discriminate]. injection E as <- <-. apply U; rewrite Q; [discriminate|cbn; lia].
      + destruct o as [P m rel tm|P|P|]; [destruct (wait_pred w P m (e_pat s))|..]; injection E as <- <-;
          (apply U; rewrite Q; [discriminate|cbn; lia]).
      + destruct (is_free (e_lock s)); [|discriminate]. injection E as <- <-. apply U; rewrite Q; [discriminate|destruct tmo; cbn; lia].
      + destruct o as [P m rel tm|P|P|]; try discriminate. destruct (wait_pred w P m (e_pat s)); [|destruct tmo]; injection E as <- <-;
          (apply U; rewrite Q; [discriminate|]); [destruct tmo; cbn; lia|cbn; lia|cbn; lia].
      + injection E as <- <-. assert (Lt : (t < n)%nat) by (apply Tn; rewrite Q; discriminate). split.
        * intros u Gu. unfold e_idle. cbn [e_thr]. rewrite fupd_other by lia. rewrite (ID u Gu). reflexivity.
        * unfold measure. cbn [e_thr].
          rewrite (sumn_split n (fun u => wt n (e_thr s u)) t Lt).
          rewrite (sumn_split n (fun u => wt n (fupd (fun v => wake (e_thr s v)) t (EUnlock r) u)) t Lt).
          rewrite fupd_same, Q. cbn beta.
          set (A := sumn _ n). set (B := sumn _ n).
          assert (A <= B + 2 * n)%nat; [|cbn [wt]; lia].
          subst A B. 
          assert (G : forall m, (sumn (fun u => if Nat.eqb u t then 0 else wt n (fupd (fun v => wake (e_thr s v)) t (EUnlock r) u)) m
                        <= sumn (fun u => if Nat.eqb u t then 0 else wt n (e_thr s u)) m + 2 * m)%nat).
          { induction m as [|m IHm]; cbn; [lia|]. rewrite fupd_eq. destruct (Nat.eqb_spec m t); [lia|].
            assert (wt n (wake (e_thr s m)) <= wt n (e_thr s m) + 2)%nat; [|lia]. destruct (e_thr s m); cbn; lia. }
          apply G.
      + injection E as <- <-. apply U; rewrite Q; [discriminate|cbn; lia].
      + injection E as <- <-. apply U; rewrite Q; [discriminate|cbn; lia].
    - destruct (e_thr s t) as [| | | |c o| | | | |] eqn:Q; try discriminate. destruct o as [P m rel tm| | |]; try discriminate.
      destruct (tm =? FOREVER); [discriminate|]. injection E as <- <-. apply U; rewrite Q; [discriminate|cbn; lia].
  Qed.

  Theorem ef_terminates n s ls s' es' : (forall t, (n <= t)%nat -> e_idle s t) -> (forall l, In l ls -> own_step l) ->
    exec stp s ls = Some (s', es') -> (length ls <= measure n s)%nat.
  Proof.
    intros ID OL E.
    pose proof (exec_measure _ _ _ stp (fun s => forall t, (n <= t)%nat -> e_idle s t) own_step (measure n)
      (fun s0 l s1 es1 h o e => measure_step n s0 l s1 es1 h o e) ls s s' es' ID OL E). lia.
  Qed.
  Lemma measure_bound n s : (measure n s <= n * (8 + 2 * n))%nat.
  Proof. apply sumn_bound. intros k _. destruct (e_thr s k) as [| | | | |? ? []|? ? []| | |]; cbn; lia. Qed.
  Theorem ef_terminates_bound n s ls s' es' : (forall t, (n <= t)%nat -> e_idle s t) -> (forall l, In l ls -> own_step l) ->
    exec stp s ls = Some (s', es') -> (length ls <= n * (8 + 2 * n))%nat.
  Proof. intros ID OL E. pose proof (ef_terminates n s ls s' es' ID OL E). pose proof (measure_bound n s). lia. Qed.

  (** ** auto-reset: sequential consequence of the specification *)
  Definition call_ok (x : nat * ecall * eres) : Prop := ecall_ok w (snd (fst x)).

  Lemma no_cond_at_zero c Q : ecall_ok w c -> econd w c = Some Q -> ~ Q 0.
  Proof.
    intros OKc E. destruct c as [k|pos k|P m rel k| | | | | | |]; cbn [econd] in E; try discriminate.
    - injection E as <-. intros (i & _ & H). unfold has in H. rewrite Z.bits_0 in H. discriminate.
    - destruct (pos <? w); [|discriminate]. injection E as <-. unfold has. rewrite Z.bits_0. discriminate.
    - cbn in OKc. destruct (Z.eqb_spec P 0) as [|N]; [discriminate|]. destruct m; try discriminate; injection E as <-.
      + intros (i & _ & _ & H). unfold has in H. rewrite Z.bits_0 in H. discriminate.
      + intros H. destruct (some_bit w P OKc N) as (i & Hi & B). specialize (H i Hi B). unfold has in H. rewrite Z.bits_0 in H. discriminate.
  Qed.
  Lemma zero_until_set l : forall p', sp_run (espec w true) 0 l p' -> (forall x, In x l -> call_ok x) ->
    (forall x, In x l -> is_set (snd (fst x)) = false) -> p' = 0 /\ forall x, In x l -> ~ released x.
  Proof.
    induction l as [|[[t c] r] l IH]; intros p' H OKl NS.
    - inversion H; subst. split; [reflexivity|]. intros x [].
    - inversion H as [|? ? ? ? p1 ? ? S R]; subst. destruct S as (HP1 & S).
      pose proof (OKl _ (or_introl eq_refl)) as OKc. pose proof (NS _ (or_introl eq_refl)) as NSc. cbn in OKc, NSc.
      assert (X : p1 = 0 /\ ~ released (t, c, r)).
      { destruct c as [k|pos k|P m rel k| |pos|P| |pos|P|]; try discriminate; cbn beta iota in S.
        - destruct (econd w (EWaitAny k)) as [Q|] eqn:E.
          + destruct S as [(A & _)|(_ & _ & -> & ->)]; [now apply no_cond_at_zero in E|]. split; [reflexivity|]. intros (_ & v & V). discriminate.
          + destruct S as (-> & ->). split; [reflexivity|]. intros (_ & v & V). discriminate.
        - destruct (econd w (EWaitOne pos k)) as [Q|] eqn:E.
          + destruct S as [(A & _)|(_ & _ & -> & ->)]; [now apply no_cond_at_zero in E|]. split; [reflexivity|]. intros (_ & v & V). discriminate.
          + destruct S as (-> & ->). split; [reflexivity|]. intros (_ & v & V). discriminate.
        - destruct (econd w (EWait P m rel k)) as [Q|] eqn:E.
          + destruct S as [(A & _)|(_ & _ & -> & ->)]; [now apply no_cond_at_zero in E|]. split; [reflexivity|]. intros (_ & v & V). discriminate.
          + destruct S as (-> & ->). split; [reflexivity|]. intros (_ & v & V). discriminate.
        - destruct S as (-> & ->). split; [reflexivity|]. intros (V & _). discriminate.
        - split; [|intros (V & _); discriminate]. destruct (pos <? w).
          + destruct S as (-> & S). apply (zero_bits w Hw); [exact HP1|]. intros i Hi. rewrite S by lia. rewrite Z.bits_0. now destruct (i =? pos).
          + destruct S as (-> & ->). reflexivity.
        - split; [|intros (V & _); discriminate]. destruct S as (-> & S). apply (zero_bits w Hw); [exact HP1|]. intros i Hi. rewrite S by lia. now rewrite Z.bits_0.
        - destruct S as (-> & ->). split; [reflexivity|]. intros (V & _). discriminate. }
      destruct X as (-> & X). destruct (IH p' R) as (-> & Y).
      + intros x Hx. apply OKl. now right.
      + intros x Hx. apply NS. now right.
      + split; [reflexivity|]. intros x [<-|Hx]; [exact X|now apply Y].
  Qed.
  Lemma auto_reset_once l1 x l2 y l3 p p' : sp_run (espec w true) p (l1 ++ x :: l2 ++ y :: l3) p' ->
    (forall z, In z (l1 ++ x :: l2 ++ y :: l3) -> call_ok z) -> released x -> released y ->
    exists z, In z l2 /\ is_set (snd (fst z)) = true.
  Proof.
    intros H OKl RX RY. apply sp_run_app_inv in H. destruct H as (p1 & _ & H). destruct x as [[t c] r].
    inversion H as [|? ? ? ? p2 ? ? S R]; subst. destruct RX as (W & v & RV). cbn in W, RV. subst r.
    assert (P2 : p2 = 0).
    { destruct S as (_ & S). destruct c as [k|pos k|P m rel k| | | | | | |]; try discriminate; cbn beta iota in S;
        (match type of S with match ?e with _ => _ end => destruct e as [Q|] end;
         [destruct S as [(_ & _ & S)|(_ & _ & S & _)]; [exact S|discriminate]|destruct S; discriminate]). }
    subst p2.
    destruct (existsb (fun z => is_set (snd (fst z))) l2) eqn:EX.
    { apply existsb_exists in EX. exact EX. }
    exfalso. assert (NS : forall z, In z l2 -> is_set (snd (fst z)) = false).
    { intros z Hz. destruct (is_set (snd (fst z))) eqn:E; [|reflexivity].
      assert (existsb (fun z => is_set (snd (fst z))) l2 = true) by (apply existsb_exists; eauto). congruence. }
    assert (OK2 : forall z, In z (l2 ++ [y]) -> call_ok z).
    { intros z Hz. apply OKl. apply in_or_app. right. right. apply in_app_or in Hz. apply in_or_app. destruct Hz as [|[<-|[]]]; [now left|right; now left]. }
    replace (l2 ++ y :: l3) with ((l2 ++ [y]) ++ l3) in R by (now rewrite <- app_assoc).
    apply sp_run_app_inv in R. destruct R as (p3 & R & _).
    destruct (zero_until_set (l2 ++ [y]) p3 R OK2) as (_ & NR).
    - intros z Hz. apply in_app_or in Hz. destruct Hz as [Hz|[<-|[]]]; [now apply NS|]. destruct RY as (WY & _). destruct (snd (fst y)); try discriminate; reflexivity.
    - apply (NR y); [apply in_or_app; right; now left|exact RY].
  Qed.
  (** calls take their arguments from the labels *)
  Lemma effects_ok ls s es : (forall l, In l ls -> label_ok l) -> exec stp e_init ls = Some (s, es) -> forall x, In x (effects es) -> call_ok x.
  Proof.
    intros HL E.
    assert (G : forall es f p, lin_run spec (fun _ => Out) 0 es f p -> (forall t c, In (Call t c) es -> ecall_ok w c) ->
              forall x, In x (effects es) -> call_ok x).
    { clear. intros es f p H.
      assert (K : forall f0 p0 es f p, lin_run spec f0 p0 es f p -> (forall t c, f0 t = Pending c -> ecall_ok w c) ->
                (forall t c, In (Call t c) es -> ecall_ok w c) -> forall x, In x (effects es) -> call_ok x).
      { clear. intros f0 p0 es f p H. induction H as [|f0 p0 t c es f p Hf H IH|f0 p0 t c r p1 es f p Hf S H IH|f0 p0 t r es f p Hf H IH]; intros A B x Hx.
        - destruct Hx.
        - apply IH; [|intros; apply (B t0); now right|exact Hx]. intros u d. unfold set_st. destruct (Nat.eqb u t); [intros X; injection X as <-; apply (B t); now left|apply A].
        - cbn in Hx. destruct Hx as [<-|Hx]; [now apply (A t)|]. apply IH; [|intros; apply (B t0); now right|exact Hx].
          intros u d. unfold set_st. destruct (Nat.eqb u t); [discriminate|apply A].
        - apply IH; [|intros; apply (B t0); now right|exact Hx]. intros u d. unfold set_st. destruct (Nat.eqb u t); [discriminate|apply A]. }
      intros A x. exact (K _ _ _ _ _ H ltac:(discriminate) A x). }
    destruct (einv_reach ls s es HL E) as [_ _ _ _ (f & L & _)]. apply (G es f (e_pat s) L).
    clear -E HL. revert E. generalize (e_init). revert s es. induction ls as [|l ls IH]; intros s es s0 E t c H; cbn in E.
    - injection E as <- <-. destruct H.
    - destruct (e_step w dbg ar s0 l) as [[s1 e1]|] eqn:E1; [|discriminate].
      destruct (exec stp s1 ls) as [[s2 e2]|] eqn:E2; [|discriminate]. injection E as <- <-.
      apply in_app_or in H. destruct H as [H|H]; [|eapply IH; [intros; apply HL; now right|exact E2|exact H]].
      specialize (HL l (or_introl eq_refl)). destruct l as [u d|u|u|u]; cbn [e_step] in E1.
      + destruct (e_thr s0 u); try discriminate. injection E1 as <- <-. destruct H as [H|[]]. injection H as -> ->. exact HL.
      + exfalso. destruct (e_thr s0 u) as [|d|d o|d o|d o|d o tmo|d o tmo|r|r|r]; try discriminate.
        * destruct (ef_entry w dbg d); try discriminate; injection E1 as <- <-; [destruct H|destruct H as [H|[]]; discriminate].
        * destruct (is_free _); [|discriminate]. injection E1 as <- <-. destruct H.
        * destruct o as [P m rel tm|P|P|]; [destruct (wait_pred w P m (e_pat s0))|..]; injection E1 as <- <-; try (destruct H as [H|[]]; discriminate); destruct H.
        * destruct (is_free _); [|discriminate]. injection E1 as <- <-. destruct H.
        * destruct o as [P m rel tm|P|P|]; try discriminate. destruct (wait_pred w P m (e_pat s0)); [|destruct tmo]; injection E1 as <- <-; try (destruct H as [H|[]]; discriminate); destruct H.
        * injection E1 as <- <-. destruct H.
        * injection E1 as <- <-. destruct H.
        * injection E1 as <- <-. destruct H as [H|[]]; discriminate.
      + exfalso. destruct (e_thr s0 u); try discriminate. destruct o; try discriminate. destruct (_ =? _); [discriminate|]. injection E1 as <- <-. destruct H.
      + exfalso. destruct (e_thr s0 u); try discriminate. injection E1 as <- <-. destruct H.
  Qed.
End Proofs.

Theorem ef_auto_reset w dbg : 0 < w -> forall ls s es, (forall l, In l ls -> label_ok w l) -> exec (e_step w dbg true) e_init ls = Some (s, es) ->
  exists es' f p, history es' = history es /\ lin_run (espec w true) (fun _ => Out) 0 es' f p /\
    forall l1 x l2 y l3, effects es' = l1 ++ x :: l2 ++ y :: l3 -> released x -> released y -> exists z, In z l2 /\ is_set (snd (fst z)) = true.
Proof.
  intros Hw ls s es HL E. destruct (einv_reach w Hw dbg true ls s es HL E) as [_ _ _ _ (f & L & _)].
  exists es, f, (e_pat s). split; [reflexivity|]. split; [exact L|]. intros l1 x l2 y l3 D RX RY.
  apply (auto_reset_once w Hw l1 x l2 y l3 0 (e_pat s)); [rewrite <- D; eapply lin_run_effects; exact L| |exact RX|exact RY].
  intros z Hz. rewrite <- D in Hz. exact (effects_ok w Hw dbg true ls s es HL E z Hz).
Qed.
