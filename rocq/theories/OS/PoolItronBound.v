(** ThreadPool over the whole Itron stack: the calls in progress and the pool threads make a bounded number of steps. *)
From Coq Require Import List ZArith Bool Lia Arith.
Import ListNotations.
From Verif Require Import Spec.OSError Spec.Linear Spec.EventFlagSpec Spec.MessageQueueSpec Spec.ThreadSpec Spec.ItronThreadSpec OS.Sched OS.MessageQueueModel OS.MessageQueueProofs
  OS.EventFlagModel OS.ItronEventFlagModel OS.ItronEventFlagProofs OS.ItronMutexModel OS.ItronMutexProofs OS.QueueStackModel OS.QueueStackProofs OS.QueueStackInst Spec.ThreadPoolSpec OS.ThreadPoolModel OS.ThreadPoolProofs
  OS.ThreadPoolLiveness OS.PoolStackModel OS.PoolStackProofs OS.PoolWholeModel OS.PoolWholeProofs OS.ItronThreadModel OS.ItronThreadProofs OS.PoolItronModel OS.PoolObjects
  OS.PoolItronProofs.
Local Open Scope nat_scope.

(** ** the steps of an ItronThread *)
Section Thread.
  Variables prio0 minp maxp : Z.
  Variable ext_prio : nat -> Z.
  Notation stp := (n_step prio0 minp maxp ext_prio).
  (** the step of a caller either returns, or leaves it inside and reports no return *)
  Lemma n_step_ret T l T' es : stp T l = Some (T', es) -> n_own_step l -> n_thr T 0 = IIdle ->
    (exists t v, l = NStep t /\ n_thr T t = IRet v /\ es = [Ret t v] /\ n_thr T' = fupd (n_thr T) t IIdle) \/
    ((forall u, n_thr T u <> IIdle -> n_thr T' u <> IIdle) /\ forall t v, ~ In (Ret (S t) v) es).
  Proof.
    intros E O Z0. destruct l as [t c|t|t|t|]; cbn in O; try contradiction; cbn [n_step] in E.
    - assert (U : forall q u, n_thr T u <> IIdle -> q <> IIdle -> fupd (n_thr T) t q u <> IIdle) by (intros q u H Q; rewrite fupd_eq; destruct (u =? t); auto).
      destruct (n_thr T t) as [|c|c|c| | | | | |r| |c|c|c| |r] eqn:X; try discriminate; [..|left; exists t, r; injection E as <- <-; auto]; right;
        unfold n_is_finished in E;
        repeat (match type of E with match ?b with _ => _ end = _ => destruct b eqn:? end; try discriminate); injection E as <- <-;
        (split; [intros u NI; cbn [n_thr n_go]; apply U; [exact NI|]; try discriminate|cbn [In]; intros ? ? ?; intuition discriminate]).
      all: match goal with |- context[if ?b then _ else _] => destruct b | r : option ires |- _ => destruct r end; discriminate.
    - destruct (n_thr T t) as [|c|c|c| | | | | |r| |c|c|c| |r] eqn:X; try discriminate. right.
      repeat (match type of E with match ?b with _ => _ end = _ => destruct b eqn:? end; try discriminate); injection E as <- <-.
      split; [intros u NI; cbn [n_thr n_go]; rewrite fupd_eq; destruct (u =? t); [discriminate|exact NI]|cbn [In]; intros ? ? ?; intuition discriminate].
    - right. rewrite Z0 in E. repeat (match type of E with match ?b with _ => _ end = _ => destruct b eqn:? end; try discriminate); injection E as <- <-.
      all: split; [intros u NI; cbn [n_thr]; auto|cbn [In]; intros ? ? ?; intuition discriminate].
      destruct (n_thr T u); congruence.
  Qed.
  Lemma tk_out q : tk q -> strip (st_of q) = Out -> q = IIdle.
  Proof. destruct q as [|c|c|c| | | | | |[r|]| |c|c|c| |r]; cbn [tk]; intros K H; try reflexivity; try discriminate; try contradiction; try (subst c; discriminate); destruct K as (x & ->); discriminate. Qed.
End Thread.
(** ** the steps of an ItronEventFlag *)
Lemma f_step_ret w wf dbg e l e' es : f_step w wf dbg false e l = Some (e', es) -> f_own_step l ->
  (exists t v, f_thr e t = FRet v /\ es = [Ret t v] /\ f_thr e' = fupd (f_thr e) t FIdle) \/
  ((forall u, f_thr e u <> FIdle -> f_thr e' u <> FIdle) /\ forall x, In x es -> exists t c v, x = Eff t c v).
Proof.
  intros E O. destruct l as [t c|t k|t]; [destruct O| |]; cbn [f_step] in E.
  - assert (U : forall q u, f_thr e u <> FIdle -> q <> FIdle -> fupd (f_thr e) t q u <> FIdle) by (intros q u H Q; rewrite fupd_eq; destruct (u =? t); auto).
    destruct (f_thr e t) as [|c|c o|c o|r] eqn:X; try discriminate; [..|left; exists t, r; injection E as <- <-; auto]; right.
    + unfold f_done, f_go in E. destruct (if_entry w dbg c); try discriminate; injection E as <- <-; (split; [intros u NI; cbn [f_thr]; apply U; [exact NI|discriminate]|cbn [In]; intros x Hx; intuition (subst; eauto)]).
    + destruct o as [P m rel tm|P|P|].
      * unfold f_done, f_go in E. repeat (match type of E with (if ?b then _ else _) = _ => destruct b eqn:? end); injection E as <- <-;
          (split; [intros u NI; cbn [f_thr]; apply U; [exact NI|discriminate]|cbn [In]; intros x Hx; intuition (subst; eauto)]).
      * destruct (k_release w wf false (Z.lor (f_ptn e) (flgptn wf P)) (f_thr e) (f_queue e)) as [[[p' thr'] q'] es1] eqn:ER. injection E as <- <-.
        pose proof (release_weight _ _ _ _ _ _ _ _ _ _ ER) as RW. split.
        -- intros u NI. cbn [f_thr]. rewrite fupd_eq. destruct (u =? t); [discriminate|]. destruct (RW u) as [-> |(_ & r & ->)]; [exact NI|discriminate].
        -- intros x [<-|Hx]; [eauto|]. exact (release_effs w wf _ _ _ _ _ _ _ ER x Hx).
      * match type of E with match ?b with _ => _ end = _ => destruct b as [[P' x]| |]; try discriminate end. injection E as <- <-. split; [intros u NI; cbn [f_thr]; apply U; [exact NI|discriminate]|cbn [In]; intros y Hy; intuition (subst; eauto)].
      * unfold f_done, f_go in E. injection E as <- <-. split; [intros u NI; cbn [f_thr]; apply U; [exact NI|discriminate]|cbn [In]; intros y Hy; intuition (subst; eauto)].
  - right. destruct (f_thr e t) as [|c|c o|c [P m rel tm| | |]|r] eqn:X; try discriminate. destruct (tm =? -1)%Z; [discriminate|]. injection E as <- <-.
    split; [intros u NI; cbn [f_thr]; rewrite fupd_eq; destruct (u =? t); [discriminate|exact NI]|cbn [In]; intros y Hy; intuition (subst; eauto)].
Qed.

(** ** the steps of the queue that the atomic queue makes too *)
Lemma itr_ends N w wf dbg c l c' es : itr_step nat (Z.of_nat N) w wf dbg c l = Some (c', es) ->
  (exists t d p, c_thr c t = CIdle /\ c_thr c' t = CBefore true d p) \/ (exists t g d p, c_thr c t = CBefore g d p /\ c_thr c' t = CIdle) \/
  es = [] /\ cown nat ilab iflab (fun _ => True) l.
Proof.
  unfold itr_step. intros E. destruct l as [t d|t|o l|l|t b]; cbn [c_step] in E.
  - left. destruct (c_thr c t) eqn:X; try discriminate. injection E as <- <-. exists t. do 2 eexists. split; [exact X|]. cbn. now rewrite fupd_same.
  - right. destruct (c_thr c t) as [|g d p|g d p] eqn:X; try discriminate. destruct g, p; try discriminate; injection E as <- <-; try (right; split; [reflexivity|exact I]);
      left; exists t; do 3 eexists; (split; [exact X|]; cbn; now rewrite fupd_same).
  - right; right. match type of E with match ?b with _ => _ end = _ => destruct b as [[? ?]|]; [|discriminate] end. destruct (hear _ _ _ _); [|discriminate]. injection E as <- <-. split; [reflexivity|exact I].
  - right; right. match type of E with match ?b with _ => _ end = _ => destruct b as [[? ?]|]; [|discriminate] end. destruct (hear _ _ _ _); [|discriminate]. injection E as <- <-. split; [reflexivity|exact I].
  - right; right. destruct (c_thr c t) as [|g d p|g d p] eqn:X; try discriminate. destruct d as [v ms|[|] ms| |]; try discriminate; destruct p; try discriminate; injection E as <- <-; (split; [reflexivity|exact I]).
Qed.

(** ** the steps of the pool report no new calls *)
Lemma p_own_calls N dflt ext_prio P l P' es t c : p_step N dflt ext_prio P l = Some (P', es) -> p_own_step l -> In (Call t c) es -> exists x p, c = PBegin x p.
Proof.
  intros E O C. destruct l as [u d|u|u x|r|r th]; cbn in O; try contradiction; cbn [p_step] in E.
  - exfalso. destruct (p_thr P u) as [|[x ms g p|g ms|g|g|x q|x th]|[ | | | |] r x ms g p|[|] r g|v]; try discriminate;
      repeat (match type of E with match ?b with _ => _ end = _ => destruct b eqn:? end; try discriminate); injection E as <- <-; cbn [In] in C; intuition discriminate.
  - exfalso. destruct (p_thr P u) as [|[y ms g p|g ms|g|g|y q|y th]|[ | | | |] r y ms g p|[|] r g|v]; try discriminate;
      repeat (match type of E with match ?b with _ => _ end = _ => destruct b eqn:? end; try discriminate); injection E as <- <-; cbn [In] in C; intuition discriminate.
  - repeat (match type of E with match ?b with _ => _ end = _ => destruct b eqn:? end; try discriminate); injection E as <- <-; cbn [In] in C; try (exfalso; intuition discriminate).
    destruct C as [C|[C|[C|[]]]]; try discriminate. injection C as <- <-. eauto.
Qed.
(** a run without new calls and ends of tasks *)
Lemma own_labels N dflt ext_prio Ls : forall x y es, exec (PoolStackModel.t_step N dflt ext_prio) x Ls = Some (y, es) ->
  (forall t c, In (Call t c) es -> exists a b, c = PBegin a b) -> forall l, In l Ls -> t_own_step l.
Proof.
  induction Ls as [|l0 Ls IH]; intros x y es E C l Hl; [destruct Hl|]. cbn [exec] in E.
  destruct (PoolStackModel.t_step N dflt ext_prio x l0) as [[x1 e1]|] eqn:S; [|discriminate]. destruct (exec _ x1 Ls) as [[x2 e2]|] eqn:X; [|discriminate]. injection E as <- <-.
  destruct Hl as [<-|Hl]; [|exact (IH _ _ _ X (fun t c h => C t c (in_or_app _ _ _ (or_intror h))) l Hl)].
  destruct l0 as [[t c|t|t o|r|r th]| | |]; try exact I; exfalso; cbn [PoolStackModel.t_step on_queue p_step] in S.
  - destruct (p_thr (t_pool x) t); try discriminate. destruct (callable N (t_pool x) t c) eqn:CA; [|discriminate]. injection S as <- <-.
    destruct (C t c) as (a & b & ->); [now left|]. unfold callable in CA. rewrite andb_false_r in CA. discriminate.
  - destruct (p_run (t_pool x) r); try discriminate. destruct (p_thr (t_pool x) r); try discriminate. injection S as <- <-.
    destruct (C r (PEnd (p_task (t_pool x) r) th)) as (a & b & X1); [now left|]. discriminate.
Qed.

Section B.
  Variable N : nat.
  Hypothesis HN : (Z.of_nat N < 2 ^ 64 - 1)%Z.
  Variable dflt : Z.
  Variable ext_prio : nat -> Z.
  Variables minp maxp : Z.
  Variables w wf : Z.
  Hypothesis Hw : (2 <= w)%Z.
  Hypothesis Hwf : (w <= wf)%Z.
  Variable dbg : bool.
  Notation size := (Z.of_nat N).
  Let HM : (0 <= size < 2 ^ 64 - 1)%Z.
  Proof. lia. Qed.
  Let w0 : (0 < w)%Z.
  Proof. lia. Qed.
  Notation pstep := (p_step N dflt ext_prio).
  Notation sstep := (PoolStackModel.t_step N dflt ext_prio).
  Notation zstep := (z_step N dflt ext_prio minp maxp w wf dbg).
  Notation nstep := (n_step dflt minp maxp ext_prio).
  Notation zsim := (zsim N dflt ext_prio w).
  Notation ssound := (sound nat size ist ifst im_good im_ph iabs (ie_good w) ie_ph f_ptn (fun ms => (-1 <= ms)%Z) true).
  Variable n : nat.
  Notation m := (n + N).

  (** ** the measure *)
  Definition fromn (P : pst) : Prop := forall t, n <= t -> p_thr P t = PIdle.
  Definition ti (T : nat -> its) r u : nat := match n_thr (T r) u with IIdle => 16 | _ => 0 end.
  Definition fi (E : nat -> ifst) r t : nat := match f_thr (E r) t with FIdle => 16 | _ => 0 end.
  Definition again (q : ppc) : nat := match q with PAt (PRelease _) => 16 | _ => 0 end.
  Definition credit P T E t : nat :=
    match wants_thread P t with
    | Some (r, _) => ti T r (S t)
    | None => match wants_flag N P t with Some (r, _) => fi E r t | None => 0 end
    end + again (p_thr P t).
  Definition cost_q (c : itr_st nat) : nat := cmeas nat ist ifst im_meas fmeasure m 4 c.
  Definition cost_t (T : nat -> its) : nat := sumn (fun r => nmeasure (S m) (T r)) N.
  Definition cost_f (E : nat -> ifst) : nat := sumn (fun r => fmeasure m (E r)) N.
  Definition cost_p P T E : nat := sumn (credit P T E) m.
  Definition mess (s : zst) : nat := cost_q (z_queue s) + cost_t (z_thread s) + cost_f (z_flag s) + cost_p (z_pool s) (z_thread s) (z_flag s).

  Definition most : nat := 108 * m + 19 * m * N + 20 * N.
  Lemma mess_bound s : mess s <= most.
  Proof.
    assert (B1 : cost_q (z_queue s) <= 76 * m).
    { unfold cost_q, cmeas. pose proof (im_bound m (c_mtx (z_queue s) OSnd)). pose proof (im_bound m (c_mtx (z_queue s) ORcv)). pose proof (im_bound m (c_mtx (z_queue s) ORB)).
      pose proof (ie_bound m (c_ev (z_queue s))).
      assert (BD : sumn (fun t => rank nat (c_thr (z_queue s) t)) m <= m * 12) by (apply sumn_bound; intros k _; destruct (c_thr (z_queue s) k) as [|g c p|g c p]; cbn; [|destruct p; cbn..]; lia). lia. }
    assert (B2 : cost_t (z_thread s) <= N * (15 * m + 20)).
    { apply sumn_bound. intros r _. unfold nmeasure. assert (sumn (fun t => nw (n_thr (z_thread s r) t)) (S m) <= S m * 15) by (apply sumn_bound; intros k _; destruct (n_thr (z_thread s r) k); cbn; lia).
      assert (kw (n_task (z_thread s r)) <= 5) by (destruct (n_task (z_thread s r)); cbn; lia). lia. }
    assert (B3 : cost_f (z_flag s) <= N * (m * 4)) by (apply sumn_bound; intros r _; apply ie_bound).
    assert (B4 : cost_p (z_pool s) (z_thread s) (z_flag s) <= m * 32).
    { apply sumn_bound. intros t _. unfold credit. assert (again (p_thr (z_pool s) t) <= 16) by (destruct (p_thr (z_pool s) t) as [|[]| | |]; cbn; lia).
      assert (X : forall r u, ti (z_thread s) r u <= 16) by (intros r u; unfold ti; destruct (n_thr (z_thread s r) u); lia).
      assert (Y : forall r u, fi (z_flag s) r u <= 16) by (intros r u; unfold fi; destruct (f_thr (z_flag s r) u); lia).
      destruct (wants_thread (z_pool s) t) as [[r c]|]; [specialize (X r (S t)); lia|]. destruct (wants_flag N (z_pool s) t) as [[r c]|]; [specialize (Y r t); lia|lia]. }
    unfold mess, most. clear HM w0 HN. nia.
  Qed.

  Lemma credit_le P P' T T' E E' t : (p_thr P' t = p_thr P t) -> (forall i, p_guard P' t i = p_guard P t i) ->
    (p_run P' t = p_run P t \/ p_run P' t = WRead \/ p_run P' t = WOff) ->
    (forall r u, ti T' r u <= ti T r u) -> (forall r u, fi E' r u <= fi E r u) -> credit P' T' E' t <= credit P T E t.
  Proof.
    intros H1 H2 H3 H4 H5. unfold credit. rewrite H1, (PoolObjects.wants_thread_ext P P' t H1).
    destruct (wants_thread P t) as [[r c]|] eqn:W; [specialize (H4 r (S t)); lia|].
    destruct H3 as [H3|H3].
    - rewrite (PoolObjects.wants_flag_ext N P P' t H1 H2 H3). destruct (wants_flag N P t) as [[r c]|]; [specialize (H5 r t); lia|lia].
    - assert (X : wants_flag N P' t = None \/ wants_flag N P' t = wants_flag N P t).
      { unfold wants_flag. rewrite H1. destruct (p_thr P t) as [|[ | | | | |]|[ | | | |]|[|]|]; rewrite ?H2; auto. left. destruct (t <? N); [|reflexivity]. destruct H3 as [-> | ->]; reflexivity. }
      destruct X as [-> | ->]; [lia|]. destruct (wants_flag N P t) as [[r c]|]; [specialize (H5 r t); lia|lia].
  Qed.
  (** a call of an object uses up the credit *)
  Lemma credit_call P T T' E E' t k : t < m -> (forall r u, ti T' r u <= ti T r u) -> (forall r u, fi E' r u <= fi E r u) ->
    credit P T' E' t + k <= credit P T E t -> cost_p P T' E' + k <= cost_p P T E.
  Proof.
    intros L H1 H2 H3. unfold cost_p. rewrite (sumn_split m (credit P T' E') t L), (sumn_split m (credit P T E) t L).
    assert (X : sumn (fun u => if u =? t then 0 else credit P T' E' u) m <= sumn (fun u => if u =? t then 0 else credit P T E u) m); [|lia].
    apply sumn_le. intros u _. destruct (u =? t); [lia|]. apply credit_le; auto.
  Qed.
  (** ... and a return may give some back, in the pool only *)
  Lemma credit_ret P P' T T' E E' t : (forall u, u <> t -> p_thr P' u = p_thr P u /\ (forall i, p_guard P' u i = p_guard P u i) /\ p_run P' u = p_run P u) ->
    (forall r u, u <> t -> ti T' r (S u) <= ti T r (S u)) -> (forall r u, u <> t -> fi E' r u <= fi E r u) ->
    credit P' T' E' t <= credit P T E t -> cost_p P' T' E' <= cost_p P T E.
  Proof.
    intros HP H1 H2 H3. apply sumn_le. intros u _. destruct (Nat.eq_dec u t) as [->|Ne]; [exact H3|]. destruct (HP u Ne) as (A & B & C).
    unfold credit. rewrite A, (PoolObjects.wants_thread_ext P P' u A), (PoolObjects.wants_flag_ext N P P' u A B C).
    destruct (wants_thread P u) as [[r c]|]; [specialize (H1 r u Ne); lia|]. destruct (wants_flag N P u) as [[r c]|]; [specialize (H2 r u Ne); lia|lia].
  Qed.
  Lemma sum_upd {X : Type} (g : X -> nat) (f : nat -> X) r x : r < N -> sumn (fun u => g (fupd f r x u)) N + g (f r) = sumn (fun u => g (f u)) N + g x.
  Proof.
    intros L. pose proof (sumn_change N (fun u => g (f u)) (fun u => g (fupd f r x u)) r L) as Y. cbn beta in Y. rewrite fupd_same in Y. apply Y. intros u Ne. now rewrite fupd_other.
  Qed.

  (** ** who is where *)
  Section At.
    Variables (s : zst) (A : pst) (Q : qst nat).
    Hypothesis WS : zsim s A Q.
    Hypothesis FN : fromn (z_pool s).
    Notation P := (z_pool s).
    Notation T := (z_thread s).
    Notation E := (z_flag s).
    Let I : inv N w P (z_th s) (z_fl s).
    Proof. exact (zs_inv _ _ _ _ _ _ _ WS). Qed.
    Let RL : rel P (z_th s) (z_fl s) A.
    Proof. exact (zs_rel _ _ _ _ _ _ _ WS). Qed.
    Let G r : zgood (T r).
    Proof. exact (zs_good _ _ _ _ _ _ _ WS r). Qed.

    Lemma thread_wanter t r c : wants_thread P t = Some (r, c) -> t < n.
    Proof. intros W. destruct (Nat.lt_ge_cases t n) as [|X]; [assumption|]. unfold wants_thread in W. rewrite (FN t X) in W. discriminate. Qed.
    Lemma flag_wanter t r c : wants_flag N P t = Some (r, c) -> t < m /\ r < N.
    Proof.
      intros W. split.
      - destruct (Nat.lt_ge_cases t m) as [|X]; [assumption|]. unfold wants_flag in W. rewrite (FN t) in W by lia. destruct (Nat.ltb_spec t N); [lia|discriminate].
      - assert (QI : q_thr Q t = QIdle).
        { apply (PoolObjects.inq_idle N P Q t (zs_inq _ _ _ _ _ _ _ WS)). unfold wants_flag in W. unfold wants. destruct (p_thr P t) as [|[ | | | | |]|[ | | | |]|[|]|]; try discriminate; try reflexivity.
          destruct (t <? N); [|reflexivity]. destruct (p_run P t) as [| | | |[| | | |] th|]; try discriminate; reflexivity. }
        destruct (zs_reach _ _ _ _ _ _ _ WS) as (q0 & Ls & es & F & EX). destruct (refines N HN dflt ext_prio q0 Ls _ es F EX) as (ls' & a & EA & SA).
        destruct (reach N dflt ext_prio ls' a es EA) as (own & f & sg & IV & _).
        destruct (agree_thr N _ _ t SA QI) as (A1 & _ & A3). cbn in A1, A3.
        assert (GU : forall g, p_guard P t g = Some r -> (forall r' x ms g' p, p_thr P t <> PHold SGo r' x ms g' p) -> r < N).
        { intros g Hg NG. apply (ThreadPoolProofs.iv_guard _ _ _ _ _ IV t g r). rewrite A3, (rl_guard _ _ _ _ RL t g). unfold abs_guard. destruct (p_thr P t) as [|[ | | | | |]|[ | | | |]|[|]|] eqn:X; try exact Hg. now elim (NG r0 x ms g0 p). }
        destruct (PoolObjects.fl_shape _ _ _ _ _ W) as [g ms Y G'|g Y G'|g Y|th Y L EQ Z|th Y L EQ Z]; subst; try assumption.
        + apply (GU g G'). intros. rewrite Y. discriminate.
        + apply (GU g G'). intros. rewrite Y. discriminate.
        + pose proof (ThreadPoolProofs.iv_thr _ _ _ _ _ IV t) as CO. unfold client_ok in CO. rewrite A1, (rl_thr _ _ _ _ RL t) in CO. unfold abs_thr in CO. rewrite Y in CO.
          destruct (fl_done (z_fl s) r t); destruct CO as (CO & _); exact (proj1 (ThreadPoolProofs.iv_guard _ _ _ _ _ IV t g r CO)).
    Qed.
    Lemma thread_below r : below (S m) (T r).
    Proof.
      intros u Hu. unfold n_idle. destruct u as [|t]; [lia|]. apply tk_out; [exact (zg_tk _ (G r) (S t))|]. pose proof (iv_th _ _ _ _ _ I r (S t)) as X. unfold z_th, absI in X. cbn [h_ph] in X.
      destruct (strip (st_of (n_thr (T r) (S t)))) as [|c|v]; [reflexivity| |]; cbn in X; exfalso.
      - destruct X as (t' & Y & W). injection Y as <-. apply thread_wanter in W. lia.
      - destruct X as (t' & c & Y & W & _). injection Y as <-. apply thread_wanter in W. lia.
    Qed.
    Lemma flag_at r t : f_thr (E r) t <> FIdle -> exists c, wants_flag N P t = Some (r, c).
    Proof.
      intros NI. pose proof (iv_fl _ _ _ _ _ I r t) as X. unfold z_fl, absF, ie_ph in X. cbn [g_ph] in X. destruct (f_thr (E r) t); [now elim NI|..]; cbn in X; eauto. destruct X as (c & W & _). eauto.
    Qed.
    Lemma flag_below r t : m <= t \/ N <= r -> f_thr (E r) t = FIdle.
    Proof.
      intros H. destruct (f_thr (E r) t) eqn:X; [reflexivity|..]; exfalso; (destruct (flag_at r t) as (c' & W); [congruence|]; apply flag_wanter in W; lia).
    Qed.
    Lemma queue_sound : ssound m (z_queue s).
    Proof.
      split; [destruct (zs_q _ _ _ _ _ _ _ WS) as (qe & HQ); exists Q, qe; split; [exact (zs_s _ _ _ _ _ _ _ WS)|exact HQ]|].
      intros t Ht. unfold c_idle. pose proof (r_thr _ _ _ _ _ _ _ _ _ (s_r _ _ _ _ _ _ _ _ _ _ _ _ _ (zs_s _ _ _ _ _ _ _ WS)) t) as R.
      assert (W : wants N P t = None). { unfold wants. rewrite (FN t) by lia. destruct (Nat.ltb_spec t N); [lia|reflexivity]. }
      rewrite (PoolObjects.inq_idle N P Q t (zs_inq _ _ _ _ _ _ _ WS) W) in R. destruct (c_thr (z_queue s) t) as [|g d p|g d p]; [reflexivity|discriminate|]. cbn in R.
      destruct (uses g d p) as [[o mc|mc]|]; [destruct (im_ph (c_mtx (z_queue s) o) t)|destruct (ie_ph (c_ev (z_queue s)) t)|]; discriminate.
    Qed.

    (** ** the thread objects *)
    Lemma thread_less r l s' o : (forall t, l <> NSpin t) -> zstep s (ZThread r l) = Some (s', o) -> mess s' < mess s.
    Proof.
      intros NS ST. cbn [z_step] in ST. destruct (Nat.ltb_spec r N) as [LT|]; [|discriminate]. destruct (nstep (T r) l) as [[Tr es]|] eqn:SR; [|discriminate].
      destruct (hears (hear_task r) P es) as [[P' o']|] eqn:HE; [|discriminate]. injection ST as <- <-. unfold mess. cbn [z_pool z_queue z_thread z_flag].
      assert (OL : n_own_step l \/ exists t c, l = NCall t c) by (destruct l as [t c|t|t|t|]; cbn; eauto; now elim (NS t)).
      pose proof (sum_upd (nmeasure (S m)) T r Tr LT) as CT. fold (cost_t T) (cost_t (fupd T r Tr)) in CT.
      destruct OL as [OL|(t & c & ->)].
      - pose proof (proj2 (nm_step _ _ _ _ _ _ _ _ _ (thread_below r) OL SR)) as LESS.
        enough (cost_p P' (fupd T r Tr) E <= cost_p P T E) by lia.
        destruct (n_step_ret _ _ _ _ _ _ _ _ SR OL (zg_zero _ (G r))) as [(t & v & -> & X & -> & X')|(NI & NR)].
        + destruct t as [|t]; [rewrite (zg_zero _ (G r)) in X; discriminate|]. pose proof (zg_tk _ (G r) (S t)) as K. rewrite X in K. destruct K as (v' & ->). cbn in HE. injection HE as <- <-.
          pose proof (iv_th _ _ _ _ _ I r (S t)) as F. unfold z_th, absI in F. cbn [h_ph] in F. rewrite X in F. destruct F as (t' & c & Y & W & FT). injection Y as <-.
          apply (credit_ret P _ T _ E E t).
          * intros u Ne. unfold resume_thread. destruct (p_thr P t) as [|[ | | | | |]|[ | | | |] ? ? ? [g|] ?|[|]|]; try (repeat split; reflexivity); try (destruct v' as [|[]|]); cbn; unfold set_guard; rewrite ?fupd_other by exact Ne; repeat split.
          * intros r' u Ne. unfold ti. rewrite fupd_eq. destruct (r' =? r) eqn:Er; [|lia]. apply Nat.eqb_eq in Er as ->. rewrite X', fupd_other by congruence. lia.
          * intros; lia.
          * enough (Z0 : credit (resume_thread P t v') (fupd T r Tr) E t = 0) by lia. unfold credit, wants_thread, wants_flag, resume_thread.
            destruct (PoolObjects.th_shape _ _ _ _ W) as [(x & ms & g & p & -> & Z)|(x & ms & g & p & -> & Z)]; rewrite Z; cbn in FT; [destruct FT as [-> | ->]|]; cbn; rewrite fupd_same; reflexivity.
        + assert (TI : forall r' u, ti (fupd T r Tr) r' u <= ti T r' u).
          { intros r' u. unfold ti. rewrite fupd_eq. destruct (r' =? r) eqn:Er; [|lia]. apply Nat.eqb_eq in Er as ->. specialize (NI u). destruct (n_thr (T r) u); [destruct (n_thr Tr u); lia|..]; (destruct (n_thr Tr u); [elim NI; congruence|..]; lia). }
          assert (PP : forall u, p_thr P' u = p_thr P u /\ (forall i, p_guard P' u i = p_guard P u i) /\ (p_run P' u = p_run P u \/ p_run P' u = WRead \/ p_run P' u = WOff)).
          { clear - HE NR SR OL. assert (H : forall P0, (forall u, p_thr P0 u = p_thr P u /\ (forall i, p_guard P0 u i = p_guard P u i) /\ (p_run P0 u = p_run P u \/ p_run P0 u = WRead \/ p_run P0 u = WOff)) -> hears (hear_task r) P0 es = Some (P', o') ->
              forall u, p_thr P' u = p_thr P u /\ (forall i, p_guard P' u i = p_guard P u i) /\ (p_run P' u = p_run P u \/ p_run P' u = WRead \/ p_run P' u = WOff)); [|apply (H P); [auto|exact HE]].
            clear HE SR. revert o'. induction es as [|e es' IH]; intros o' P0 H0 H; cbn [hears] in H; [injection H as <- _; exact H0|].
            destruct (hear_task r P0 e) as [[P1 o1]|] eqn:HE; [|discriminate]. destruct (hears (hear_task r) P1 es') as [[P2 o2]|] eqn:H2; [|discriminate]. injection H as <- _.
            apply (IH (fun t v h => NR t v (or_intror h)) o2 P1); [|exact H2].
            assert (RR : forall q, q = WRead \/ q = WOff -> forall u, p_thr (p_wto P0 r q) u = p_thr P u /\ (forall i, p_guard (p_wto P0 r q) u i = p_guard P u i) /\ (p_run (p_wto P0 r q) u = p_run P u \/ p_run (p_wto P0 r q) u = WRead \/ p_run (p_wto P0 r q) u = WOff)).
            { intros q Hq u. destruct (H0 u) as (Y1 & Y2 & Y3). cbn. split; [exact Y1|]. split; [exact Y2|]. rewrite fupd_eq. destruct (u =? r); [right; exact Hq|exact Y3]. }
            destruct e as [t c|t c v|t v]; cbn [hear_task] in HE.
            - destruct c as [c| |]; try discriminate. destruct t as [|t]; cbn [hear_thread] in HE.
              + destruct c; try discriminate; [injection HE as <- _; apply RR; auto|]. destruct (p_run P0 r); try discriminate. injection HE as <- _. apply RR. auto.
              + destruct (wants_thread P0 t) as [[r' c']|]; [|discriminate]. destruct ((r =? r') && _); [|discriminate]. injection HE as <- _. exact H0.
            - injection HE as <- _. exact H0.
            - destruct v as [v|v]; try discriminate. destruct t as [|t]; cbn [hear_thread] in HE; [injection HE as <- _; exact H0|]. exfalso. apply (NR t (IR v)). now left. }
          apply sumn_le. intros u _. destruct (PP u) as (H1 & H2 & H3). apply credit_le; auto.
      - (* a call *)
        assert (CA : es = [Call t c]).
        { cbn [n_step] in SR. destruct (n_thr (T r) t); try discriminate. destruct (n_entry t c); [|discriminate]. destruct (t =? 0); [destruct (n_task (T r)); try discriminate|]; injection SR as _ <-; reflexivity. }
        subst es. pose proof (heard_calls N HN dflt ext_prio minp maxp P r (T r) (NCall t c) Tr _ P' o' (zs_ms _ _ _ _ _ _ _ WS) SR HE t c (or_introl eq_refl)) as K.
        cbn [n_step] in SR. destruct (n_thr (T r) t) eqn:X; try discriminate. destruct (n_entry t c) as [q|] eqn:Y; [|discriminate].
        destruct K as [(-> & K)|(NT & K)]; [exfalso; destruct K as [-> | ->]; discriminate|]. destruct t as [|t]; [now elim NT|]. cbn [Nat.eqb] in SR. injection SR as <-.
        assert (CC : exists c0, c = IT c0) by (destruct K as [-> |(ms & -> & _)]; eauto). destruct CC as (c0 & ->). cbn in HE.
        destruct (wants_thread P t) as [[r' c']|] eqn:W; [|discriminate]. destruct (Nat.eqb_spec r r') as [<-|]; [|discriminate]. destruct (tcall_dec c0 c') as [<-|]; [|discriminate]. injection HE as <- <-.
        assert (QW : 0 < nw q <= 15) by (destruct K as [E1|(ms & E1 & _)]; injection E1 as ->; injection Y as <-; cbn; lia).
        pose proof (thread_wanter _ _ _ W) as TN.
        assert (NM : nmeasure (S m) (n_go (T r) (S t) q) = nmeasure (S m) (T r) + nw q).
        { unfold nmeasure, n_go. cbn [n_thr n_task]. pose proof (sumn_change (S m) (fun u => nw (n_thr (T r) u)) (fun u => nw (fupd (n_thr (T r)) (S t) q u)) (S t) ltac:(lia)) as Z. cbn beta in Z. rewrite fupd_same, X in Z.
          specialize (Z ltac:(intros u Nu; now rewrite fupd_other)). cbn [nw] in Z. lia. }
        assert (CR : cost_p P (fupd T r (n_go (T r) (S t) q)) E + 16 <= cost_p P T E); [|lia].
        assert (QI : q <> IIdle) by (intros ->; cbn in QW; lia).
        apply (credit_call P T _ E E t 16); [lia| |intros; lia|].
        + intros r' u. unfold ti. rewrite fupd_eq. destruct (r' =? r) eqn:Er; [|lia]. apply Nat.eqb_eq in Er as ->. cbn. rewrite fupd_eq. destruct (Nat.eqb_spec u (S t)) as [->|]; [|lia]. rewrite X. destruct q; lia.
        + unfold credit. rewrite W. unfold ti. rewrite fupd_same, X. cbn [n_thr n_go]. rewrite fupd_same. destruct q; [now elim QI|..]; lia.
    Qed.

    (** ** the event flags *)
    Lemma flag_less r l s' o : zstep s (ZFlag r l) = Some (s', o) -> mess s' < mess s.
    Proof.
      intros ST. cbn [z_step] in ST. destruct (f_step w wf dbg false (E r) l) as [[Er es]|] eqn:SR; [|discriminate].
      destruct (hears (hear_flag N r) P es) as [[P' o']|] eqn:HE; [|discriminate]. injection ST as <- <-. unfold mess. cbn [z_pool z_queue z_thread z_flag].
      assert (FB : r < N -> forall t, m <= t -> f_idle (E r) t) by (intros _ t Ht; apply flag_below; now left).
      assert (OL : f_own_step l \/ exists t c, l = FCall t c) by (destruct l as [t c|t k|t]; cbn; eauto).
      destruct OL as [OL|(t & c & ->)].
      - assert (LT : r < N).
        { destruct (Nat.lt_ge_cases r N) as [|GE]; [assumption|]. exfalso. destruct l as [t c|t k|t]; [destruct OL| |]; cbn [f_step] in SR; rewrite (flag_below r t (or_intror GE)) in SR; discriminate. }
        pose proof (sum_upd (fmeasure m) E r Er LT) as CF. fold (cost_f E) (cost_f (fupd E r Er)) in CF.
        pose proof (proj2 (fmeasure_step w wf dbg false m (E r) l Er es (FB LT) OL SR)) as LESS.
        enough (cost_p P' T (fupd E r Er) <= cost_p P T E) by lia.
        destruct (f_step_ret _ _ _ _ _ _ _ SR OL) as [(t & v & X & -> & X')|(NI & EF)].
        + cbn [hears hear_flag] in HE.
          pose proof (iv_fl _ _ _ _ _ I r t) as F. unfold z_fl, absF, ie_ph in F. cbn [g_ph] in F. rewrite X in F. cbn in F. destruct F as (c & W & FT).
          assert (FT' : fi E r t = 0) by (unfold fi; now rewrite X).
          assert (RF : P' = fst (resume_flag P t v)) by (destruct (resume_flag P t v); injection HE as <- _; reflexivity). clear HE.
          apply (credit_ret P P' T _ E _ t).
          * intros u Ne. subst P'. unfold resume_flag. destruct (p_thr P t) as [|[ | | | | |]|[ | | | |] ? ? ? [g'|] ?|[|]|]; try (repeat split; reflexivity).
            -- destruct (p_run P t) as [| | | |[| | | |] th|]; cbn; rewrite ?fupd_other by exact Ne; repeat split.
            -- destruct v; cbn; rewrite ?fupd_other by exact Ne; repeat split.
            -- destruct (p_guard P t g); cbn; rewrite ?fupd_other by exact Ne; repeat split.
            -- cbn; rewrite ?fupd_other by exact Ne; repeat split.
          * intros; lia.
          * intros r' u Ne. unfold fi. rewrite fupd_eq. destruct (r' =? r) eqn:Er'; [|lia]. apply Nat.eqb_eq in Er' as ->. rewrite X', fupd_other by exact Ne. lia.
          * assert (FI : forall r', fi (fupd E r Er) r' t <= 16) by (intros r'; unfold fi; destruct (f_thr (fupd E r Er r') t); lia). specialize (FI r). subst P'.
            unfold credit, wants_thread, wants_flag, resume_flag.
            destruct (PoolObjects.fl_shape _ _ _ _ _ W) as [g ms Y G'|g Y G'|g Y|th Y L EQ Z|th Y L EQ Z]; cbn in FT.
            -- rewrite Y, G'. destruct FT as [-> |(-> & _)]; cbn; rewrite fupd_same; cbn; lia.
            -- rewrite Y, G'. cbn. rewrite fupd_same. cbn. rewrite FT'. lia.
            -- rewrite Y. cbn. rewrite fupd_same. cbn. lia.
            -- rewrite Y, Z. unfold p_wto. cbn [fst p_thr p_run]. rewrite Y, fupd_same. destruct (t <? N); cbn; lia.
            -- rewrite Y, Z. unfold p_wto. cbn [fst p_thr p_run]. rewrite Y, fupd_same. destruct (t <? N); cbn; lia.
        + assert (PP : P' = P).
          { clear - HE EF. assert (H : forall P0, hears (hear_flag N r) P0 es = Some (P', o') -> P' = P0); [|now apply H]. clear HE. revert o'.
            induction es as [|e es' IH]; intros o' P0 H; cbn [hears] in H; [injection H as <- _; reflexivity|]. destruct (EF e (or_introl eq_refl)) as (t & c & v & ->). cbn [hear_flag] in H.
            destruct (hears (hear_flag N r) P0 es') as [[P2 o2]|] eqn:H2; [|discriminate]. injection H as <- _. exact (IH (fun x h => EF x (or_intror h)) o2 P0 H2). }
          subst P'. apply sumn_le. intros u _. apply credit_le; auto. intros r' u'. unfold fi. rewrite fupd_eq. destruct (r' =? r) eqn:Er'; [|lia]. apply Nat.eqb_eq in Er' as ->.
          specialize (NI u'). destruct (f_thr (E r) u'); [destruct (f_thr Er u'); lia|..]; (destruct (f_thr Er u'); [elim NI; congruence|..]; lia).
      - cbn [f_step] in SR. destruct (f_thr (E r) t) eqn:X; try discriminate. injection SR as <- <-. cbn [hears hear_flag] in HE.
        destruct (wants_flag N P t) as [[r' c']|] eqn:W; [|discriminate]. destruct (Nat.eqb_spec r r') as [<-|]; [|discriminate]. destruct (PoolWholeModel.ecall_dec c c') as [<-|]; [|discriminate].
        cbn in HE. injection HE as <- <-. destruct (flag_wanter _ _ _ W) as (TM & LT).
        pose proof (sum_upd (fmeasure m) E r (f_go (E r) t (FEntry c)) LT) as CF. fold (cost_f E) (cost_f (fupd E r (f_go (E r) t (FEntry c)))) in CF.
        assert (FM : fmeasure m (f_go (E r) t (FEntry c)) = fmeasure m (E r) + 4).
        { unfold fmeasure, f_go. cbn [f_thr]. pose proof (sumn_change m (fun u => fweight (f_thr (E r) u)) (fun u => fweight (fupd (f_thr (E r)) t (FEntry c) u)) t TM) as Z. cbn beta in Z. rewrite fupd_same, X in Z.
          specialize (Z ltac:(intros u Nu; now rewrite fupd_other)). cbn [fweight] in Z. lia. }
        enough (cost_p P T (fupd E r (f_go (E r) t (FEntry c))) + 16 <= cost_p P T E) by lia.
        apply (credit_call P T _ E _ t 16); [exact TM|intros; lia| |].
        + intros r' u. unfold fi. rewrite fupd_eq. destruct (r' =? r) eqn:Er; [|lia]. apply Nat.eqb_eq in Er as ->. cbn. rewrite fupd_eq. destruct (Nat.eqb_spec u t) as [->|]; [|lia]. rewrite X. lia.
        + unfold credit. rewrite W. assert (WT : wants_thread P t = None).
          { unfold wants_thread. destruct (PoolObjects.fl_shape _ _ _ _ _ W) as [g ms Y G'|g Y G'|g Y|th Y L EQ Z|th Y L EQ Z]; rewrite Y; reflexivity. }
          rewrite WT. unfold fi. rewrite fupd_same, X. cbn [f_thr f_go]. rewrite fupd_same. lia.
    Qed.

    (** ** the queue *)
    Lemma queue_less l s' o : z_calm (ZQueue l) -> zstep s (ZQueue l) = Some (s', o) ->
      (exists t d p, c_thr (z_queue s) t = CIdle /\ c_thr (z_queue s') t = CBefore true d p) \/ (exists t g d p, c_thr (z_queue s) t = CBefore g d p /\ c_thr (z_queue s') t = CIdle) \/ mess s' < mess s.
    Proof.
      intros CA ST. cbn [z_step] in ST. destruct (itr_step nat size w wf dbg (z_queue s) l) as [[c' es]|] eqn:SQ; [|discriminate].
      destruct (hears (hear_queue N) P es) as [[P' o']|] eqn:HE; [|discriminate]. injection ST as <- <-. cbn [z_queue].
      destruct (itr_ends _ _ _ _ _ _ _ _ SQ) as [X|[X|(-> & OW)]]; [left; exact X|right; left; exact X|]. right. right.
      cbn [hears] in HE. injection HE as <- <-. unfold mess. cbn [z_pool z_queue z_thread z_flag].
      enough (cost_q c' < cost_q (z_queue s)) by lia.
      refine (proj2 (cmeas_step nat size HM 1 w Hw _ _ _ _ _ _ im_good im_ph iabs im_nofail (ie_good w) ie_ph f_ptn (fun ms => (-1 <= ms)%Z) true
        im_call_one (ie_call_one w wf dbg) (im_ok 1) (itr_e_ok w wf Hw Hwf dbg) (fun _ => True) im_meas fmeasure m 4
        (fun x y z u => im_meas_step m 4 x y z u (le_n 4)) (fun x y z u a _ => ie_meas_step w wf dbg m 4 x y z u (le_n 4) a) (z_queue s) l c' [] queue_sound _ SQ)).
      split; [|exact OW]. apply itr_lab_calm. destruct l as [t d|t|o' l|l|t b]; cbn in CA |- *; auto. destruct OW.
    Qed.
  End At.

  (** ** all together *)
  Lemma hears_fromn {X : Type} (h : pst -> X -> option (pst * pout)) es : (forall P e P' o, fromn P -> h P e = Some (P', o) -> fromn P') ->
    forall P P' o, fromn P -> hears h P es = Some (P', o) -> fromn P'.
  Proof.
    intros H. induction es as [|e es IH]; intros P P' o M HE; cbn in HE.
    - injection HE as <- _. exact M.
    - destruct (h P e) as [[P1 o1]|] eqn:H1; [|discriminate]. destruct (hears h P1 es) as [[P2 o2]|] eqn:H2; [|discriminate]. injection HE as <- _. eauto.
  Qed.
  Lemma fromn_go P P' t : fromn P -> (forall u, u <> t -> p_thr P' u = p_thr P u) -> p_thr P t <> PIdle -> fromn P'.
  Proof. intros F H NI u Hu. destruct (Nat.eq_dec u t) as [->|Ne]; [elim NI; now apply F|]. rewrite H by exact Ne. now apply F. Qed.
  Lemma fromn_thread r P e P' o : fromn P -> hear_thread r P e = Some (P', o) -> fromn P'.
  Proof.
    intros F H. destruct e as [[|t] c|t c v|[|t] v]; cbn [hear_thread] in H.
    - destruct c; try discriminate; [injection H as <- _; exact F|]. destruct (p_run P r); try discriminate. injection H as <- _. exact F.
    - destruct (wants_thread P t) as [[r' c']|]; [|discriminate]. destruct ((r =? r') && _); [|discriminate]. injection H as <- _. exact F.
    - injection H as <- _. exact F.
    - injection H as <- _. exact F.
    - injection H as <- _. unfold resume_thread. destruct (p_thr P t) as [|[ | | | | |]|[ | | | |]|[|]|] eqn:X; try exact F.
      + destruct v as [|[]|]; try exact F; (apply (fromn_go P _ t F); [intros u Ne; cbn; now rewrite fupd_other|congruence]).
      + apply (fromn_go P _ t F); [intros u Ne; cbn; now rewrite fupd_other|congruence].
  Qed.
  Lemma fromn_task r P e P' o : fromn P -> hear_task r P e = Some (P', o) -> fromn P'.
  Proof.
    intros F H. destruct e as [t c|t c v|t v]; cbn [hear_task] in H; [|injection H as <- _; exact F|].
    - destruct c; try discriminate. exact (fromn_thread r P _ P' o F H).
    - destruct v; try discriminate. exact (fromn_thread r P _ P' o F H).
  Qed.
  Lemma fromn_flag r P e P' o : fromn P -> hear_flag N r P e = Some (P', o) -> fromn P'.
  Proof.
    intros F H. destruct e as [t c|t c v|t v]; cbn [hear_flag] in H.
    - destruct (wants_flag N P t) as [[r' c']|]; [|discriminate]. destruct ((r =? r') && _); [|discriminate]. injection H as <- _. exact F.
    - injection H as <- _. exact F.
    - unfold resume_flag in H. destruct (p_thr P t) as [|[ | | | | |]|[ | | | |]|[|]|] eqn:X; try (injection H as <- _; exact F).
      + destruct (p_run P t) as [| | | |[| | | |] th|]; injection H as <- _; exact F.
      + injection H as <- _. destruct v; [|exact F]. apply (fromn_go P _ t F); [intros u Ne; cbn; now rewrite fupd_other|congruence].
      + injection H as <- _. destruct (p_guard P t g); [|exact F]. apply (fromn_go P _ t F); [intros u Ne; cbn; now rewrite fupd_other|congruence].
      + injection H as <- _. apply (fromn_go P _ t F); [intros u Ne; cbn; now rewrite fupd_other|congruence].
  Qed.
  Lemma fromn_queue P e P' o : fromn P -> hear_queue N P e = Some (P', o) -> fromn P'.
  Proof.
    intros F H. destruct e as [t c|t c v|t v]; cbn [hear_queue] in H.
    - destruct (wants N P t); [|discriminate]. destruct (qcall_dec c q); [|discriminate]. injection H as <- _. exact F.
    - injection H as <- _. exact F.
    - injection H as <- _. unfold resume. destruct (p_thr P t) as [|[ | | | | |]|[ | | | |]|[|]|] eqn:X; try exact F.
      + destruct v as [|[] [|]| |]; try exact F; (apply (fromn_go P _ t F); [intros u Ne; cbn; now rewrite fupd_other|congruence]).
      + apply (fromn_go P _ t F); [intros u Ne; cbn; now rewrite fupd_other|congruence].
  Qed.
  Lemma fromn_local P l P' es : fromn P -> p_own_step l -> pstep P l = Some (P', es) -> fromn P'.
  Proof.
    intros F O E. destruct l as [t c|t|t x|r|r th]; cbn in O; try contradiction; cbn [p_step] in E.
    - destruct (p_thr P t) as [|[x ms g p|g ms|g|g|x q|x th]|[ | | | |] r x ms g p|[|] r g|v] eqn:X; try discriminate;
        repeat (match type of E with match ?b with _ => _ end = _ => destruct b eqn:? end; try discriminate); injection E as <- _;
        (apply (fromn_go P _ t F); [intros u Ne; cbn; now rewrite fupd_other|congruence]).
    - destruct (p_thr P t) as [|[y ms g p|g ms|g|g|y q|y th]|[ | | | |] r y ms g p|[|] r g|v] eqn:X; try discriminate;
        repeat (match type of E with match ?b with _ => _ end = _ => destruct b eqn:? end; try discriminate); injection E as <- _;
        (apply (fromn_go P _ t F); [intros u Ne; cbn; now rewrite fupd_other|congruence]).
    - repeat (match type of E with match ?b with _ => _ end = _ => destruct b eqn:? end; try discriminate); injection E as <- _; exact F.
  Qed.
  Lemma fromn_step s l s' o : fromn (z_pool s) -> z_own l -> zstep s l = Some (s', o) -> fromn (z_pool s').
  Proof.
    intros F O ST. destruct l as [l|l|r l|r l]; cbn [z_step] in ST.
    - destruct (local (z_pool s) l); [|discriminate]. destruct (pstep (z_pool s) l) as [[P es]|] eqn:SP; [|discriminate]. injection ST as <- <-. exact (fromn_local _ _ _ _ F O SP).
    - destruct (itr_step nat size w wf dbg (z_queue s) l) as [[c es]|]; [|discriminate]. destruct (hears _ _ es) as [[P o1]|] eqn:HE; [|discriminate]. injection ST as <- <-. exact (hears_fromn _ _ fromn_queue _ _ _ F HE).
    - destruct (r <? N); [|discriminate]. destruct (nstep (z_thread s r) l) as [[T es]|]; [|discriminate]. destruct (hears _ _ es) as [[P o1]|] eqn:HE; [|discriminate]. injection ST as <- <-. exact (hears_fromn _ _ (fromn_task r) _ _ _ F HE).
    - destruct (f_step w wf dbg false (z_flag s r) l) as [[e es]|]; [|discriminate]. destruct (hears _ _ es) as [[P o1]|] eqn:HE; [|discriminate]. injection ST as <- <-. exact (hears_fromn _ _ (fromn_flag r) _ _ _ F HE).
  Qed.
  (** the objects report no calls of the pool *)
  Lemma hears_calls {X : Type} (h : pst -> X -> option (pst * pout)) es : (forall P e P' o t c, h P e = Some (P', o) -> ~ In (Call t c) o) ->
    forall P P' o t c, hears h P es = Some (P', o) -> ~ In (Call t c) o.
  Proof.
    intros H. induction es as [|e es IH]; intros P P' o t c HE; cbn in HE.
    - injection HE as _ <-. auto.
    - destruct (h P e) as [[P1 o1]|] eqn:H1; [|discriminate]. destruct (hears h P1 es) as [[P2 o2]|] eqn:H2; [|discriminate]. injection HE as _ <-. intros C. apply in_app_or in C as [C|C]; [exact (H _ _ _ _ _ _ H1 C)|exact (IH _ _ _ _ _ H2 C)].
  Qed.
  Lemma task_calls r P e P' o t c : hear_task r P e = Some (P', o) -> ~ In (Call t c) o.
  Proof.
    intros H. enough (X : o = []) by (subst; auto). destruct e as [u d|u d v|u v]; cbn [hear_task] in H; [|injection H as _ <-; reflexivity|].
    - destruct d as [d| |]; try discriminate. destruct u as [|u]; cbn [hear_thread] in H.
      + destruct d; try discriminate; [injection H as _ <-; reflexivity|]. destruct (p_run P r); try discriminate. injection H as _ <-; reflexivity.
      + destruct (wants_thread P u) as [[r' c']|]; [|discriminate]. destruct ((r =? r') && _); [|discriminate]. injection H as _ <-; reflexivity.
    - destruct v; try discriminate. destruct u; cbn [hear_thread] in H; injection H as _ <-; reflexivity.
  Qed.
  Lemma flag_calls r P e P' o t c : hear_flag N r P e = Some (P', o) -> ~ In (Call t c) o.
  Proof.
    intros H. destruct e as [u d|u d v|u v]; cbn [hear_flag] in H.
    - destruct (wants_flag N P u) as [[r' c']|]; [|discriminate]. destruct ((r =? r') && _); [|discriminate]. injection H as _ <-. auto.
    - injection H as _ <-. auto.
    - unfold resume_flag in H. destruct (p_thr P u) as [|[ | | | | |]|[ | | | |]|[|]|] eqn:X; try (injection H as _ <-; cbn; tauto).
      destruct (p_run P u) as [| | | |[| | | |] th|]; injection H as _ <-; cbn; intuition discriminate.
  Qed.
  Lemma queue_calls P e P' o t c : hear_queue N P e = Some (P', o) -> ~ In (Call t c) o.
  Proof.
    intros H. destruct e as [u d|u d v|u v]; cbn [hear_queue] in H.
    - destruct (wants N P u); [|discriminate]. destruct (qcall_dec d q); [|discriminate]. injection H as _ <-. auto.
    - injection H as _ <-. auto.
    - injection H as _ <-. destruct (p_thr P u); cbn; intuition discriminate.
  Qed.

  Lemma z_cost s A Q l s' o : zsim s A Q -> fromn (z_pool s) -> z_calm l -> z_own l -> zstep s l = Some (s', o) ->
    exists Ls A' Q' es, exec sstep (PoolStackModel.mkT A Q) Ls = Some (PoolStackModel.mkT A' Q', es) /\ zsim s' A' Q' /\ (forall x, In x Ls -> t_own_step x) /\ (Ls <> [] \/ mess s' < mess s).
  Proof.
    intros WS FN CA OW ST.
    assert (OBJ : (forall pl, l <> ZPool pl) -> (forall t c, ~ In (Call t c) o) ->
      (mess s' < mess s \/ exists t, (c_thr (z_queue s) t = CIdle /\ exists d p, c_thr (z_queue s') t = CBefore true d p) \/ ((exists g d p, c_thr (z_queue s) t = CBefore g d p) /\ c_thr (z_queue s') t = CIdle)) ->
      exists Ls A' Q' es, exec sstep (PoolStackModel.mkT A Q) Ls = Some (PoolStackModel.mkT A' Q', es) /\ zsim s' A' Q' /\ (forall x, In x Ls -> t_own_step x) /\ (Ls <> [] \/ mess s' < mess s)).
    { intros NP NC MS. destruct (z_one N HN dflt ext_prio minp maxp w wf Hw Hwf dbg s A Q l s' o WS CA ST) as (Ls & A' & Q' & es & ew & X & WS' & LA & HI).
      exists Ls, A', Q', es. split; [exact X|]. split; [exact WS'|]. split.
      - apply (own_labels N dflt ext_prio Ls _ _ _ X). intros t c C. exfalso. apply (NC t c). rewrite <- HI. apply filter_In. split; [|reflexivity]. now apply (late_calls _ _ _ _ LA).
      - destruct MS as [MS|(t & MS)]; [now right|]. left. intros ->. cbn in X. injection X as <- <- <-.
        pose proof (r_thr _ _ _ _ _ _ _ _ _ (s_r _ _ _ _ _ _ _ _ _ _ _ _ _ (zs_s _ _ _ _ _ _ _ WS)) t) as R1.
        pose proof (r_thr _ _ _ _ _ _ _ _ _ (s_r _ _ _ _ _ _ _ _ _ _ _ _ _ (zs_s _ _ _ _ _ _ _ WS')) t) as R2.
        destruct MS as [(M1 & d & p & M2)|((g & d & p & M1) & M2)]; rewrite M1 in R1; rewrite M2 in R2; cbn in R1, R2; congruence. }
    destruct l as [l|l|r l|r l].
    - clear OBJ. destruct WS as [R I IQ HS HQ GT GF MS RE]. cbn [z_step] in ST. destruct (local (z_pool s) l) eqn:LO; [|discriminate]. destruct (pstep (z_pool s) l) as [[P' es]|] eqn:SP; [|discriminate]. injection ST as <- <-.
      destruct (PoolObjects.local_step N HN dflt ext_prio w _ _ _ Q A l P' es I R IQ LO SP) as (OQ & A1 & SA & [K1 K2 K3 K4]).
      assert (X : exec sstep (PoolStackModel.mkT A Q) [TPool l] = Some (PoolStackModel.mkT A1 Q, es ++ [])) by (cbn [exec PoolStackModel.t_step t_pool t_queue]; rewrite OQ, SA; reflexivity).
      exists [TPool l], A1, Q, (es ++ []). split; [exact X|]. split; [|split; [intros x [<-|[]]; exact OW|left; discriminate]].
      constructor; auto; [exact (ms_local _ _ _ _ _ _ _ MS CA SP)|]. destruct RE as (q0 & Ls0 & es0 & F & EX). exists q0, (Ls0 ++ [TPool l]), (es0 ++ es ++ []). split; [exact F|]. now rewrite exec_app, EX, X.
    - apply OBJ; [discriminate| |].
      + cbn [z_step] in ST. destruct (itr_step nat size w wf dbg (z_queue s) l) as [[c es]|]; [|discriminate]. destruct (hears _ _ es) as [[P o1]|] eqn:HE; [|discriminate]. injection ST as <- <-. intros t d. exact (hears_calls _ _ queue_calls _ _ _ t d HE).
      + destruct (queue_less s A Q WS FN l s' o CA ST) as [(t & d & p & M1 & M2)|[(t & g & d & p & M1 & M2)|M]]; [right; exists t; left; eauto|right; exists t; right; eauto|now left].
    - apply OBJ; [discriminate| |].
      + cbn [z_step] in ST. destruct (r <? N); [|discriminate]. destruct (nstep (z_thread s r) l) as [[T es]|]; [|discriminate]. destruct (hears _ _ es) as [[P o1]|] eqn:HE; [|discriminate]. injection ST as <- <-. intros t d. exact (hears_calls _ _ (task_calls r) _ _ _ t d HE).
      + left. apply (thread_less s A Q WS FN r l s' o); [|exact ST]. intros t ->. exact OW.
    - apply OBJ; [discriminate| |].
      + cbn [z_step] in ST. destruct (f_step w wf dbg false (z_flag s r) l) as [[e es]|]; [|discriminate]. destruct (hears _ _ es) as [[P o1]|] eqn:HE; [|discriminate]. injection ST as <- <-. intros t d. exact (hears_calls _ _ (flag_calls r) _ _ _ t d HE).
      + left. exact (flag_less s A Q WS FN r l s' o ST).
  Qed.
  Lemma z_costs ls : forall s A Q s' o, zsim s A Q -> fromn (z_pool s) -> (forall l, In l ls -> z_calm l /\ z_own l) -> exec zstep s ls = Some (s', o) ->
    exists Ls x es, exec sstep (PoolStackModel.mkT A Q) Ls = Some (x, es) /\ (forall l, In l Ls -> t_own_step l) /\ length ls <= (most + 1) * length Ls + mess s.
  Proof.
    induction ls as [|l ls IH]; intros s A Q s' o WS FN OK EX; cbn [exec] in EX.
    - exists [], (PoolStackModel.mkT A Q), []. split; [reflexivity|]. split; [intros l []|cbn; lia].
    - destruct (zstep s l) as [[s1 o1]|] eqn:E1; [|discriminate]. destruct (exec zstep s1 ls) as [[s2 o2]|] eqn:E2; [|discriminate]. injection EX as <- <-.
      destruct (OK l (or_introl eq_refl)) as (C1 & O1).
      destruct (z_cost s A Q l s1 o1 WS FN C1 O1 E1) as (L1 & A1 & Q1 & es1 & X1 & WS1 & OL1 & LE1).
      destruct (IH s1 A1 Q1 s2 o2 WS1 (fromn_step _ _ _ _ FN O1 E1) (fun x h => OK x (or_intror h)) E2) as (L2 & x2 & es2 & X2 & OL2 & LE2).
      exists (L1 ++ L2), x2, (es1 ++ es2). split; [now rewrite exec_app, X1, X2|]. split; [intros y Hy; apply in_app_or in Hy as [Hy|Hy]; auto|].
      rewrite app_length. cbn [length]. pose proof (mess_bound s1). destruct LE1 as [NE|LE1]; [destruct L1 as [|y L1]; [congruence|]; cbn [length]; nia|nia].
  Qed.
  Theorem itron_bounded_work c0 ls0 s o0 ls s' o : z_filled N w wf dbg c0 -> (forall l, In l ls0 -> z_calm l) -> exec zstep (z_init dflt c0) ls0 = Some (s, o0) ->
    (forall t, n <= t -> z_idle s t) -> (forall l, In l ls -> z_calm l /\ z_own l) -> exec zstep s ls = Some (s', o) ->
    length ls <= (108 * m + 19 * m * N + 20 * N + 1) * (293 * n + 111 * N + 1).
  Proof.
    intros F CA E0 ID OK EX. destruct (itron_refines N HN dflt ext_prio minp maxp w wf Hw Hwf dbg c0 ls0 s o0 F CA E0) as (q0 & Ls0 & A & Q & es0 & ew & F0 & X0 & _ & _ & WS).
    destruct (z_costs ls s A Q s' o WS ID OK EX) as (Ls & x & es & X & OL & LE).
    assert (B : length Ls <= 293 * n + 111 * N).
    { apply (stack_bounded_work N HN dflt ext_prio q0 n Ls0 _ es0 Ls x es F0 X0); [|exact OL|exact X].
      intros t Ht. unfold PoolStackModel.t_idle. cbn. rewrite (rl_thr _ _ _ _ (zs_rel _ _ _ _ _ _ _ WS) t). unfold abs_thr. now rewrite (ID t Ht : p_thr _ _ = _). }
    pose proof (mess_bound s). fold most. nia.
  Qed.
End B.
