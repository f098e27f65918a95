(** ThreadPool over the whole StdCpp stack: the calls in progress and the pool threads make a bounded number of steps. *)
From Coq Require Import List ZArith Bool Lia Arith.
Import ListNotations.
From Verif Require Import Spec.OSError Spec.Linear Spec.EventFlagSpec Spec.MessageQueueSpec Spec.ThreadSpec OS.Sched OS.MessageQueueModel OS.MessageQueueProofs
  OS.EventFlagModel OS.EventFlagProofs OS.MutexModel OS.QueueStackModel OS.QueueStackProofs OS.QueueStackInst Spec.ThreadPoolSpec OS.ThreadPoolModel OS.ThreadPoolProofs
  OS.ThreadPoolLiveness OS.PoolStackModel OS.PoolStackProofs OS.ThreadModel OS.ThreadProofs OS.PoolWholeModel OS.PoolWholeProofs.
From Verif Require OS.PoolItronBound.
Local Open Scope nat_scope.

(** ** the steps of a StdCppThread *)
Definition t_asleep_ok (T : ThreadModel.tst) : Prop := forall t c, t_thr T t = TAsleep c -> c = TDestroy \/ exists ms, c = TWait ms.
Lemma t_asleep_step T l T' es : t_asleep_ok T -> t_step T l = Some (T', es) -> t_asleep_ok T'.
Proof.
  intros H E t c. destruct l; cbn in E; repeat match type of E with context[match ?x with _ => _ end] => destruct x eqn:?; try discriminate end; injection E as <- _;
    cbn; rewrite ?fupd_eq; try (destruct (Nat.eqb t _); [intros X; try discriminate X; injection X as <-; eauto|apply H]); try apply H.
  destruct (t_thr T t); cbn; discriminate.
Qed.
(** the step of a caller either returns, or leaves it inside and reports no return *)
Lemma t_step_ret T l T' es : t_step T l = Some (T', es) -> t_own_step l ->
  (exists t v, l = TStep t /\ t_thr T t = TRet v /\ es = [Ret t v] /\ t_thr T' = fupd (t_thr T) t TIdle) \/
  ((forall u, t_thr T u <> TIdle -> t_thr T' u <> TIdle) /\ forall t v, ~ In (Ret (S t) v) es).
Proof.
  intros E O. destruct l as [t c|t|t|t| |]; cbn in O; try contradiction; cbn [t_step] in E.
  - assert (U : forall q u, t_thr T u <> TIdle -> q <> TIdle -> fupd (t_thr T) t q u <> TIdle) by (intros q u H Q; rewrite fupd_eq; destruct (u =? t); auto).
    destruct (t_thr T t) as [|c|c| | |r] eqn:X; try discriminate; [..|left; exists t, r; injection E as <- <-; auto]; right;
      repeat (match type of E with match ?b with _ => _ end = _ => destruct b eqn:? end; try discriminate); injection E as <- <-;
      (split; [intros u NI; cbn [t_thr t_go]; apply U; [exact NI|discriminate]|cbn [In]; intros ? ? ?; intuition discriminate]).
  - destruct (t_thr T t) as [|c|c| | |r] eqn:X; try discriminate. right.
    repeat (match type of E with match ?b with _ => _ end = _ => destruct b eqn:? end; try discriminate); injection E as <- <-;
      (split; [intros u NI; cbn [t_thr t_go]; rewrite fupd_eq; destruct (u =? t); [discriminate|exact NI]|cbn [In]; intros ? ? ?; intuition discriminate]).
  - right. repeat (match type of E with match ?b with _ => _ end = _ => destruct b eqn:? end; try discriminate); injection E as <- <-.
    all: split; [intros u NI; cbn [t_thr]; auto|cbn [In]; intros ? ? ?; intuition discriminate].
    destruct (t_thr T u); cbn; congruence.
Qed.
(** ** the steps of a StdCppEventFlag *)
Lemma e_step_ret w dbg e l e' es : e_step w dbg false e l = Some (e', es) -> EventFlagModel.own_step l ->
  (exists t v, e_thr e t = ERet v /\ es = [Ret t v] /\ e_thr e' = fupd (e_thr e) t EIdle) \/
  ((forall u, e_thr e u <> EIdle -> e_thr e' u <> EIdle) /\ forall x, In x es -> exists t c v, x = Eff t c v).
Proof.
  intros E O. destruct l as [t c|t|t|t]; cbn in O; try contradiction; cbn [e_step] in E.
  - assert (U : forall q u, e_thr e u <> EIdle -> q <> EIdle -> fupd (e_thr e) t q u <> EIdle) by (intros q u H Q; rewrite fupd_eq; destruct (u =? t); auto).
    destruct (e_thr e t) as [|c|c o|c o|c o|c o tm|c o tm|r|r|r] eqn:X; try discriminate; [..|left; exists t, r; injection E as <- <-; auto]; right; unfold wait_success in E;
      repeat (match type of E with match ?b with _ => _ end = _ => destruct b eqn:? end; try discriminate); injection E as <- <-.
    all: try (split; [intros u NI; cbn [e_thr]; apply U; [exact NI|discriminate]|cbn [In]; intros x Hx; intuition (subst; eauto)]).
    split; [|intros x []]. intros u NI. cbn [e_thr]. rewrite fupd_eq. destruct (u =? t); [discriminate|]. destruct (e_thr e u); cbn; congruence.
  - right. destruct (e_thr e t) as [|c|c o|c o|c o|c o tm|c o tm|r|r|r] eqn:X; try discriminate. 
    repeat (match type of E with match ?b with _ => _ end = _ => destruct b eqn:? end; try discriminate). injection E as <- <-.
    split; [intros u NI; cbn [e_thr]; rewrite fupd_eq; destruct (u =? t); [discriminate|exact NI]|intros x []].
Qed.

(** ** the steps of the queue that the atomic queue makes too *)
Lemma std_ends N M w dbg c l c' es : std_step nat (Z.of_nat N) M w dbg c l = Some (c', es) -> (forall t, l <> CEvt (LSpurious t)) ->
  (exists t d p, c_thr c t = CIdle /\ c_thr c' t = CBefore true d p) \/ (exists t g d p, c_thr c t = CBefore g d p /\ c_thr c' t = CIdle) \/
  es = [] /\ cown nat mlab elab se_own l.
Proof.
  unfold std_step. intros E NS. destruct l as [t d|t|o l|l|t b]; cbn [c_step] in E.
  - left. destruct (c_thr c t) eqn:X; try discriminate. injection E as <- <-. exists t. do 2 eexists. split; [exact X|]. cbn. now rewrite fupd_same.
  - right. destruct (c_thr c t) as [|g d p|g d p] eqn:X; try discriminate. destruct g, p; try discriminate; injection E as <- <-; try (right; split; [reflexivity|exact I]);
      left; exists t; do 3 eexists; (split; [exact X|]; cbn; now rewrite fupd_same).
  - right; right. match type of E with match ?b with _ => _ end = _ => destruct b as [[? ?]|]; [|discriminate] end. destruct (hear _ _ _ _); [|discriminate]. injection E as <- <-. split; [reflexivity|exact I].
  - right; right. match type of E with match ?b with _ => _ end = _ => destruct b as [[? ?]|]; [|discriminate] end. destruct (hear _ _ _ _); [|discriminate]. injection E as <- <-. split; [reflexivity|].
    destruct l as [u x|u|u|u]; try exact I. now elim (NS u).
  - right; right. destruct (c_thr c t) as [|g d p|g d p] eqn:X; try discriminate. destruct d as [v ms|[|] ms| |]; try discriminate; destruct p; try discriminate; injection E as <- <-; (split; [reflexivity|exact I]).
Qed.

Section B.
  Variable N : nat.
  Hypothesis HN : (Z.of_nat N < 2 ^ 64 - 1)%Z.
  Variable dflt : Z.
  Variable ext_prio : nat -> Z.
  Variable M : nat.
  Hypothesis HM1 : 1 <= M.
  Variable w : Z.
  Hypothesis Hw : (2 <= w)%Z.
  Variable dbg : bool.
  Notation size := (Z.of_nat N).
  Let HM : (0 <= size < 2 ^ 64 - 1)%Z.
  Proof. lia. Qed.
  Let w0 : (0 < w)%Z.
  Proof. lia. Qed.
  Notation pstep := (p_step N dflt ext_prio).
  Notation sstep := (PoolStackModel.t_step N dflt ext_prio).
  Notation wstep := (w_step N dflt ext_prio M w dbg).
  Notation wsim := (wsim N w).
  Notation ssound := (sound nat size mst est sm_good sm_ph x_owner (se_good w) se_ph e_pat (fun _ => True) true).
  Variable n : nat.
  Notation m := (n + N).

  (** ** the measure *)
  Definition fromn (P : pst) : Prop := forall t, n <= t -> p_thr P t = PIdle.
  Notation CR := (2 * m + 16).
  Definition ti (T : nat -> ThreadModel.tst) r u : nat := match t_thr (T r) u with TIdle => CR | _ => 0 end.
  Definition fi (E : nat -> est) r t : nat := match e_thr (E r) t with EIdle => CR | _ => 0 end.
  Definition again (q : ppc) : nat := match q with PAt (PRelease _) => CR | _ => 0 end.
  Definition credit P T E t : nat :=
    match wants_thread P t with
    | Some (r, _) => ti T r (S t)
    | None => match wants_flag N P t with Some (r, _) => fi E r t | None => 0 end
    end + again (p_thr P t).
  Definition cost_q (c : std_st nat) : nat := cmeas nat mst est sm_meas measure m (8 + 2 * m) c.
  Definition cost_t (T : nat -> ThreadModel.tst) : nat := sumn (fun r => tm (S m) (T r)) N.
  Definition cost_f (E : nat -> est) : nat := sumn (fun r => measure m (E r)) N.
  Definition cost_p P T E : nat := sumn (credit P T E) m.
  Definition mess (s : wst) : nat := cost_q (w_queue s) + cost_t (w_thread s) + cost_f (w_flag s) + cost_p (w_pool s) (w_thread s) (w_flag s).

  Definition most : nat := 30 * m * m + 160 * m + N * (4 * m * m + 22 * m + 18).
  Lemma mess_bound s : mess s <= most.
  Proof.
    assert (B1 : cost_q (w_queue s) <= 26 * m * m + 128 * m).
    { unfold cost_q, cmeas. pose proof (sm_bound M HM1 m (c_mtx (w_queue s) OSnd)). pose proof (sm_bound M HM1 m (c_mtx (w_queue s) ORcv)). pose proof (sm_bound M HM1 m (c_mtx (w_queue s) ORB)).
      pose proof (measure_bound m (c_ev (w_queue s))).
      assert (BD : sumn (fun t => rank nat (c_thr (w_queue s) t)) m <= m * 12) by (apply sumn_bound; intros k _; destruct (c_thr (w_queue s) k) as [|g c p|g c p]; cbn; [|destruct p; cbn..]; lia). nia. }
    assert (B2 : cost_t (w_thread s) <= N * ((m + 1) * (2 * m + 10) + 2 * m + 8)).
    { apply sumn_bound. intros r _. unfold tm. assert (sumn (fun t => tw (S m) (t_thr (w_thread s r) t)) (S m) <= S m * (2 * S m + 8)) by (apply sumn_bound; intros k _; destruct (t_thr (w_thread s r) k) as [|[]|[]| | |]; cbn; lia).
      assert (nw (S m) (w_thread s r) <= 2 * S m + 6) by (unfold nw; destruct (t_nat (w_thread s r)), (t_active (w_thread s r)), (t_end (w_thread s r)); cbn; lia). nia. }
    assert (B3 : cost_f (w_flag s) <= N * (m * (8 + 2 * m))) by (apply sumn_bound; intros r _; apply measure_bound).
    assert (B4 : cost_p (w_pool s) (w_thread s) (w_flag s) <= m * (CR + CR)).
    { apply sumn_bound. intros t _. unfold credit. assert (again (p_thr (w_pool s) t) <= CR) by (destruct (p_thr (w_pool s) t) as [|[]| | |]; cbn [again]; lia).
      assert (X : forall r u, ti (w_thread s) r u <= CR) by (intros r u; unfold ti; destruct (t_thr (w_thread s r) u); lia).
      assert (Y : forall r u, fi (w_flag s) r u <= CR) by (intros r u; unfold fi; destruct (e_thr (w_flag s r) u); lia).
      destruct (wants_thread (w_pool s) t) as [[r c]|]; [specialize (X r (S t)); lia|]. destruct (wants_flag N (w_pool s) t) as [[r c]|]; [specialize (Y r t); lia|lia]. }
    unfold mess, most. clear HM w0 HN. nia.
  Qed.

  Lemma credit_le P P' T T' E E' t : (p_thr P' t = p_thr P t) -> (forall i, p_guard P' t i = p_guard P t i) ->
    (p_run P' t = p_run P t \/ p_run P' t = WRead \/ p_run P' t = WOff) ->
    (forall r u, ti T' r u <= ti T r u) -> (forall r u, fi E' r u <= fi E r u) -> credit P' T' E' t <= credit P T E t.
  Proof.
    intros H1 H2 H3 H4 H5. unfold credit. rewrite H1, (wants_thread_ext P P' t H1).
    destruct (wants_thread P t) as [[r c]|] eqn:W; [specialize (H4 r (S t)); lia|].
    destruct H3 as [H3|H3].
    - rewrite (wants_flag_ext N P P' t H1 H2 H3). destruct (wants_flag N P t) as [[r c]|]; [specialize (H5 r t); lia|lia].
    - assert (X : wants_flag N P' t = None \/ wants_flag N P' t = wants_flag N P t).
      { unfold wants_flag. rewrite H1. destruct (p_thr P t) as [|[ | | | | |]|[ | | | |]|[|]|]; rewrite ?H2; auto. left. destruct (t <? N); [|reflexivity]. destruct H3 as [-> | ->]; reflexivity. }
      destruct X as [-> | ->]; [lia|]. destruct (wants_flag N P t) as [[r c]|]; [specialize (H5 r t); lia|lia].
  Qed.
  (** a call of an object uses up the credit *)
  Lemma credit_call P T T' E E' t k : t < m -> (forall r u, ti T' r u <= ti T r u) -> (forall r u, fi E' r u <= fi E r u) ->
    credit P T' E' t + k <= credit P T E t -> cost_p P T' E' + k <= cost_p P T E.
  Proof.
    intros L H1 H2 H3. unfold cost_p. rewrite (sumn_split m (credit P T' E') t L), (sumn_split m (credit P T E) t L).
    assert (X : sumn (fun u => if u =? t then 0 else credit P T' E' u) m <= sumn (fun u => if u =? t then 0 else credit P T E u) m); [|lia].
    apply sumn_le. intros u _. destruct (u =? t); [lia|]. apply credit_le; auto.
  Qed.
  (** ... and a return may give some back, in the pool only *)
  Lemma credit_ret P P' T T' E E' t : (forall u, u <> t -> p_thr P' u = p_thr P u /\ (forall i, p_guard P' u i = p_guard P u i) /\ p_run P' u = p_run P u) ->
    (forall r u, u <> t -> ti T' r (S u) <= ti T r (S u)) -> (forall r u, u <> t -> fi E' r u <= fi E r u) ->
    credit P' T' E' t <= credit P T E t -> cost_p P' T' E' <= cost_p P T E.
  Proof.
    intros HP H1 H2 H3. apply sumn_le. intros u _. destruct (Nat.eq_dec u t) as [->|Ne]; [exact H3|]. destruct (HP u Ne) as (A & B & C).
    unfold credit. rewrite A, (wants_thread_ext P P' u A), (wants_flag_ext N P P' u A B C).
    destruct (wants_thread P u) as [[r c]|]; [specialize (H1 r u Ne); lia|]. destruct (wants_flag N P u) as [[r c]|]; [specialize (H2 r u Ne); lia|lia].
  Qed.
  Lemma sum_upd {X : Type} (g : X -> nat) (f : nat -> X) r x : r < N -> sumn (fun u => g (fupd f r x u)) N + g (f r) = sumn (fun u => g (f u)) N + g x.
  Proof.
    intros L. pose proof (sumn_change N (fun u => g (f u)) (fun u => g (fupd f r x u)) r L) as Y. cbn beta in Y. rewrite fupd_same in Y. apply Y. intros u Ne. now rewrite fupd_other.
  Qed.

  (** a reachable state *)
  Record wreach (s : wst) (A : pst) (Q : qst nat) : Prop := {
    wr_sim : wsim s A Q;
    wr_asleep : forall r, t_asleep_ok (w_thread s r);
    wr_reach : exists q0 Ls es, filled N q0 /\ exec sstep (PoolStackModel.t_init dflt q0) Ls = Some (PoolStackModel.mkT A Q, es) }.
  (** ** who is where *)
  Section At.
    Variables (s : wst) (A : pst) (Q : qst nat).
    Hypothesis WS : wreach s A Q.
    Hypothesis FN : fromn (w_pool s).
    Notation P := (w_pool s).
    Notation T := (w_thread s).
    Notation E := (w_flag s).
    Let SI : wsim s A Q.
    Proof. exact (wr_sim _ _ _ WS). Qed.
    Let I : inv N w P T E.
    Proof. exact (ws_inv _ _ _ _ _ SI). Qed.
    Let RL : rel P T E A.
    Proof. exact (ws_rel _ _ _ _ _ SI). Qed.

    Lemma thread_wanter t r c : wants_thread P t = Some (r, c) -> t < n.
    Proof. intros W. destruct (Nat.lt_ge_cases t n) as [|X]; [assumption|]. unfold wants_thread in W. rewrite (FN t X) in W. discriminate. Qed.
    Lemma flag_wanter t r c : wants_flag N P t = Some (r, c) -> t < m /\ r < N.
    Proof.
      intros W. split.
      - destruct (Nat.lt_ge_cases t m) as [|X]; [assumption|]. unfold wants_flag in W. rewrite (FN t) in W by lia. destruct (Nat.ltb_spec t N); [lia|discriminate].
      - assert (QI : q_thr Q t = QIdle).
        { apply (inq_idle N P Q t (ws_inq _ _ _ _ _ SI)). unfold wants_flag in W. unfold wants. destruct (p_thr P t) as [|[ | | | | |]|[ | | | |]|[|]|]; try discriminate; try reflexivity.
          destruct (t <? N); [|reflexivity]. destruct (p_run P t) as [| | | |[| | | |] th|]; try discriminate; reflexivity. }
        destruct (wr_reach _ _ _ WS) as (q0 & Ls & es & F & EX). destruct (refines N HN dflt ext_prio q0 Ls _ es F EX) as (ls' & a & EA & SA).
        destruct (reach N dflt ext_prio ls' a es EA) as (own & f & sg & IV & _).
        destruct (agree_thr N _ _ t SA QI) as (A1 & _ & A3). cbn in A1, A3.
        assert (GU : forall g, p_guard P t g = Some r -> (forall r' x ms g' p, p_thr P t <> PHold SGo r' x ms g' p) -> r < N).
        { intros g Hg NG. apply (ThreadPoolProofs.iv_guard _ _ _ _ _ IV t g r). rewrite A3, (rl_guard _ _ _ _ RL t g). unfold abs_guard. destruct (p_thr P t) as [|[ | | | | |]|[ | | | |]|[|]|] eqn:X; try exact Hg. now elim (NG r0 x ms g0 p). }
        destruct (fl_shape _ _ _ _ _ W) as [g ms Y G'|g Y G'|g Y|th Y L EQ Z|th Y L EQ Z]; subst; try assumption.
        + apply (GU g G'). intros. rewrite Y. discriminate.
        + apply (GU g G'). intros. rewrite Y. discriminate.
        + pose proof (ThreadPoolProofs.iv_thr _ _ _ _ _ IV t) as CO. unfold client_ok in CO. rewrite A1, (rl_thr _ _ _ _ RL t) in CO. unfold abs_thr in CO. rewrite Y in CO.
          destruct (fl_done (w_flag s) r t); destruct CO as (CO & _); exact (proj1 (ThreadPoolProofs.iv_guard _ _ _ _ _ IV t g r CO)).
    Qed.
    Lemma thread_zero r : t_thr (T r) 0 = TIdle.
    Proof.
      pose proof (iv_th _ _ _ _ _ I r 0) as X. destruct (t_thr (T r) 0) as [|c|c| | |v]; cbn in X; try reflexivity; exfalso; try exact X.
      - destruct X as (t & Y & _). discriminate.
      - destruct X as (t & Y & _). discriminate.
      - destruct X as (t & c & Y & _). discriminate.
    Qed.
    Lemma thread_good r : tgood (S m) (T r).
    Proof.
      split; [|exact (wr_asleep _ _ _ WS r)]. intros u Hu. unfold ThreadModel.t_idle. destruct u as [|t]; [lia|]. pose proof (iv_th _ _ _ _ _ I r (S t)) as X.
      destruct (t_thr (T r) (S t)) as [|c|c| | |v]; cbn in X; try reflexivity; exfalso; try exact X.
      - destruct X as (t' & Y & W). injection Y as <-. apply thread_wanter in W. lia.
      - destruct X as (t' & Y & W). injection Y as <-. apply thread_wanter in W. lia.
      - destruct X as (t' & c & Y & W & _). injection Y as <-. apply thread_wanter in W. lia.
    Qed.
    Lemma flag_at r t : e_thr (E r) t <> EIdle -> exists c, wants_flag N P t = Some (r, c).
    Proof.
      intros NI. pose proof (iv_fl _ _ _ _ _ I r t) as X. unfold se_ph in X. destruct (e_thr (E r) t) as [|c|c o|c o|c o|c o tm|c o tm|v|v|v]; [now elim NI|..]; cbn in X; eauto; destruct X as (c' & W & _); eauto.
    Qed.
    Lemma flag_below r t : m <= t \/ N <= r -> e_thr (E r) t = EIdle.
    Proof.
      intros H. destruct (e_thr (E r) t) eqn:X; [reflexivity|..]; exfalso; (destruct (flag_at r t) as (c' & W); [congruence|]; apply flag_wanter in W; lia).
    Qed.
    Lemma queue_sound : ssound m (w_queue s).
    Proof.
      split; [destruct (ws_q _ _ _ _ _ SI) as (qe & HQ); exists Q, qe; split; [exact (ws_s _ _ _ _ _ SI)|exact HQ]|].
      intros t Ht. unfold c_idle. pose proof (r_thr _ _ _ _ _ _ _ _ _ (s_r _ _ _ _ _ _ _ _ _ _ _ _ _ (ws_s _ _ _ _ _ SI)) t) as R.
      assert (W : wants N P t = None). { unfold wants. rewrite (FN t) by lia. destruct (Nat.ltb_spec t N); [lia|reflexivity]. }
      rewrite (inq_idle N P Q t (ws_inq _ _ _ _ _ SI) W) in R. destruct (c_thr (w_queue s) t) as [|g d p|g d p]; [reflexivity|discriminate|]. cbn in R.
      destruct (uses g d p) as [[o mc|mc]|]; [destruct (sm_ph (c_mtx (w_queue s) o) t)|destruct (se_ph (c_ev (w_queue s)) t)|]; discriminate.
    Qed.

    (** ** the thread objects *)
    Lemma thread_less r l s' o : w_own (WThread r l) -> wstep s (WThread r l) = Some (s', o) -> mess s' < mess s.
    Proof.
      intros NS ST. cbn [w_step] in ST. destruct (Nat.ltb_spec r N) as [LT|]; [|discriminate]. destruct (ThreadModel.t_step (T r) l) as [[Tr es]|] eqn:SR; [|discriminate].
      destruct (hears (hear_thread r) P es) as [[P' o']|] eqn:HE; [|discriminate]. injection ST as <- <-. unfold mess. cbn [w_pool w_queue w_thread w_flag].
      assert (OL : ThreadModel.t_own_step l \/ exists t c, l = TCall t c) by (destruct l as [t c|t|t|t| |]; cbn in *; eauto; contradiction).
      pose proof (sum_upd (tm (S m)) T r Tr LT) as CT. fold (cost_t T) (cost_t (fupd T r Tr)) in CT.
      destruct OL as [OL|(t & c & ->)].
      - pose proof (proj2 (tm_step _ _ _ _ _ (thread_good r) OL SR)) as LESS.
        enough (cost_p P' (fupd T r Tr) E <= cost_p P T E) by lia.
        destruct (t_step_ret _ _ _ _ SR OL) as [(t & v & -> & X & -> & X')|(NI & NR)].
        + destruct t as [|t]; [rewrite thread_zero in X; discriminate|]. cbn in HE. injection HE as <- <-.
          pose proof (iv_th _ _ _ _ _ I r (S t)) as F. rewrite X in F. destruct F as (t' & c & Y & W & FT). injection Y as <-.
          apply (credit_ret P _ T _ E E t).
          * intros u Ne. unfold resume_thread. destruct (p_thr P t) as [|[ | | | | |]|[ | | | |] ? ? ? [g|] ?|[|]|]; try (repeat split; reflexivity); try (destruct v as [|[]|]); cbn; unfold set_guard; rewrite ?fupd_other by exact Ne; repeat split.
          * intros r' u Ne. unfold ti. rewrite fupd_eq. destruct (r' =? r) eqn:Er; [|lia]. apply Nat.eqb_eq in Er as ->. rewrite X', fupd_other by congruence. lia.
          * intros; lia.
          * enough (Z0 : credit (resume_thread P t v) (fupd T r Tr) E t = 0) by lia. unfold credit, wants_thread, wants_flag, resume_thread.
            destruct (th_shape _ _ _ _ W) as [(x & ms & g & p & -> & Z)|(x & ms & g & p & -> & Z)]; rewrite Z; cbn in FT; [destruct FT as [-> | ->]|]; cbn; rewrite fupd_same; reflexivity.
        + assert (TI : forall r' u, ti (fupd T r Tr) r' u <= ti T r' u).
          { intros r' u. unfold ti. rewrite fupd_eq. destruct (r' =? r) eqn:Er; [|lia]. apply Nat.eqb_eq in Er as ->. specialize (NI u). destruct (t_thr (T r) u); [destruct (t_thr Tr u); lia|..]; (destruct (t_thr Tr u); [elim NI; congruence|..]; lia). }
          assert (PP : forall u, p_thr P' u = p_thr P u /\ (forall i, p_guard P' u i = p_guard P u i) /\ (p_run P' u = p_run P u \/ p_run P' u = WRead \/ p_run P' u = WOff)).
          { clear - HE NR SR OL. assert (H : forall P0, (forall u, p_thr P0 u = p_thr P u /\ (forall i, p_guard P0 u i = p_guard P u i) /\ (p_run P0 u = p_run P u \/ p_run P0 u = WRead \/ p_run P0 u = WOff)) -> hears (hear_thread r) P0 es = Some (P', o') ->
              forall u, p_thr P' u = p_thr P u /\ (forall i, p_guard P' u i = p_guard P u i) /\ (p_run P' u = p_run P u \/ p_run P' u = WRead \/ p_run P' u = WOff)); [|apply (H P); [auto|exact HE]].
            clear HE SR. revert o'. induction es as [|e es' IH]; intros o' P0 H0 H; cbn [hears] in H; [injection H as <- _; exact H0|].
            destruct (hear_thread r P0 e) as [[P1 o1]|] eqn:HE; [|discriminate]. destruct (hears (hear_thread r) P1 es') as [[P2 o2]|] eqn:H2; [|discriminate]. injection H as <- _.
            apply (IH (fun t v h => NR t v (or_intror h)) o2 P1); [|exact H2].
            assert (RR : forall q, q = WRead \/ q = WOff -> forall u, p_thr (p_wto P0 r q) u = p_thr P u /\ (forall i, p_guard (p_wto P0 r q) u i = p_guard P u i) /\ (p_run (p_wto P0 r q) u = p_run P u \/ p_run (p_wto P0 r q) u = WRead \/ p_run (p_wto P0 r q) u = WOff)).
            { intros q Hq u. destruct (H0 u) as (Y1 & Y2 & Y3). cbn. split; [exact Y1|]. split; [exact Y2|]. rewrite fupd_eq. destruct (u =? r); [right; exact Hq|exact Y3]. }
            destruct e as [[|t] c|t c v|[|t] v]; cbn [hear_thread] in HE.
            - destruct c; try discriminate; [injection HE as <- _; apply RR; auto|]. destruct (p_run P0 r); try discriminate. injection HE as <- _. apply RR. auto.
            - destruct (wants_thread P0 t) as [[r' c']|]; [|discriminate]. destruct ((r =? r') && _); [|discriminate]. injection HE as <- _. exact H0.
            - injection HE as <- _. exact H0.
            - injection HE as <- _. exact H0.
            - exfalso. apply (NR t v). now left. }
          apply sumn_le. intros u _. destruct (PP u) as (H1 & H2 & H3). apply credit_le; auto.
      - (* a call *)
        cbn [ThreadModel.t_step] in SR. destruct (t_thr (T r) t) eqn:X; try discriminate. destruct (client_call c && negb (Nat.eqb t 0)) eqn:Y; [|discriminate]. injection SR as <- <-.
        apply andb_true_iff in Y as [_ Y]. destruct t as [|t]; [discriminate|]. cbn in HE.
        destruct (wants_thread P t) as [[r' c']|] eqn:W; [|discriminate]. destruct (Nat.eqb_spec r r') as [<-|]; [|discriminate]. destruct (tcall_dec c c') as [<-|]; [|discriminate]. injection HE as <- <-.
        pose proof (thread_wanter _ _ _ W) as TN.
        assert (QW : tw (S m) (TAt c) <= 2 * m + 10) by (destruct (th_shape _ _ _ _ W) as [(x & ms & g & p & -> & _)|(x & ms & g & p & -> & _)]; cbn [tw]; lia).
        assert (NM : tm (S m) (t_go (T r) (S t) (TAt c)) = tm (S m) (T r) + tw (S m) (TAt c)).
        { unfold tm, t_go. cbn [t_thr]. pose proof (sumn_change (S m) (fun u => tw (S m) (t_thr (T r) u)) (fun u => tw (S m) (fupd (t_thr (T r)) (S t) (TAt c) u)) (S t) ltac:(lia)) as Z. cbn beta in Z. rewrite fupd_same, X in Z.
          specialize (Z ltac:(intros u Nu; now rewrite fupd_other)). unfold nw in *. cbn [t_nat t_active t_end]. change (tw (S m) TIdle) with 0 in Z. lia. }
        assert (CC : cost_p P (fupd T r (t_go (T r) (S t) (TAt c))) E + CR <= cost_p P T E); [|lia].
        apply (credit_call P T _ E E t CR); [lia| |intros; lia|].
        + intros r' u. unfold ti. rewrite fupd_eq. destruct (r' =? r) eqn:Er; [|lia]. apply Nat.eqb_eq in Er as ->. cbn [t_thr t_go]. rewrite fupd_eq. destruct (Nat.eqb_spec u (S t)) as [->|]; [|lia]. rewrite X. lia.
        + unfold credit. rewrite W. unfold ti. rewrite fupd_same, X. cbn [t_thr t_go]. rewrite fupd_same. lia.
    Qed.

    (** ** the event flags *)
    Lemma flag_less r l s' o : w_own (WFlag r l) -> wstep s (WFlag r l) = Some (s', o) -> mess s' < mess s.
    Proof.
      intros NS ST. cbn [w_step] in ST. destruct (e_step w dbg false (E r) l) as [[Er es]|] eqn:SR; [|discriminate].
      destruct (hears (hear_flag N r) P es) as [[P' o']|] eqn:HE; [|discriminate]. injection ST as <- <-. unfold mess. cbn [w_pool w_queue w_thread w_flag].
      assert (FB : r < N -> forall t, m <= t -> e_idle (E r) t) by (intros _ t Ht; apply flag_below; now left).
      assert (OL : EventFlagModel.own_step l \/ exists t c, l = LCall t c) by (destruct l as [t c|t|t|t]; cbn in *; eauto; contradiction).
      destruct OL as [OL|(t & c & ->)].
      - assert (LT : r < N).
        { destruct (Nat.lt_ge_cases r N) as [|GE]; [assumption|]. exfalso. destruct l as [t c|t|t|t]; try (now destruct OL); cbn [e_step] in SR; rewrite (flag_below r t (or_intror GE)) in SR; discriminate. }
        pose proof (sum_upd (measure m) E r Er LT) as CF. fold (cost_f E) (cost_f (fupd E r Er)) in CF.
        pose proof (proj2 (measure_step w dbg false m (E r) l Er es (FB LT) OL SR)) as LESS.
        enough (cost_p P' T (fupd E r Er) <= cost_p P T E) by lia.
        destruct (e_step_ret _ _ _ _ _ _ SR OL) as [(t & v & X & -> & X')|(NI & EF)].
        + cbn [hears hear_flag] in HE.
          pose proof (iv_fl _ _ _ _ _ I r t) as F. unfold se_ph in F. rewrite X in F. cbn in F. destruct F as (c & W & FT).
          assert (FT' : fi E r t = 0) by (unfold fi; now rewrite X).
          assert (RF : P' = fst (resume_flag P t v)) by (destruct (resume_flag P t v); injection HE as <- _; reflexivity). clear HE.
          apply (credit_ret P P' T _ E _ t).
          * intros u Ne. subst P'. unfold resume_flag. destruct (p_thr P t) as [|[ | | | | |]|[ | | | |] ? ? ? [g'|] ?|[|]|]; try (repeat split; reflexivity).
            -- destruct (p_run P t) as [| | | |[| | | |] th|]; cbn; rewrite ?fupd_other by exact Ne; repeat split.
            -- destruct v; cbn; rewrite ?fupd_other by exact Ne; repeat split.
            -- destruct (p_guard P t g); cbn; rewrite ?fupd_other by exact Ne; repeat split.
            -- cbn; rewrite ?fupd_other by exact Ne; repeat split.
          * intros; lia.
          * intros r' u Ne. unfold fi. rewrite fupd_eq. destruct (r' =? r) eqn:Er'; [|lia]. apply Nat.eqb_eq in Er' as ->. rewrite X', fupd_other by exact Ne. lia.
          * assert (FI : forall r', fi (fupd E r Er) r' t <= CR) by (intros r'; unfold fi; destruct (e_thr (fupd E r Er r') t); lia). specialize (FI r). subst P'.
            unfold credit, wants_thread, wants_flag, resume_flag.
            destruct (fl_shape _ _ _ _ _ W) as [g ms Y G'|g Y G'|g Y|th Y L EQ Z|th Y L EQ Z]; cbn in FT.
            -- rewrite Y, G'. destruct FT as [-> |(-> & _)]; cbn; rewrite fupd_same; cbn; lia.
            -- rewrite Y, G'. cbn. rewrite fupd_same. cbn. rewrite FT'. lia.
            -- rewrite Y. cbn. rewrite fupd_same. cbn. lia.
            -- rewrite Y, Z. unfold p_wto. cbn [fst p_thr p_run]. rewrite Y, fupd_same. destruct (t <? N); cbn; lia.
            -- rewrite Y, Z. unfold p_wto. cbn [fst p_thr p_run]. rewrite Y, fupd_same. destruct (t <? N); cbn; lia.
        + assert (PP : P' = P).
          { clear - HE EF. assert (H : forall P0, hears (hear_flag N r) P0 es = Some (P', o') -> P' = P0); [|now apply H]. clear HE. revert o'.
            induction es as [|e es' IH]; intros o' P0 H; cbn [hears] in H; [injection H as <- _; reflexivity|]. destruct (EF e (or_introl eq_refl)) as (t & c & v & ->). cbn [hear_flag] in H.
            destruct (hears (hear_flag N r) P0 es') as [[P2 o2]|] eqn:H2; [|discriminate]. injection H as <- _. exact (IH (fun x h => EF x (or_intror h)) o2 P0 H2). }
          subst P'. apply sumn_le. intros u _. apply credit_le; auto. intros r' u'. unfold fi. rewrite fupd_eq. destruct (r' =? r) eqn:Er'; [|lia]. apply Nat.eqb_eq in Er' as ->.
          specialize (NI u'). destruct (e_thr (E r) u'); [destruct (e_thr Er u'); lia|..]; (destruct (e_thr Er u'); [elim NI; congruence|..]; lia).
      - cbn [e_step] in SR. destruct (e_thr (E r) t) eqn:X; try discriminate. injection SR as <- <-. cbn [hears hear_flag] in HE.
        destruct (wants_flag N P t) as [[r' c']|] eqn:W; [|discriminate]. destruct (Nat.eqb_spec r r') as [<-|]; [|discriminate]. destruct (PoolWholeModel.ecall_dec c c') as [<-|]; [|discriminate].
        cbn in HE. injection HE as <- <-. destruct (flag_wanter _ _ _ W) as (TM & LT).
        pose proof (sum_upd (measure m) E r (mkE (e_pat (E r)) (e_lock (E r)) (fupd (e_thr (E r)) t (EEntry c))) LT) as CF. fold (cost_f E) (cost_f (fupd E r (mkE (e_pat (E r)) (e_lock (E r)) (fupd (e_thr (E r)) t (EEntry c))))) in CF.
        assert (FM : measure m (mkE (e_pat (E r)) (e_lock (E r)) (fupd (e_thr (E r)) t (EEntry c))) = measure m (E r) + (8 + 2 * m)).
        { unfold measure. cbn [e_thr]. pose proof (sumn_change m (fun u => wt m (e_thr (E r) u)) (fun u => wt m (fupd (e_thr (E r)) t (EEntry c) u)) t TM) as Z. cbn beta in Z. rewrite fupd_same, X in Z.
          specialize (Z ltac:(intros u Nu; now rewrite fupd_other)). cbn [wt] in Z. lia. }
        enough (cost_p P T (fupd E r (mkE (e_pat (E r)) (e_lock (E r)) (fupd (e_thr (E r)) t (EEntry c)))) + CR <= cost_p P T E) by lia.
        apply (credit_call P T _ E _ t CR); [exact TM|intros; lia| |].
        + intros r' u. unfold fi. rewrite fupd_eq. destruct (r' =? r) eqn:Er; [|lia]. apply Nat.eqb_eq in Er as ->. cbn. rewrite fupd_eq. destruct (Nat.eqb_spec u t) as [->|]; [|lia]. rewrite X. lia.
        + unfold credit. rewrite W. assert (WT : wants_thread P t = None).
          { unfold wants_thread. destruct (fl_shape _ _ _ _ _ W) as [g ms Y G'|g Y G'|g Y|th Y L EQ Z|th Y L EQ Z]; rewrite Y; reflexivity. }
          rewrite WT. unfold fi. rewrite fupd_same, X. cbn [e_thr]. rewrite fupd_same. lia.
    Qed.

    (** ** the queue *)
    Lemma queue_less l s' o : w_calm (WQueue l) -> w_own (WQueue l) -> wstep s (WQueue l) = Some (s', o) ->
      (exists t d p, c_thr (w_queue s) t = CIdle /\ c_thr (w_queue s') t = CBefore true d p) \/ (exists t g d p, c_thr (w_queue s) t = CBefore g d p /\ c_thr (w_queue s') t = CIdle) \/ mess s' < mess s.
    Proof.
      intros CA NS ST. cbn [w_step] in ST. destruct (std_step nat size M w dbg (w_queue s) l) as [[c' es]|] eqn:SQ; [|discriminate].
      destruct (hears (hear_queue N) P es) as [[P' o']|] eqn:HE; [|discriminate]. injection ST as <- <-. cbn [w_queue].
      assert (NP : forall t, l <> CEvt (LSpurious t)) by (intros t ->; exact NS).
      destruct (std_ends _ _ _ _ _ _ _ _ SQ NP) as [X|[X|(-> & OW)]]; [left; exact X|right; left; exact X|]. right. right.
      cbn [hears] in HE. injection HE as <- <-. unfold mess. cbn [w_pool w_queue w_thread w_flag].
      enough (cost_q c' < cost_q (w_queue s)) by lia. assert (K4 : 4 <= 8 + 2 * m) by lia.
      refine (proj2 (cmeas_step nat size HM M w Hw _ _ _ _ _ _ sm_good sm_ph x_owner sm_nofail (se_good w) se_ph e_pat (fun _ => True) true
        (sm_call_one M) (se_call_one w dbg) (sm_ok M) (std_e_ok M HM1 w Hw dbg) se_own sm_meas measure m (8 + 2 * m)
        (fun x y z u => sm_meas_step M HM1 m (8 + 2 * m) x y z u K4) (fun x y z u => se_meas_step w dbg m _ x y z u (le_n _)) (w_queue s) l c' [] queue_sound _ SQ)).
      split; [|exact OW]. exact (std_lab_calm nat l CA).
    Qed.
  End At.

  (** ** all together *)
  Lemma hears_fromn {X : Type} (h : pst -> X -> option (pst * pout)) es : (forall P e P' o, fromn P -> h P e = Some (P', o) -> fromn P') ->
    forall P P' o, fromn P -> hears h P es = Some (P', o) -> fromn P'.
  Proof.
    intros H. induction es as [|e es IH]; intros P P' o MM HE; cbn in HE.
    - injection HE as <- _. exact MM.
    - destruct (h P e) as [[P1 o1]|] eqn:H1; [|discriminate]. destruct (hears h P1 es) as [[P2 o2]|] eqn:H2; [|discriminate]. injection HE as <- _. eauto.
  Qed.
  Lemma fromn_go P P' t : fromn P -> (forall u, u <> t -> p_thr P' u = p_thr P u) -> p_thr P t <> PIdle -> fromn P'.
  Proof. intros F H NI u Hu. destruct (Nat.eq_dec u t) as [->|Ne]; [elim NI; now apply F|]. rewrite H by exact Ne. now apply F. Qed.
  Lemma fromn_thread r P e P' o : fromn P -> hear_thread r P e = Some (P', o) -> fromn P'.
  Proof.
    intros F H. destruct e as [[|t] c|t c v|[|t] v]; cbn [hear_thread] in H.
    - destruct c; try discriminate; [injection H as <- _; exact F|]. destruct (p_run P r); try discriminate. injection H as <- _. exact F.
    - destruct (wants_thread P t) as [[r' c']|]; [|discriminate]. destruct ((r =? r') && _); [|discriminate]. injection H as <- _. exact F.
    - injection H as <- _. exact F.
    - injection H as <- _. exact F.
    - injection H as <- _. unfold resume_thread. destruct (p_thr P t) as [|[ | | | | |]|[ | | | |]|[|]|] eqn:X; try exact F.
      + destruct v as [|[]|]; try exact F; (apply (fromn_go P _ t F); [intros u Ne; cbn; now rewrite fupd_other|congruence]).
      + apply (fromn_go P _ t F); [intros u Ne; cbn; now rewrite fupd_other|congruence].
  Qed.
  Lemma fromn_flag r P e P' o : fromn P -> hear_flag N r P e = Some (P', o) -> fromn P'.
  Proof.
    intros F H. destruct e as [t c|t c v|t v]; cbn [hear_flag] in H.
    - destruct (wants_flag N P t) as [[r' c']|]; [|discriminate]. destruct ((r =? r') && _); [|discriminate]. injection H as <- _. exact F.
    - injection H as <- _. exact F.
    - unfold resume_flag in H. destruct (p_thr P t) as [|[ | | | | |]|[ | | | |]|[|]|] eqn:X; try (injection H as <- _; exact F).
      + destruct (p_run P t) as [| | | |[| | | |] th|]; injection H as <- _; exact F.
      + injection H as <- _. destruct v; [|exact F]. apply (fromn_go P _ t F); [intros u Ne; cbn; now rewrite fupd_other|congruence].
      + injection H as <- _. destruct (p_guard P t g); [|exact F]. apply (fromn_go P _ t F); [intros u Ne; cbn; now rewrite fupd_other|congruence].
      + injection H as <- _. apply (fromn_go P _ t F); [intros u Ne; cbn; now rewrite fupd_other|congruence].
  Qed.
  Lemma fromn_queue P e P' o : fromn P -> hear_queue N P e = Some (P', o) -> fromn P'.
  Proof.
    intros F H. destruct e as [t c|t c v|t v]; cbn [hear_queue] in H.
    - destruct (wants N P t); [|discriminate]. destruct (qcall_dec c q); [|discriminate]. injection H as <- _. exact F.
    - injection H as <- _. exact F.
    - injection H as <- _. unfold resume. destruct (p_thr P t) as [|[ | | | | |]|[ | | | |]|[|]|] eqn:X; try exact F.
      + destruct v as [|[] [|]| |]; try exact F; (apply (fromn_go P _ t F); [intros u Ne; cbn; now rewrite fupd_other|congruence]).
      + apply (fromn_go P _ t F); [intros u Ne; cbn; now rewrite fupd_other|congruence].
  Qed.
  Lemma fromn_local P l P' es : fromn P -> p_own_step l -> pstep P l = Some (P', es) -> fromn P'.
  Proof.
    intros F O E. destruct l as [t c|t|t x|r|r th]; cbn in O; try contradiction; cbn [p_step] in E.
    - destruct (p_thr P t) as [|[x ms g p|g ms|g|g|x q|x th]|[ | | | |] r x ms g p|[|] r g|v] eqn:X; try discriminate;
        repeat (match type of E with match ?b with _ => _ end = _ => destruct b eqn:? end; try discriminate); injection E as <- _;
        (apply (fromn_go P _ t F); [intros u Ne; cbn; now rewrite fupd_other|congruence]).
    - destruct (p_thr P t) as [|[y ms g p|g ms|g|g|y q|y th]|[ | | | |] r y ms g p|[|] r g|v] eqn:X; try discriminate;
        repeat (match type of E with match ?b with _ => _ end = _ => destruct b eqn:? end; try discriminate); injection E as <- _;
        (apply (fromn_go P _ t F); [intros u Ne; cbn; now rewrite fupd_other|congruence]).
    - repeat (match type of E with match ?b with _ => _ end = _ => destruct b eqn:? end; try discriminate); injection E as <- _; exact F.
  Qed.
  Lemma fromn_step s l s' o : fromn (w_pool s) -> w_own l -> wstep s l = Some (s', o) -> fromn (w_pool s').
  Proof.
    intros F O ST. destruct l as [l|l|r l|r l]; cbn [w_step] in ST.
    - destruct (local (w_pool s) l); [|discriminate]. destruct (pstep (w_pool s) l) as [[P es]|] eqn:SP; [|discriminate]. injection ST as <- <-. exact (fromn_local _ _ _ _ F O SP).
    - destruct (std_step nat size M w dbg (w_queue s) l) as [[c es]|]; [|discriminate]. destruct (hears _ _ es) as [[P o1]|] eqn:HE; [|discriminate]. injection ST as <- <-. exact (hears_fromn _ _ fromn_queue _ _ _ F HE).
    - destruct (r <? N); [|discriminate]. destruct (ThreadModel.t_step (w_thread s r) l) as [[T es]|]; [|discriminate]. destruct (hears _ _ es) as [[P o1]|] eqn:HE; [|discriminate]. injection ST as <- <-. exact (hears_fromn _ _ (fromn_thread r) _ _ _ F HE).
    - destruct (e_step w dbg false (w_flag s r) l) as [[e es]|]; [|discriminate]. destruct (hears _ _ es) as [[P o1]|] eqn:HE; [|discriminate]. injection ST as <- <-. exact (hears_fromn _ _ (fromn_flag r) _ _ _ F HE).
  Qed.
  (** the objects report no calls of the pool *)
  Lemma hears_calls {X : Type} (h : pst -> X -> option (pst * pout)) es : (forall P e P' o t c, h P e = Some (P', o) -> ~ In (Call t c) o) ->
    forall P P' o t c, hears h P es = Some (P', o) -> ~ In (Call t c) o.
  Proof.
    intros H. induction es as [|e es IH]; intros P P' o t c HE; cbn in HE.
    - injection HE as _ <-. auto.
    - destruct (h P e) as [[P1 o1]|] eqn:H1; [|discriminate]. destruct (hears h P1 es) as [[P2 o2]|] eqn:H2; [|discriminate]. injection HE as _ <-. intros C. apply in_app_or in C as [C|C]; [exact (H _ _ _ _ _ _ H1 C)|exact (IH _ _ _ _ _ H2 C)].
  Qed.
  Lemma thread_calls r P e P' o t c : hear_thread r P e = Some (P', o) -> ~ In (Call t c) o.
  Proof.
    intros H. enough (X : o = []) by (subst; auto). destruct e as [[|u] d|u d v|[|u] v]; cbn [hear_thread] in H.
    - destruct d; try discriminate; [injection H as _ <-; reflexivity|]. destruct (p_run P r); try discriminate. injection H as _ <-; reflexivity.
    - destruct (wants_thread P u) as [[r' c']|]; [|discriminate]. destruct ((r =? r') && _); [|discriminate]. injection H as _ <-; reflexivity.
    - injection H as _ <-; reflexivity.
    - injection H as _ <-; reflexivity.
    - injection H as _ <-; reflexivity.
  Qed.
  Lemma flag_calls r P e P' o t c : hear_flag N r P e = Some (P', o) -> ~ In (Call t c) o.
  Proof.
    intros H. destruct e as [u d|u d v|u v]; cbn [hear_flag] in H.
    - destruct (wants_flag N P u) as [[r' c']|]; [|discriminate]. destruct ((r =? r') && _); [|discriminate]. injection H as _ <-. auto.
    - injection H as _ <-. auto.
    - unfold resume_flag in H. destruct (p_thr P u) as [|[ | | | | |]|[ | | | |]|[|]|] eqn:X; try (injection H as _ <-; cbn; tauto).
      destruct (p_run P u) as [| | | |[| | | |] th|]; injection H as _ <-; cbn; intuition discriminate.
  Qed.
  Lemma queue_calls P e P' o t c : hear_queue N P e = Some (P', o) -> ~ In (Call t c) o.
  Proof.
    intros H. destruct e as [u d|u d v|u v]; cbn [hear_queue] in H.
    - destruct (wants N P u); [|discriminate]. destruct (qcall_dec d q); [|discriminate]. injection H as _ <-. auto.
    - injection H as _ <-. auto.
    - injection H as _ <-. destruct (p_thr P u); cbn; intuition discriminate.
  Qed.

  Lemma wreach_step s A Q l s' o : wreach s A Q -> w_calm l -> wstep s l = Some (s', o) ->
    exists Ls A' Q' es ew, exec sstep (PoolStackModel.mkT A Q) Ls = Some (PoolStackModel.mkT A' Q', es) /\ wreach s' A' Q' /\ late (lags s Q) es (lags s' Q') ew /\ history ew = o.
  Proof.
    intros [SI AS (q0 & Ls0 & es0 & F & EX)] CA ST. destruct (w_one N HN dflt ext_prio M HM1 w Hw dbg s A Q l s' o SI CA ST) as (Ls & A' & Q' & es & ew & X & SI' & LA & HI).
    exists Ls, A', Q', es, ew. split; [exact X|]. split; [|auto]. constructor; [exact SI'| |].
    - intros r. destruct l as [l|l|q l|q l]; cbn [w_step] in ST.
      + destruct (local (w_pool s) l); [|discriminate]. destruct (pstep (w_pool s) l) as [[P e]|]; [|discriminate]. injection ST as <- <-. apply AS.
      + destruct (std_step nat size M w dbg (w_queue s) l) as [[c e]|]; [|discriminate]. destruct (hears _ _ e) as [[P o1]|]; [|discriminate]. injection ST as <- <-. apply AS.
      + destruct (q <? N); [|discriminate]. destruct (ThreadModel.t_step (w_thread s q) l) as [[T e]|] eqn:SR; [|discriminate]. destruct (hears _ _ e) as [[P o1]|]; [|discriminate]. injection ST as <- <-.
        cbn [w_thread]. rewrite fupd_eq. destruct (r =? q); [exact (t_asleep_step _ _ _ _ (AS q) SR)|apply AS].
      + destruct (e_step w dbg false (w_flag s q) l) as [[e' e]|]; [|discriminate]. destruct (hears _ _ e) as [[P o1]|]; [|discriminate]. injection ST as <- <-. apply AS.
    - exists q0, (Ls0 ++ Ls), (es0 ++ es). split; [exact F|]. now rewrite exec_app, EX, X.
  Qed.
  Lemma wreach_run ls : forall s A Q s' o, wreach s A Q -> (forall l, In l ls -> w_calm l) -> exec wstep s ls = Some (s', o) -> exists A' Q', wreach s' A' Q'.
  Proof.
    induction ls as [|l ls IH]; intros s A Q s' o W CA EX; cbn [exec] in EX; [injection EX as <- _; eauto|].
    destruct (wstep s l) as [[s1 o1]|] eqn:E1; [|discriminate]. destruct (exec wstep s1 ls) as [[s2 o2]|] eqn:E2; [|discriminate]. injection EX as <- _.
    destruct (wreach_step s A Q l s1 o1 W (CA l (or_introl eq_refl)) E1) as (L1 & A1 & Q1 & es1 & ew1 & _ & W1 & _). exact (IH s1 A1 Q1 s2 o2 W1 (fun x h => CA x (or_intror h)) E2).
  Qed.
  Lemma w_cost s A Q l s' o : wreach s A Q -> fromn (w_pool s) -> w_calm l -> w_own l -> wstep s l = Some (s', o) ->
    exists Ls A' Q' es, exec sstep (PoolStackModel.mkT A Q) Ls = Some (PoolStackModel.mkT A' Q', es) /\ wreach s' A' Q' /\ (forall x, In x Ls -> PoolStackModel.t_own_step x) /\ (Ls <> [] \/ mess s' < mess s).
  Proof.
    intros WS FN CA OW ST.
    assert (OBJ : (forall pl, l <> WPool pl) -> (forall t c, ~ In (Call t c) o) ->
      (mess s' < mess s \/ exists t, (c_thr (w_queue s) t = CIdle /\ exists d p, c_thr (w_queue s') t = CBefore true d p) \/ ((exists g d p, c_thr (w_queue s) t = CBefore g d p) /\ c_thr (w_queue s') t = CIdle)) ->
      exists Ls A' Q' es, exec sstep (PoolStackModel.mkT A Q) Ls = Some (PoolStackModel.mkT A' Q', es) /\ wreach s' A' Q' /\ (forall x, In x Ls -> PoolStackModel.t_own_step x) /\ (Ls <> [] \/ mess s' < mess s)).
    { intros NP NC MS. destruct (wreach_step s A Q l s' o WS CA ST) as (Ls & A' & Q' & es & ew & X & WS' & LA & HI).
      exists Ls, A', Q', es. split; [exact X|]. split; [exact WS'|]. split.
      - apply (PoolItronBound.own_labels N dflt ext_prio Ls _ _ _ X). intros t c C. exfalso. apply (NC t c). rewrite <- HI. apply filter_In. split; [|reflexivity]. now apply (late_calls _ _ _ _ LA).
      - destruct MS as [MS|(t & MS)]; [now right|]. left. intros ->. cbn in X. injection X as <- <- <-.
        pose proof (r_thr _ _ _ _ _ _ _ _ _ (s_r _ _ _ _ _ _ _ _ _ _ _ _ _ (ws_s _ _ _ _ _ (wr_sim _ _ _ WS))) t) as R1.
        pose proof (r_thr _ _ _ _ _ _ _ _ _ (s_r _ _ _ _ _ _ _ _ _ _ _ _ _ (ws_s _ _ _ _ _ (wr_sim _ _ _ WS'))) t) as R2.
        destruct MS as [(M1 & d & p & M2)|((g & d & p & M1) & M2)]; rewrite M1 in R1; rewrite M2 in R2; cbn in R1, R2; congruence. }
    destruct l as [l|l|r l|r l].
    - clear OBJ. destruct WS as [[R I IQ HS HQ] AS RE]. cbn [w_step] in ST. destruct (local (w_pool s) l) eqn:LO; [|discriminate]. destruct (pstep (w_pool s) l) as [[P' es]|] eqn:SP; [|discriminate]. injection ST as <- <-.
      destruct (local_step N HN dflt ext_prio M HM1 w _ _ _ Q A l P' es I R IQ LO SP) as (OQ & A1 & SA & [K1 K2 K3 K4]).
      assert (X : exec sstep (PoolStackModel.mkT A Q) [TPool l] = Some (PoolStackModel.mkT A1 Q, es ++ [])) by (cbn [exec PoolStackModel.t_step t_pool t_queue]; rewrite OQ, SA; reflexivity).
      exists [TPool l], A1, Q, (es ++ []). split; [exact X|]. split; [|split; [intros x [<-|[]]; exact OW|left; discriminate]].
      constructor; [constructor; auto|exact AS|]. destruct RE as (q0 & Ls0 & es0 & F & EX). exists q0, (Ls0 ++ [TPool l]), (es0 ++ es ++ []). split; [exact F|]. now rewrite exec_app, EX, X.
    - apply OBJ; [discriminate| |].
      + cbn [w_step] in ST. destruct (std_step nat size M w dbg (w_queue s) l) as [[c es]|]; [|discriminate]. destruct (hears _ _ es) as [[P o1]|] eqn:HE; [|discriminate]. injection ST as <- <-. intros t d. exact (hears_calls _ _ queue_calls _ _ _ t d HE).
      + destruct (queue_less s A Q WS FN l s' o CA OW ST) as [(t & d & p & M1 & M2)|[(t & g & d & p & M1 & M2)|M0]]; [right; exists t; left; eauto|right; exists t; right; eauto|now left].
    - apply OBJ; [discriminate| |].
      + cbn [w_step] in ST. destruct (r <? N); [|discriminate]. destruct (ThreadModel.t_step (w_thread s r) l) as [[T es]|]; [|discriminate]. destruct (hears _ _ es) as [[P o1]|] eqn:HE; [|discriminate]. injection ST as <- <-. intros t d. exact (hears_calls _ _ (thread_calls r) _ _ _ t d HE).
      + left. exact (thread_less s A Q WS FN r l s' o OW ST).
    - apply OBJ; [discriminate| |].
      + cbn [w_step] in ST. destruct (e_step w dbg false (w_flag s r) l) as [[e es]|]; [|discriminate]. destruct (hears _ _ es) as [[P o1]|] eqn:HE; [|discriminate]. injection ST as <- <-. intros t d. exact (hears_calls _ _ (flag_calls r) _ _ _ t d HE).
      + left. exact (flag_less s A Q WS FN r l s' o OW ST).
  Qed.
  Lemma w_costs ls : forall s A Q s' o, wreach s A Q -> fromn (w_pool s) -> (forall l, In l ls -> w_calm l /\ w_own l) -> exec wstep s ls = Some (s', o) ->
    exists Ls x es, exec sstep (PoolStackModel.mkT A Q) Ls = Some (x, es) /\ (forall l, In l Ls -> PoolStackModel.t_own_step l) /\ length ls <= (most + 1) * length Ls + mess s.
  Proof.
    induction ls as [|l ls IH]; intros s A Q s' o WS FN OK EX; cbn [exec] in EX.
    - exists [], (PoolStackModel.mkT A Q), []. split; [reflexivity|]. split; [intros l []|cbn; lia].
    - destruct (wstep s l) as [[s1 o1]|] eqn:E1; [|discriminate]. destruct (exec wstep s1 ls) as [[s2 o2]|] eqn:E2; [|discriminate]. injection EX as <- <-.
      destruct (OK l (or_introl eq_refl)) as (C1 & O1).
      destruct (w_cost s A Q l s1 o1 WS FN C1 O1 E1) as (L1 & A1 & Q1 & es1 & X1 & WS1 & OL1 & LE1).
      destruct (IH s1 A1 Q1 s2 o2 WS1 (fromn_step _ _ _ _ FN O1 E1) (fun x h => OK x (or_intror h)) E2) as (L2 & x2 & es2 & X2 & OL2 & LE2).
      exists (L1 ++ L2), x2, (es1 ++ es2). split; [now rewrite exec_app, X1, X2|]. split; [intros y Hy; apply in_app_or in Hy as [Hy|Hy]; auto|].
      rewrite app_length. cbn [length]. pose proof (mess_bound s1). destruct LE1 as [NE|LE1]; [destruct L1 as [|y L1]; [congruence|]; cbn [length]; nia|nia].
  Qed.
  Theorem whole_bounded_work c0 ls0 s o0 ls s' o : w_filled N M w dbg c0 -> (forall l, In l ls0 -> w_calm l) -> exec wstep (w_init dflt c0) ls0 = Some (s, o0) ->
    (forall t, n <= t -> w_idle s t) -> (forall l, In l ls -> w_calm l /\ w_own l) -> exec wstep s ls = Some (s', o) ->
    length ls <= (30 * m * m + 160 * m + N * (4 * m * m + 22 * m + 18) + 1) * (293 * n + 111 * N + 1).
  Proof.
    intros F CA E0 ID OK EX. destruct (w_start N HN dflt M HM1 w Hw dbg c0 F) as (q1 & F1 & S1 & _).
    assert (W1 : wreach (w_init dflt c0) (t_pool_init dflt) q1).
    { constructor; [exact S1|intros r t c; cbn; discriminate|]. exists q1, [], []. split; [exact F1|reflexivity]. }
    destruct (wreach_run ls0 _ _ _ s o0 W1 CA E0) as (A & Q & WS). pose proof (wr_reach _ _ _ WS) as (q0 & Ls0 & es0 & F0 & X0).
    destruct (w_costs ls s A Q s' o WS ID OK EX) as (Ls & x & es & X & OL & LE).
    assert (B : length Ls <= 293 * n + 111 * N).
    { apply (stack_bounded_work N HN dflt ext_prio q0 n Ls0 _ es0 Ls x es F0 X0); [|exact OL|exact X].
      intros t Ht. unfold PoolStackModel.t_idle. cbn. rewrite (rl_thr _ _ _ _ (ws_rel _ _ _ _ _ (wr_sim _ _ _ WS)) t). unfold abs_thr. now rewrite (ID t Ht : p_thr _ _ = _). }
    pose proof (mess_bound s). fold most. nia.
  Qed.
End B.
