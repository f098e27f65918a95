(** ThreadPool over the whole StdCpp stack: once everything is at rest every thread is in the queue of free threads again. *)
From Coq Require Import List ZArith Bool Lia Arith Permutation.
Import ListNotations.
From Verif Require Import Spec.OSError Spec.Linear Spec.EventFlagSpec Spec.MessageQueueSpec Spec.ThreadSpec OS.Sched OS.MessageQueueModel OS.MessageQueueProofs
  OS.EventFlagModel OS.EventFlagProofs OS.MutexModel OS.QueueStackModel OS.QueueStackProofs OS.QueueStackInst Spec.ThreadPoolSpec OS.ThreadPoolModel OS.ThreadPoolProofs
  OS.ThreadPoolLiveness OS.PoolStackModel OS.PoolStackProofs OS.ThreadModel OS.PoolWholeModel OS.PoolWholeProofs.
Local Open Scope nat_scope.

(** what lies in a ring buffer of [B] slots, from the oldest element on *)
Definition ring_contents {V : Type} (B : Z) (r : ring V) : list (option V) :=
  map (fun i => r_buf r ((r_begin r + Z.of_nat i) mod B)%Z) (seq 0 (Z.to_nat (ring_size V B r))).
Lemma nth_error_ext {A : Type} (l : list A) : forall l', (forall i, nth_error l i = nth_error l' i) -> l = l'.
Proof.
  induction l as [|x l IH]; intros [|y l'] H; [reflexivity|discriminate (H 0)|discriminate (H 0)|]. injection (H 0) as ->. f_equal. apply IH. intros i. exact (H (S i)).
Qed.
Lemma contents_ok {V : Type} (B : Z) (r : ring V) q : (1 <= B < 2 ^ 64)%Z -> ring_rep V B r q -> ring_contents B r = map Some q.
Proof.
  intros HB R. unfold ring_contents. rewrite (ring_size_ok V B HB r q R), Nat2Z.id. pose proof (rr_b _ _ _ _ R). pose proof (rr_len _ _ _ _ R).
  apply nth_error_ext. intros i. rewrite !nth_error_map. destruct (Nat.lt_ge_cases i (length q)) as [L|L].
  - rewrite (nth_error_nth' (seq 0 (length q)) 0) by (rewrite seq_length; exact L). rewrite seq_nth by exact L. cbn [option_map].
    rewrite (rr_buf _ _ _ _ R) by (apply Z.mod_pos_bound; lia). rewrite Zminus_mod_idemp_l.
    replace (r_begin r + Z.of_nat (0 + i) - r_begin r)%Z with (Z.of_nat i) by lia. rewrite Z.mod_small by lia. rewrite Nat2Z.id.
    apply nth_error_Some in L. destruct (nth_error q i); [reflexivity|congruence].
  - assert (X : nth_error (seq 0 (length q)) i = None) by (apply nth_error_None; rewrite seq_length; exact L). rewrite X. assert (Y : nth_error q i = None) by now apply nth_error_None. now rewrite Y.
Qed.
Lemma effects_in {C R : Type} (es : list (event C R)) t c v : In (t, c, v) (effects es) -> In (Eff t c v) es.
Proof.
  induction es as [|e es IH]; [intros []|]. unfold effects in *. cbn [flat_map]. intros X. apply in_app_or in X as [X|X]; [|right; auto].
  destruct e as [u d|u d x|u x]; cbn in X; [destruct X| |destruct X]. destruct X as [X|[]]. left; congruence.
Qed.
Lemma nat_off T x : nat_ok T x -> t_active T = false -> x = WOff.
Proof. intros (_ & H) A. destruct (t_nat T); try tauto; destruct H as (_ & H); try destruct H; congruence. Qed.

Section B.
  Variable N : nat.
  Hypothesis HN : (Z.of_nat N < 2 ^ 64 - 1)%Z.
  Variable dflt : Z.
  Variable ext_prio : nat -> Z.
  Notation size := (Z.of_nat N).
  Notation B := (rbBufSize size).
  Notation sstep := (PoolStackModel.t_step N dflt ext_prio).
  Let HB : (1 <= B < 2 ^ 64)%Z.
  Proof. clear - HN. abstract (unfold rbBufSize; cbn; rewrite u64_small; lia). Qed.

  (** the stack over the atomic objects *)
  Lemma stack_back q0 ls s es : filled N q0 -> exec sstep (PoolStackModel.t_init dflt q0) ls = Some (s, es) ->
    (forall t x ms g p, ~ In (t, PStart x ms g p, PErr TimedOut) (effects es)) ->
    (forall t, PoolStackModel.t_idle s t) -> (forall t, q_thr (t_queue s) t = QIdle) -> (forall r, r < N -> p_run (t_pool s) r = WOff) -> (forall t g, p_guard (t_pool s) t g = None) ->
    Permutation (ring_contents B (q_ring (t_queue s))) (map Some (seq 0 N)) /\ (0 < N -> q_ne (t_queue s) = true).
  Proof.
    intros F E NT ID QI RO GD. destruct (reach_sim N HN dflt ext_prio q0 ls s es F E) as (ls' & a & own & EA & S & H).
    assert (U : unsig (t_queue s) = []). { unfold unsig. destruct (q_mrb (t_queue s)); [now rewrite QI|reflexivity]. }
    pose proof (sm_ring _ _ _ S) as R. rewrite U, app_nil_r in R.
    assert (REST : at_rest N a).
    { split; [intros t; exact (proj1 (agree_idle N HN ext_prio s a t S) (ID t))|]. intros r Hr. apply (agree_run N HN ext_prio s a r WOff S (or_introl eq_refl)). now apply RO. }
    assert (GA : forall t g, p_guard a t g = None). { intros t g. destruct (agree_thr N s a t S (QI t)) as (_ & _ & X). now rewrite X. }
    assert (NT' : no_start_timed_out es).
    { intros t x ms g p X. apply (NT t x ms g p). clear - X. induction es as [|e es IH]; [destruct X|]. unfold effects in *. cbn [flat_map]. apply in_or_app. destruct X as [->|X]; [left; now left|right; auto]. }
    pose proof (rest_all_back N dflt ext_prio ls' a es EA NT' REST GA) as P.
    split; [rewrite (contents_ok _ _ _ HB R); now apply Permutation_map|]. intros L. apply (sm_ne _ _ _ S). intros X. rewrite X in P. apply Permutation_length in P. rewrite seq_length in P. cbn in P. lia.
  Qed.

  Variable w : Z.
  Hypothesis Hw : (2 <= w)%Z.
  Variable dbg : bool.
  Lemma whole_all_back_gen M c0 ls s o : 1 <= M -> w_filled N M w dbg c0 -> (forall l, In l ls -> w_calm l) -> exec (w_step N dflt ext_prio M w dbg) (w_init dflt c0) ls = Some (s, o) ->
    exists ew f sg, explains N ext_prio o ew f sg /\ ((forall t x ms g p, ~ In (t, PStart x ms g p, PErr TimedOut) (effects ew)) \/ (forall t x ms g p, In (Call t (PStart x ms g p)) o -> ms = (-1)%Z) ->
      (forall t, w_idle s t) -> (forall r, r < N -> t_active (w_thread s r) = false) -> (forall t g, p_guard (w_pool s) t g = None) ->
      Permutation (ring_contents B (c_ring (w_queue s))) (map Some (seq 0 N)) /\ (0 < N -> Z.testbit (e_pat (c_ev (w_queue s))) 0 = true)).
  Proof.
    intros HM1 F CA EX. destruct (whole_explained N HN dflt ext_prio M HM1 w Hw dbg c0 ls s o F CA EX) as (ew & f & sg & A & Q & es & Ls & q0 & a & ls' & EE & WS & LA & F0 & X & EA & _).
    exists ew, f, sg. split; [exact EE|]. rewrite (late_effects _ _ _ _ LA). intros NT' ID OFF GD.
    assert (NT : forall t x ms g p, ~ In (t, PStart x ms g p, PErr TimedOut) (effects es)).
    { destruct NT' as [NT|PA]; [exact NT|]. intros t x ms g p X'. apply effects_in in X'. revert X'. apply (patient_never_times_out N dflt ext_prio ls' a es EA).
      intros t' x' ms' g' p' C. apply (PA t' x' ms' g' p'). rewrite <- (proj1 EE). apply filter_In. split; [|reflexivity]. now apply (late_calls _ _ _ _ LA). }
    pose proof (s_r _ _ _ _ _ _ _ _ _ _ _ _ _ (ws_s _ _ _ _ _ WS)) as SR. rewrite <- (r_ring _ _ _ _ _ _ _ _ _ SR), <- (r_ne _ _ _ _ _ _ _ _ _ SR).
    apply (stack_back q0 Ls _ es F0 X NT); cbn [t_pool t_queue].
    - intros t. unfold PoolStackModel.t_idle. cbn. rewrite (rl_thr _ _ _ _ (ws_rel _ _ _ _ _ WS)). unfold abs_thr. now rewrite (ID t : p_thr _ _ = _).
    - intros t. apply (inq_idle N _ _ _ (ws_inq _ _ _ _ _ WS)). unfold wants. rewrite (ID t : p_thr _ _ = _). destruct (Nat.ltb_spec t N) as [L|]; [|reflexivity].
      now rewrite (nat_off _ _ (iv_nat _ _ _ _ _ (ws_inv _ _ _ _ _ WS) t) (OFF t L)).
    - intros r Hr. apply (active_off _ _ _ _ _ _ r (ws_inv _ _ _ _ _ WS) (ws_rel _ _ _ _ _ WS)). now apply OFF.
    - intros t g. rewrite (rl_guard _ _ _ _ (ws_rel _ _ _ _ _ WS)). unfold abs_guard. rewrite (ID t : p_thr _ _ = _). apply GD.
  Qed.
  Theorem whole_all_back M c0 ls s o : 1 <= M -> w_filled N M w dbg c0 -> (forall l, In l ls -> w_calm l) -> exec (w_step N dflt ext_prio M w dbg) (w_init dflt c0) ls = Some (s, o) ->
    exists ew f sg, explains N ext_prio o ew f sg /\ ((forall t x ms g p, ~ In (t, PStart x ms g p, PErr TimedOut) (effects ew)) ->
    (forall t, w_idle s t) -> (forall r, r < N -> t_active (w_thread s r) = false) -> (forall t g, p_guard (w_pool s) t g = None) ->
    Permutation (ring_contents B (c_ring (w_queue s))) (map Some (seq 0 N)) /\ (0 < N -> Z.testbit (e_pat (c_ev (w_queue s))) 0 = true)).
  Proof. intros HM1 F CA EX. destruct (whole_all_back_gen M c0 ls s o HM1 F CA EX) as (ew & f & sg & EE & H). exists ew, f, sg. split; [exact EE|]. intros NT. apply H. now left. Qed.
  Theorem whole_all_back_patient M c0 ls s o : 1 <= M -> w_filled N M w dbg c0 -> (forall l, In l ls -> w_calm l) -> exec (w_step N dflt ext_prio M w dbg) (w_init dflt c0) ls = Some (s, o) ->
    (forall t x ms g p, In (Call t (PStart x ms g p)) o -> ms = (-1)%Z) ->
    (forall t, w_idle s t) -> (forall r, r < N -> t_active (w_thread s r) = false) -> (forall t g, p_guard (w_pool s) t g = None) ->
    Permutation (ring_contents B (c_ring (w_queue s))) (map Some (seq 0 N)) /\ (0 < N -> Z.testbit (e_pat (c_ev (w_queue s))) 0 = true).
  Proof. intros HM1 F CA EX PA. destruct (whole_all_back_gen M c0 ls s o HM1 F CA EX) as (ew & f & sg & EE & H). apply H. now right. Qed.
End B.
Theorem whole_all_back_x N (HN : (Z.of_nat N < 2 ^ 64 - 1)%Z) dflt ext_prio M (HM : 1 <= M) w (Hw : (2 <= w)%Z) dbg c0 ls s o :
  w_filled N M w dbg c0 -> (forall l, In l ls -> w_calm l) -> exec (w_step N dflt ext_prio M w dbg) (w_init dflt c0) ls = Some (s, o) ->
  exists ew f sg, explains N ext_prio o ew f sg /\ ((forall t x ms g p, ~ In (t, PStart x ms g p, PErr TimedOut) (effects ew)) ->
    (forall t, w_idle s t) -> (forall r, r < N -> t_active (w_thread s r) = false) -> (forall t g, p_guard (w_pool s) t g = None) ->
    Permutation (ring_contents (rbBufSize (Z.of_nat N)) (c_ring (w_queue s))) (map Some (seq 0 N)) /\ (0 < N -> Z.testbit (e_pat (c_ev (w_queue s))) 0 = true)).
Proof. exact (whole_all_back N HN dflt ext_prio w Hw dbg M c0 ls s o HM). Qed.
Theorem whole_all_back_patient_x N (HN : (Z.of_nat N < 2 ^ 64 - 1)%Z) dflt ext_prio M (HM : 1 <= M) w (Hw : (2 <= w)%Z) dbg c0 ls s o :
  w_filled N M w dbg c0 -> (forall l, In l ls -> w_calm l) -> exec (w_step N dflt ext_prio M w dbg) (w_init dflt c0) ls = Some (s, o) ->
  (forall t x ms g p, In (Call t (PStart x ms g p)) o -> ms = (-1)%Z) ->
  (forall t, w_idle s t) -> (forall r, r < N -> t_active (w_thread s r) = false) -> (forall t g, p_guard (w_pool s) t g = None) ->
  Permutation (ring_contents (rbBufSize (Z.of_nat N)) (c_ring (w_queue s))) (map Some (seq 0 N)) /\ (0 < N -> Z.testbit (e_pat (c_ev (w_queue s))) 0 = true).
Proof. exact (whole_all_back_patient N HN dflt ext_prio w Hw dbg M c0 ls s o HM). Qed.
