(** ThreadPool over any threads and event flags that take effect one call at a time, and over MessageQueue's code: what its agents do refines the pool
    over atomic threads and flags (OS/PoolStackModel).  A thread object is given by where its callers are and by what its own thread does, an event
    flag by where its callers are and by its pattern; both change only by events.  (The proof of OS/PoolWholeProofs, without the StdCpp objects.) *)
From Coq Require Import List ZArith Bool Lia Arith.
Import ListNotations.
From Verif Require Import Spec.OSError Spec.Linear Spec.EventFlagSpec Spec.MessageQueueSpec Spec.ThreadSpec OS.Sched OS.MessageQueueModel OS.MessageQueueProofs
  OS.QueueStackModel OS.QueueStackProofs Spec.ThreadPoolSpec OS.ThreadPoolModel OS.ThreadPoolProofs
  OS.ThreadPoolLiveness OS.PoolStackModel OS.PoolStackProofs OS.PoolWholeModel OS.PoolWholeProofs.
Local Open Scope nat_scope.

(** what the own thread of a Thread object does: nothing; it has been started; it is inside run(); it has left run() but does not count as finished *)
Inductive hstate := HOff | HStarted | HRun | HEnding.
(** [h_ph]: where the callers are; agent 0 is the thread itself *)
Record athr := mkH { h_ph : nat -> status tcall tres; h_st : hstate }.
Record aflag := mkG { g_ph : nat -> status ecall eres; g_pat : Z }.
Definition started (x : hstate) : hstate := match x with HOff => HStarted | x => x end.
(** one event of a Thread object *)
Definition th_event (a : athr) (e : event tcall tres) (b : athr) : Prop :=
  match e with
  | Call 0 TBegin => h_st a = HStarted /\ h_st b = HRun /\ forall u, h_ph b u = h_ph a u
  | Call 0 TEnd => h_st a = HRun /\ h_st b = HEnding /\ forall u, h_ph b u = h_ph a u
  | Eff 0 TEnd _ => h_st a = HEnding /\ h_st b = HOff /\ forall u, h_ph b u = h_ph a u
  | Call 0 _ => False
  | Eff 0 _ _ | Ret 0 _ => h_st b = h_st a /\ forall u, h_ph b u = h_ph a u
  | Call (S t) c => h_ph a (S t) = Out /\ h_st b = h_st a /\ forall u, h_ph b u = set_st (h_ph a) (S t) (Pending c) u
  | Eff (S t) c v => h_ph a (S t) = Pending c /\ (forall u, h_ph b u = set_st (h_ph a) (S t) (Done v) u) /\
      match c with
      | TStart => v = RVoid /\ h_st b = started (h_st a)
      | TWait ms => h_st b = h_st a /\ (v = RErr OK /\ h_st a = HOff \/ v = RErr TimedOut /\ ms <> (-1)%Z /\ h_st a <> HOff)
      | _ => False
      end
  | Ret (S t) v => h_ph a (S t) = Done v /\ h_st b = h_st a /\ forall u, h_ph b u = set_st (h_ph a) (S t) Out u
  end.

Section P.
  Variable N : nat.
  Hypothesis HN : (Z.of_nat N < 2 ^ 64 - 1)%Z.
  Variable dflt : Z.
  Variable ext_prio : nat -> Z.
  Variable w : Z.
  Hypothesis Hw : (2 <= w)%Z.
  Notation size := (Z.of_nat N).
  Let HM : (0 <= size < 2 ^ 64 - 1)%Z.
  Proof. lia. Qed.
  Let w0 : (0 < w)%Z.
  Proof. lia. Qed.
  Notation pstep := (p_step N dflt ext_prio).
  Notation sstep := (PoolStackModel.t_step N dflt ext_prio).
  Notation qstep := (q_step nat size).
  Notation qok := (qinv nat size).
  Notation threads := (nat -> athr).
  Notation flags := (nat -> aflag).

  Definition th_done (T : threads) (r t : nat) : option tres := match h_ph (T r) (S t) with Done v => Some v | _ => None end.
  Definition fl_done (E : flags) (r t : nat) : option eres := match g_ph (E r) t with Done v => Some v | _ => None end.

  (** ** the state of the pool over atomic threads and flags *)
  Definition abs_thr (P : pst) (T : threads) (E : flags) (t : nat) : ppc :=
    match p_thr P t with
    | PHold SJoin r x ms g p => match th_done T r t with
                                | Some (RErr OK) => PHold STask r x ms g p
                                | Some (RErr e) => PRet (PErr e)
                                | _ => PHold SJoin r x ms g p
                                end
    | PHold SGo r x ms g p => match th_done T r t with Some _ => PRet (PErr OK) | None => PHold SGo r x ms g p end
    | PAt (PWait g ms) => match p_guard P t g with
                          | Some r => match fl_done E r t with Some (ERes e _) => PRet (PErr e) | _ => PAt (PWait g ms) end
                          | None => PAt (PWait g ms)
                          end
    | PAt (PRelease g) => match p_guard P t g with
                          | Some r => match fl_done E r t with Some _ => PRel false r g | None => PAt (PRelease g) end
                          | None => PAt (PRelease g)
                          end
    | PRel false r g => match fl_done E r t with Some _ => PRel true r g | None => PRel false r g end
    | q => q
    end.
  Definition abs_guard (P : pst) (T : threads) (t i : nat) : option nat :=
    match p_thr P t with
    | PHold SGo r _ _ (Some g) _ => match th_done T r t with Some _ => if i =? g then Some r else p_guard P t i | None => p_guard P t i end
    | _ => p_guard P t i
    end.
  Definition abs_run (P : pst) (T : threads) (E : flags) (r : nat) : wpc :=
    match h_st (T r) with
    | HOff => WOff
    | HStarted => WStarted
    | HRun => match p_run P r with
              | WAfter ANotify th => match fl_done E r r with Some _ => WEnd | None => WAfter ANotify th end
              | WAfter AReset th => match fl_done E r r with Some _ => WAfter ASend th | None => WAfter AReset th end
              | x => x
              end
    | HEnding => WEnd
    end.
  (** the pool part [P] with its objects, and the pool [A] over atomic ones *)
  Record rel (P : pst) (T : threads) (E : flags) (A : pst) : Prop := {
    rl_task : forall r, p_task A r = p_task P r;
    rl_needs : forall r, p_needs A r = p_needs P r;
    rl_prio : forall r, p_prio A r = p_prio P r;
    rl_ev : forall r, p_ev A r = negb (g_pat (E r) =? 0)%Z;
    rl_run : forall r, p_run A r = abs_run P T E r;
    rl_thr : forall t, p_thr A t = abs_thr P T E t;
    rl_guard : forall t i, p_guard A t i = abs_guard P T t i }.

  (** ** the objects and their callers *)
  Definition nat_ok (T : athr) (x : wpc) : Prop := match h_st T with HRun => x <> WOff /\ x <> WStarted | _ => x = WOff end.
  Definition tfits (c : tcall) (v : tres) : Prop :=
    match c with TWait _ => v = RErr OK \/ v = RErr TimedOut | TStart => v = RVoid | _ => False end.
  Definition efits (c : ecall) (v : eres) : Prop :=
    match c with EWaitAny (Within ms) => v = ERes OK None \/ (v = ERes TimedOut None /\ ms <> (-1)%Z) | ESetAll | EResetAll => v = ERes OK None | _ => False end.
  Definition th_ok (P : pst) (r u : nat) (q : status tcall tres) : Prop :=
    match q with
    | Out => True
    | Pending c => exists t, u = S t /\ wants_thread P t = Some (r, c)
    | Done v => exists t c, u = S t /\ wants_thread P t = Some (r, c) /\ tfits c v
    end.
  Definition fl_ok (P : pst) (r t : nat) (q : status ecall eres) : Prop :=
    match q with
    | Out => True
    | Pending c => wants_flag N P t = Some (r, c)
    | Done v => exists c, wants_flag N P t = Some (r, c) /\ efits c v
    end.
  Record inv (P : pst) (T : threads) (E : flags) : Prop := {
    iv_nat : forall r, nat_ok (T r) (p_run P r);
    iv_idle : forall r, r < N -> p_run P r <> WIn -> p_thr P r = PIdle;
    iv_out : forall r, N <= r -> p_run P r = WOff;
    iv_th : forall r u, th_ok P r u (h_ph (T r) u);
    iv_fl : forall r t, fl_ok P r t (g_ph (E r) t);
    iv_pat : forall r, (0 <= g_pat (E r) < 2 ^ w)%Z }.
  (** who is behind: pool threads that have handed themselves over, but are still inside setAll or send *)
  Definition owes (P : pst) (E : flags) (Q : qst nat) (r : nat) : bool :=
    match p_run P r with
    | WAfter ANotify _ => match fl_done E r r with Some _ => true | None => false end
    | WAfter ASend _ => match q_thr Q r with QAt _ pt => after_set pt | QIdle => false end
    | _ => false
    end.
  (** threads inside the queue are at a call of the queue *)
  Definition inq (P : pst) (Q : qst nat) : Prop := forall t c pt, q_thr Q t = QAt c pt -> wants N P t = Some c.

  (** ** what depends on what *)
  Lemma wants_thread_ext P P' t : p_thr P' t = p_thr P t -> wants_thread P' t = wants_thread P t.
  Proof. unfold wants_thread. intros ->. reflexivity. Qed.
  Lemma wants_flag_ext P P' t : p_thr P' t = p_thr P t -> (forall i, p_guard P' t i = p_guard P t i) -> p_run P' t = p_run P t -> wants_flag N P' t = wants_flag N P t.
  Proof. unfold wants_flag. intros -> G ->. destruct (p_thr P t) as [|[ | | | | |]| | |]; try reflexivity; now rewrite G. Qed.
  Lemma wants_ext P P' t : p_thr P' t = p_thr P t -> p_run P' t = p_run P t -> wants N P' t = wants N P t.
  Proof. unfold wants. intros -> ->. reflexivity. Qed.
  Lemma abs_thr_ext P P' T T' E E' u : p_thr P' u = p_thr P u -> (forall i, p_guard P' u i = p_guard P u i) ->
    (forall r, th_done T' r u = th_done T r u) -> (forall r, fl_done E' r u = fl_done E r u) -> abs_thr P' T' E' u = abs_thr P T E u.
  Proof.
    unfold abs_thr. intros -> G HT HE. destruct (p_thr P u) as [|[ | | | | |]|[ | | | |]|[|]|]; try reflexivity; rewrite ?G, ?HT, ?HE; try reflexivity.
    - destruct (p_guard P u g) as [r|]; [rewrite HE|]; reflexivity.
    - destruct (p_guard P u g) as [r|]; [rewrite HE|]; reflexivity.
  Qed.
  Lemma abs_guard_ext P P' T T' u : p_thr P' u = p_thr P u -> (forall i, p_guard P' u i = p_guard P u i) ->
    (forall r, th_done T' r u = th_done T r u) -> forall i, abs_guard P' T' u i = abs_guard P T u i.
  Proof.
    unfold abs_guard. intros -> G HT i. destruct (p_thr P u) as [|[ | | | | |]|[ | | | |] r x ms [g|] p|[|]|]; rewrite ?G, ?HT; reflexivity.
  Qed.
  Lemma abs_run_ext P P' T T' E E' r : p_run P' r = p_run P r -> h_st (T' r) = h_st (T r) ->
    fl_done E' r r = fl_done E r r -> abs_run P' T' E' r = abs_run P T E r.
  Proof. unfold abs_run. intros -> -> ->. reflexivity. Qed.
  Lemma th_ok_ext P P' r u q : (forall t, u = S t -> wants_thread P' t = wants_thread P t) -> th_ok P r u q -> th_ok P' r u q.
  Proof.
    intros W. destruct q as [|c|v]; cbn; try tauto.
    - intros (t & A & B). exists t. split; [exact A|]. now rewrite W.
    - intros (t & c & A & B & C). exists t, c. split; [exact A|]. split; [now rewrite W|exact C].
  Qed.
  Lemma fl_ok_ext P P' r t q : wants_flag N P' t = wants_flag N P t -> fl_ok P r t q -> fl_ok P' r t q.
  Proof. intros W. destruct q; cbn; now rewrite ?W. Qed.

  Lemma quiet_thread P T E t : inv P T E -> wants_thread P t = None -> forall r, h_ph (T r) (S t) = Out.
  Proof.
    intros I W r. pose proof (iv_th _ _ _ I r (S t)) as H. destruct (h_ph (T r) (S t)) as [|c|v]; cbn in H; try tauto.
    - destruct H as (t' & X & H). injection X as <-. congruence.
    - destruct H as (t' & c & X & H & _). injection X as <-. congruence.
  Qed.
  Lemma quiet_flag P T E t : inv P T E -> wants_flag N P t = None -> forall r, g_ph (E r) t = Out.
  Proof.
    intros I W r. pose proof (iv_fl _ _ _ I r t) as H. destruct (g_ph (E r) t) as [|c|v]; cbn in H; [reflexivity|congruence|]. destruct H as (c & H & _). congruence.
  Qed.
  Lemma quiet_th_done P T E t : inv P T E -> wants_thread P t = None -> forall r, th_done T r t = None.
  Proof. intros I W r. unfold th_done. now rewrite (quiet_thread _ _ _ _ I W r). Qed.
  Lemma quiet_fl_done P T E t : inv P T E -> wants_flag N P t = None -> forall r, fl_done E r t = None.
  Proof. intros I W r. unfold fl_done. now rewrite (quiet_flag _ _ _ _ I W r). Qed.

  (** [t] moves, and is in no object *)
  Lemma inv_frame P P' T E t :
    (forall u, u <> t -> p_thr P' u = p_thr P u /\ (forall i, p_guard P' u i = p_guard P u i) /\ p_run P' u = p_run P u) ->
    (forall r, h_ph (T r) (S t) = Out) -> (forall r, g_ph (E r) t = Out) ->
    nat_ok (T t) (p_run P' t) -> (t < N -> p_run P' t <> WIn -> p_thr P' t = PIdle) -> (N <= t -> p_run P' t = WOff) ->
    inv P T E -> inv P' T E.
  Proof.
    intros F QT QF A B C [I1 I2 I3 I4 I5 I6]. constructor.
    - intros r. destruct (Nat.eq_dec r t) as [->|Ne]; [exact A|]. destruct (F r Ne) as (_ & _ & ->). apply I1.
    - intros r. destruct (Nat.eq_dec r t) as [->|Ne]; [exact B|]. destruct (F r Ne) as (-> & _ & ->). apply I2.
    - intros r. destruct (Nat.eq_dec r t) as [->|Ne]; [exact C|]. destruct (F r Ne) as (_ & _ & ->). apply I3.
    - intros r u. destruct (Nat.eq_dec u (S t)) as [->|Ne]; [now rewrite QT|]. apply (th_ok_ext P); [|apply I4].
      intros v Hv. apply wants_thread_ext. apply F. congruence.
    - intros r u. destruct (Nat.eq_dec u t) as [->|Ne]; [now rewrite QF|]. apply (fl_ok_ext P); [|apply I5]. destruct (F u Ne) as (F1 & F2 & F3). now apply wants_flag_ext.
    - exact I6.
  Qed.
  Lemma rel_frame P P' T E A A' t :
    (forall u, u <> t -> p_thr P' u = p_thr P u /\ (forall i, p_guard P' u i = p_guard P u i) /\ p_run P' u = p_run P u) ->
    (forall u, u <> t -> p_thr A' u = p_thr A u /\ (forall i, p_guard A' u i = p_guard A u i) /\ p_run A' u = p_run A u) ->
    (forall r, p_task A' r = p_task P' r) -> (forall r, p_needs A' r = p_needs P' r) -> (forall r, p_prio A' r = p_prio P' r) -> (forall r, p_ev A' r = p_ev A r) ->
    p_thr A' t = abs_thr P' T E t -> (forall i, p_guard A' t i = abs_guard P' T t i) -> p_run A' t = abs_run P' T E t ->
    rel P T E A -> rel P' T E A'.
  Proof.
    intros F FA H1 H2 H3 H4 H5 H6 H7 [R1 R2 R3 R4 R5 R6 R7]. constructor; auto.
    - intros r. rewrite H4. apply R4.
    - intros r. destruct (Nat.eq_dec r t) as [->|Ne]; [exact H7|]. destruct (FA r Ne) as (_ & _ & ->). destruct (F r Ne) as (_ & _ & F3). rewrite R5. symmetry. now apply abs_run_ext.
    - intros u. destruct (Nat.eq_dec u t) as [->|Ne]; [exact H5|]. destruct (FA u Ne) as (-> & _ & _). destruct (F u Ne) as (F1 & F2 & _). rewrite R6. symmetry. now apply abs_thr_ext.
    - intros u i. destruct (Nat.eq_dec u t) as [->|Ne]; [apply H6|]. destruct (FA u Ne) as (_ & -> & _). destruct (F u Ne) as (F1 & F2 & _). rewrite R7. symmetry. now apply abs_guard_ext.
  Qed.
  Lemma inq_frame P P' Q t :
    (forall u, u <> t -> p_thr P' u = p_thr P u /\ (forall i, p_guard P' u i = p_guard P u i) /\ p_run P' u = p_run P u) ->
    q_thr Q t = QIdle -> inq P Q -> inq P' Q.
  Proof.
    intros F QI I u c pt Hu. destruct (Nat.eq_dec u t) as [->|Ne]; [congruence|]. rewrite <- (I u c pt Hu). destruct (F u Ne) as (F1 & _ & F3). now apply wants_ext.
  Qed.
  Lemma owes_frame P P' E Q t :
    (forall u, u <> t -> p_thr P' u = p_thr P u /\ (forall i, p_guard P' u i = p_guard P u i) /\ p_run P' u = p_run P u) ->
    owes P E Q t = owes P' E Q t -> forall u, owes P' E Q u = owes P E Q u.
  Proof. intros F O u. destruct (Nat.eq_dec u t) as [->|Ne]; [now symmetry|]. unfold owes. destruct (F u Ne) as (_ & _ & ->). reflexivity. Qed.
  Lemma inq_idle P Q t : inq P Q -> wants N P t = None -> q_thr Q t = QIdle.
  Proof. intros I W. destruct (q_thr Q t) as [|c pt] eqn:X; [reflexivity|]. rewrite (I t c pt X) in W. discriminate. Qed.

  (** all of one step at once: [t] is in no object before and after *)
  Record ok4 (P P' : pst) (T : threads) (E : flags) (Q : qst nat) (A' : pst) (es ew : list pev) : Prop := {
    o_rel : rel P' T E A';
    o_inv : inv P' T E;
    o_inq : inq P' Q;
    o_late : late (owes P E Q) es (owes P' E Q) ew }.

  (** ** the pool's own steps *)
  Definition acts (l : plab) : nat := match l with XCall t _ | XStep t | XTimeout t _ => t | XRun r | XTaskEnd r _ => r end.
  Lemma abs_run_in P T E A r x : inv P T E -> rel P T E A -> p_run P r = x -> x <> WOff -> (forall th, x <> WAfter ANotify th) -> (forall th, x <> WAfter AReset th) -> p_run A r = x.
  Proof.
    intros I R X NO NN NR. rewrite (rl_run _ _ _ _ R). unfold abs_run. pose proof (iv_nat _ _ _ I r) as H. unfold nat_ok in H.
    destruct (h_st (T r)); try congruence.
    rewrite X. destruct x as [| | | |[| | | |] th|]; try reflexivity; exfalso; [exact (NN th eq_refl)|exact (NR th eq_refl)].
  Qed.
  Lemma run_lt P T E r : inv P T E -> p_run P r <> WOff -> r < N.
  Proof. intros I X. destruct (Nat.lt_ge_cases r N) as [L|G]; [exact L|]. elim X. exact (iv_out _ _ _ I r G). Qed.
  Lemma nat_ok_in T x y : nat_ok T x -> x <> WOff -> y <> WOff -> y <> WStarted -> nat_ok T y.
  Proof.
    unfold nat_ok. intros H X Y1 Y2. destruct (h_st T); try congruence. auto.
  Qed.
  Ltac oth := intros ? ?; cbn [p_thr p_guard p_run p_go p_wto]; unfold set_guard; rewrite ?fupd_other by congruence; repeat split.
  Lemma on_agent P T E Q A t P1 A1 es : inv P T E -> rel P T E A -> inq P Q ->
    p_thr P t <> PIdle \/ (p_run P t = WIn \/ N <= t) -> wants_thread P t = None -> wants_flag N P t = None -> wants N P t = None ->
    (forall u, u <> t -> p_thr P1 u = p_thr P u /\ (forall i, p_guard P1 u i = p_guard P u i)) -> (forall u, p_run P1 u = p_run P u) ->
    (forall u, u <> t -> p_thr A1 u = p_thr A u /\ (forall i, p_guard A1 u i = p_guard A u i)) -> (forall u, p_run A1 u = p_run A u) ->
    (forall r, p_task A1 r = p_task P1 r) -> (forall r, p_needs A1 r = p_needs P1 r) -> (forall r, p_prio A1 r = p_prio P1 r) -> (forall r, p_ev A1 r = p_ev A r) ->
    p_thr A1 t = p_thr P1 t -> (forall i, p_guard A1 t i = p_guard P1 t i) -> (forall e, In e es -> agent e = t) ->
    ok4 P P1 T E Q A1 es es.
  Proof.
    intros I R IQ BZ W1 W2 W3 F1 F2 F3 F4 H1 H2 H3 H4 H5 H6 HE.
    assert (FP : forall u, u <> t -> p_thr P1 u = p_thr P u /\ (forall i, p_guard P1 u i = p_guard P u i) /\ p_run P1 u = p_run P u).
    { intros u Ne. destruct (F1 u Ne) as (X & Y). auto. }
    assert (FA : forall u, u <> t -> p_thr A1 u = p_thr A u /\ (forall i, p_guard A1 u i = p_guard A u i) /\ p_run A1 u = p_run A u).
    { intros u Ne. destruct (F3 u Ne) as (X & Y). auto. }
    pose proof (quiet_thread _ _ _ _ I W1) as QT. pose proof (quiet_flag _ _ _ _ I W2) as QF.
    assert (DT : forall r, th_done T r t = None) by (intros r; unfold th_done; now rewrite QT).
    assert (DF : forall r, fl_done E r t = None) by (intros r; unfold fl_done; now rewrite QF).
    assert (RI : p_run P t = WIn \/ N <= t).
    { destruct BZ as [BZ|BZ]; [|exact BZ]. destruct (Nat.lt_ge_cases t N) as [L|G]; [|auto]. left. destruct (p_run P t) eqn:X; try reflexivity; elim BZ; apply (iv_idle _ _ _ I t L); congruence. }
    assert (OW : owes P E Q t = false).
    { unfold owes. destruct RI as [-> |G]; [reflexivity|]. now rewrite (iv_out _ _ _ I t G). }
    assert (OW1 : owes P1 E Q t = false).
    { unfold owes. rewrite F2. destruct RI as [-> |G]; [reflexivity|]. now rewrite (iv_out _ _ _ I t G). }
    constructor.
    - apply (rel_frame P P1 T E A A1 t FP FA); auto.
      + rewrite H5. unfold abs_thr. destruct (p_thr P1 t) as [|[ | | | | |]|[ | | | |]|[|]|]; try reflexivity; rewrite ?DT, ?DF; try reflexivity.
        * destruct (p_guard P1 t g); [rewrite DF|]; reflexivity.
        * destruct (p_guard P1 t g); [rewrite DF|]; reflexivity.
      + intros i. rewrite H6. unfold abs_guard. destruct (p_thr P1 t) as [|[ | | | | |]|[ | | | |] r x ms [g|] p|[|]|]; rewrite ?DT; reflexivity.
      + rewrite F4, (rl_run _ _ _ _ R). symmetry. apply abs_run_ext; auto.
    - apply (inv_frame P P1 T E t FP QT QF); auto.
      + rewrite F2. apply (iv_nat _ _ _ I).
      + rewrite F2. intros L X. destruct RI as [RI|G]; [congruence|lia].
      + rewrite F2. apply (iv_out _ _ _ I).
    - apply (inq_frame P P1 Q t FP); [|exact IQ]. exact (inq_idle _ _ _ IQ W3).
    - pose proof (owes_frame P P1 E Q t FP (eq_trans OW (eq_sym OW1))) as OX. clear - OX OW HE.
      induction es as [|e es IH]; [constructor; exact OX|]. constructor; [rewrite (HE e (or_introl eq_refl)); exact OW|]. apply IH. intros e' H. apply HE. now right.
  Qed.
  (** a pool thread moves inside TaskRunner::run *)
  Lemma on_worker P T E Q A r x P1 A1 es : inv P T E -> rel P T E A -> inq P Q ->
    p_run P r <> WOff -> x <> WOff -> x <> WStarted -> p_thr P r = PIdle -> p_run P1 r = x -> wants_flag N P r = None -> wants N P r = None ->
    (forall u, u <> r -> p_run P1 u = p_run P u) -> (forall u, p_thr P1 u = p_thr P u /\ (forall i, p_guard P1 u i = p_guard P u i)) ->
    (forall u, u <> r -> p_run A1 u = p_run A u) -> (forall u, p_thr A1 u = p_thr A u /\ (forall i, p_guard A1 u i = p_guard A u i)) ->
    (forall r, p_task A1 r = p_task P1 r) -> (forall r, p_needs A1 r = p_needs P1 r) -> (forall r, p_prio A1 r = p_prio P1 r) -> (forall r, p_ev A1 r = p_ev A r) ->
    p_run A1 r = x -> (forall e, In e es -> agent e = r) ->
    ok4 P P1 T E Q A1 es es.
  Proof.
    intros I R IQ NO XO XS PI X1 W2 W3 F1 F2 F3 F4 H1 H2 H3 H4 H5 HE.
    assert (W1 : wants_thread P r = None) by (unfold wants_thread; now rewrite PI).
    assert (FP : forall u, u <> r -> p_thr P1 u = p_thr P u /\ (forall i, p_guard P1 u i = p_guard P u i) /\ p_run P1 u = p_run P u).
    { intros u Ne. destruct (F2 u) as (X & Y). auto. }
    assert (FA : forall u, u <> r -> p_thr A1 u = p_thr A u /\ (forall i, p_guard A1 u i = p_guard A u i) /\ p_run A1 u = p_run A u).
    { intros u Ne. destruct (F4 u) as (X & Y). auto. }
    pose proof (quiet_thread _ _ _ _ I W1) as QT. pose proof (quiet_flag _ _ _ _ I W2) as QF.
    assert (DT : forall u, th_done T u r = None) by (intros u; unfold th_done; now rewrite QT).
    assert (DF : forall u, fl_done E u r = None) by (intros u; unfold fl_done; now rewrite QF).
    pose proof (inq_idle _ _ _ IQ W3) as QI.
    assert (NK : nat_ok (T r) x) by (apply (nat_ok_in _ (p_run P r)); auto; apply (iv_nat _ _ _ I)).
    assert (OW : owes P E Q r = false) by (unfold owes; rewrite DF, QI; destruct (p_run P r) as [| | | |[| | | |] th|]; reflexivity).
    assert (OW1 : owes P1 E Q r = false) by (unfold owes; rewrite DF, QI; destruct (p_run P1 r) as [| | | |[| | | |] th|]; reflexivity).
    constructor.
    - apply (rel_frame P P1 T E A A1 r FP FA); auto.
      + destruct (F4 r) as (-> & _). rewrite (rl_thr _ _ _ _ R). symmetry. apply abs_thr_ext; auto; apply F2.
      + intros i. destruct (F4 r) as (_ & ->). rewrite (rl_guard _ _ _ _ R). symmetry. apply abs_guard_ext; auto; apply F2.
      + rewrite H5. unfold abs_run. rewrite X1, DF. unfold nat_ok in NK. destruct (h_st (T r)); try congruence. destruct x as [| | | |[| | | |] th|]; reflexivity.
    - apply (inv_frame P P1 T E r FP QT QF); auto.
      + rewrite X1. exact NK.
      + intros _ _. destruct (F2 r) as (-> & _). exact PI.
      + intros G. elim NO. exact (iv_out _ _ _ I r G).
    - apply (inq_frame P P1 Q r FP); [exact QI|exact IQ].
    - pose proof (owes_frame P P1 E Q r FP (eq_trans OW (eq_sym OW1))) as OX. clear - OX OW HE.
      induction es as [|e es IH]; [constructor; exact OX|]. constructor; [rewrite (HE e (or_introl eq_refl)); exact OW|]. apply IH. intros e' H. apply HE. now right.
  Qed.
  Lemma agent_eq P T E A t : inv P T E -> rel P T E A -> wants_thread P t = None -> wants_flag N P t = None -> p_thr A t = p_thr P t /\ forall i, p_guard A t i = p_guard P t i.
  Proof.
    intros I R W1 W2. pose proof (quiet_th_done _ _ _ _ I W1) as DT. pose proof (quiet_fl_done _ _ _ _ I W2) as DF. split.
    - rewrite (rl_thr _ _ _ _ R). unfold abs_thr. destruct (p_thr P t) as [|[ | | | | |]|[ | | | |]|[|]|]; rewrite ?DT, ?DF; try reflexivity; destruct (p_guard P t g); rewrite ?DF; reflexivity.
    - intros i. rewrite (rl_guard _ _ _ _ R). unfold abs_guard. destruct (p_thr P t) as [|[ | | | | |]|[ | | | |] r x ms [g|] p|[|]|]; rewrite ?DT; reflexivity.
  Qed.
  Lemma callable_eq P T E A t c : inv P T E -> rel P T E A -> callable N P t c = true -> (forall i, p_guard A t i = p_guard P t i) -> callable N A t c = true.
  Proof.
    intros I R C G. unfold callable in *. apply andb_prop in C. destruct C as (C1 & C2). apply andb_true_intro. split.
    - destruct (t <? N); [|reflexivity]. destruct (p_run P t) eqn:X; try discriminate. erewrite (abs_run_in _ _ _ _ _ _ I R X); try discriminate. reflexivity.
    - destruct c as [x ms [g|] p|g ms|g|g|x q|x th]; try exact C2. now rewrite G.
  Qed.

  Lemma local_step P T E Q A l P1 es : inv P T E -> rel P T E A -> inq P Q -> local P l = true -> pstep P l = Some (P1, es) ->
    on_queue A l = false /\ exists A1, pstep A l = Some (A1, es) /\ ok4 P P1 T E Q A1 es es.
  Proof.
    intros I R IQ L S. pose proof R as [R1 R2 R3 R4 R5 R6 R7]. destruct l as [t c|t|t o|r|r th]; cbn [local] in L; try discriminate.
    - (* a call *)
      split; [reflexivity|]. cbn [p_step] in S |- *. destruct (p_thr P t) eqn:X; try discriminate. destruct (callable N P t c) eqn:C; [|discriminate]. injection S as <- <-.
      assert (RI : p_run P t = WIn \/ N <= t).
      { unfold callable in C. destruct (Nat.ltb_spec t N); [|auto]. left. apply andb_prop in C. destruct (p_run P t); try discriminate (proj1 C). reflexivity. }
      assert (W1 : wants_thread P t = None) by (unfold wants_thread; now rewrite X).
      assert (W2 : wants_flag N P t = None).
      { unfold wants_flag. rewrite X. destruct RI as [-> |G]; [now destruct (t <? N)|]. apply Nat.ltb_ge in G. now rewrite G. }
      assert (W3 : wants N P t = None).
      { unfold wants. rewrite X. destruct RI as [-> |G]; [now destruct (t <? N)|]. apply Nat.ltb_ge in G. now rewrite G. }
      destruct (agent_eq _ _ _ _ t I R W1 W2) as (E1 & E2). rewrite E1, X, (callable_eq _ _ _ _ _ _ I R C E2). eexists. split; [reflexivity|].
      apply (on_agent P T E Q A t); auto; try (left; congruence); try (oth; fail); try (cbn; intros; auto; fail); cbn [p_thr p_go]; rewrite ?fupd_same; auto. intros e [<-|[]]. reflexivity.
    - (* a step *)
      assert (W1 : wants_thread P t = None) by (unfold wants_thread; destruct (p_thr P t) as [|[ | | | | |]|[ | | | |]|[|]|]; try discriminate; reflexivity).
      assert (W2 : wants_flag N P t = None) by (unfold wants_flag; destruct (p_thr P t) as [|[ | | | | |]|[ | | | |]|[|]|]; try discriminate; try reflexivity; destruct (p_guard P t g); discriminate || reflexivity).
      assert (W3 : wants N P t = None) by (unfold wants; destruct (p_thr P t) as [|[ | | | | |]|[ | | | |]|[|]|]; try discriminate; try reflexivity; now rewrite L).
      assert (BZ : p_thr P t <> PIdle) by (intros X; rewrite X in L; discriminate).
      destruct (agent_eq _ _ _ _ t I R W1 W2) as (E1 & E2).
      split; [cbn [on_queue]; rewrite E1; destruct (p_thr P t) as [|[ | | | | |]|[ | | | |]|[|]|]; try discriminate; try reflexivity; cbn; now rewrite L|].
      assert (RS : forall pr, resolve N ext_prio A t pr = resolve N ext_prio P t pr) by (intros [v|]; cbn; [reflexivity|now rewrite R3]).
      cbn [p_step] in S |- *. rewrite E1.
      destruct (p_thr P t) as [|[x ms g p|g ms|g|g|x q|x th]|[ | | | |] r x ms g p|[|] r g|v] eqn:X; try discriminate.
      + rewrite L in S |- *. injection S as <- <-. eexists. split; [reflexivity|].
        apply (on_agent P T E Q A t); auto; try (left; congruence); try (oth; fail); try (cbn; intros; auto; fail); cbn [p_thr p_go]; rewrite ?fupd_same; auto; try (intros e [<-|[]]; reflexivity).
      + rewrite E2. destruct (p_guard P t g); [discriminate|]. injection S as <- <-. eexists. split; [reflexivity|].
        apply (on_agent P T E Q A t); auto; try (left; congruence); try (oth; fail); try (cbn; intros; auto; fail); cbn [p_thr p_go]; rewrite ?fupd_same; auto; try (intros e [<-|[]]; reflexivity).
      + rewrite E2. destruct (p_guard P t g); [discriminate|]. injection S as <- <-. eexists. split; [reflexivity|].
        apply (on_agent P T E Q A t); auto; try (left; congruence); try (oth; fail); try (cbn; intros; auto; fail); cbn [p_thr p_go]; rewrite ?fupd_same; auto; try (intros e [<-|[]]; reflexivity).
      + rewrite E2. injection S as <- <-. eexists. split; [reflexivity|].
        apply (on_agent P T E Q A t); auto; try (left; congruence); try (oth; fail); try (cbn; intros; auto; fail); cbn [p_thr p_go]; rewrite ?fupd_same; auto; try (intros e [<-|[]]; reflexivity).
      + injection S as <- <-. eexists. split; [reflexivity|].
        apply (on_agent P T E Q A t); auto; try (left; congruence); try (oth; fail); try (cbn; intros; auto; fail); cbn [p_thr p_task]; rewrite ?fupd_same; auto; try (intros ? []; fail).
        intros u. rewrite !fupd_eq. destruct (u =? r); auto.
      + injection S as <- <-. eexists. split; [reflexivity|].
        apply (on_agent P T E Q A t); auto; try (left; congruence); try (oth; fail); try (cbn; intros; auto; fail); cbn [p_thr p_needs]; rewrite ?fupd_same; auto; try (intros ? []; fail).
        intros u. rewrite !fupd_eq. destruct (u =? r); auto.
      + injection S as <- <-. rewrite RS. eexists. split; [reflexivity|].
        apply (on_agent P T E Q A t); auto; try (left; congruence); try (oth; fail); try (cbn; intros; auto; fail); cbn [p_thr p_prio]; rewrite ?fupd_same; auto; try (intros ? []; fail).
        intros u. rewrite !fupd_eq. destruct (u =? r); auto.
      + injection S as <- <-. eexists. split; [reflexivity|].
        apply (on_agent P T E Q A t); auto; try (left; congruence); try (oth; fail); try (cbn; intros; auto; fail); cbn [p_thr p_go]; rewrite ?fupd_same; auto; try (intros e [<-|[]]; reflexivity).
    - (* a pool thread *)
      assert (NO : p_run P r <> WOff) by (intros X; rewrite X in L; discriminate). pose proof (run_lt _ _ _ _ I NO) as LT.
      assert (PI : p_thr P r = PIdle) by (apply (iv_idle _ _ _ I r LT); intros X; rewrite X in L; discriminate).
      assert (W2 : wants_flag N P r = None) by (unfold wants_flag; rewrite PI, (proj2 (Nat.ltb_lt _ _) LT); destruct (p_run P r) as [| | | |[| | | |] th|]; try discriminate; reflexivity).
      assert (W3 : wants N P r = None) by (unfold wants; rewrite PI, (proj2 (Nat.ltb_lt _ _) LT); destruct (p_run P r) as [| | | |[| | | |] th|]; try discriminate; reflexivity).
      assert (AR : p_run A r = p_run P r) by (apply (abs_run_in P T E A r); auto; intros th X; rewrite X in L; discriminate).
      split; [cbn [on_queue]; rewrite AR; destruct (p_run P r) as [| | | |[| | | |] th|]; try discriminate; reflexivity|].
      cbn [p_step] in S |- *. rewrite AR. destruct (p_run P r) as [| | | |[| | | |] th|] eqn:X; try discriminate.
      + rewrite R1, R3. destruct (p_task P r =? 0); injection S as <- <-; (eexists; split; [reflexivity|]).
        * apply (on_worker P T E Q A r (WAfter APrio false)); auto; try congruence; try (oth; fail); cbn [p_run p_wto]; rewrite ?fupd_same; auto. intros e [].
        * apply (on_worker P T E Q A r WIn); auto; try congruence; try (oth; fail); cbn [p_run p_wto]; rewrite ?fupd_same; auto. intros e [<-|[<-|[<-|[]]]]; reflexivity.
      + injection S as <- <-. eexists. split; [reflexivity|].
        apply (on_worker P T E Q A r (WAfter ANeeds th)); auto; try congruence; try (oth; fail); cbn [p_run p_prio]; rewrite ?fupd_same; auto; try (intros e []).
        intros u. rewrite !fupd_eq. destruct (u =? r); auto.
      + rewrite R2. injection S as <- <-. eexists. split; [reflexivity|].
        apply (on_worker P T E Q A r (WAfter (if p_needs P r then ANotify else AReset) th)); auto; try congruence; try (oth; fail); cbn [p_run p_wto]; rewrite ?fupd_same; auto; intros e [].
    - (* the end of a task *)
      cbn [p_step] in S |- *. destruct (p_run P r) eqn:X; try discriminate. destruct (p_thr P r) eqn:PI; try discriminate. injection S as <- <-.
      assert (NO : p_run P r <> WOff) by congruence. pose proof (run_lt _ _ _ _ I NO) as LT.
      assert (W1 : wants_thread P r = None) by (unfold wants_thread; now rewrite PI).
      assert (W2 : wants_flag N P r = None) by (unfold wants_flag; now rewrite PI, (proj2 (Nat.ltb_lt _ _) LT), X).
      assert (W3 : wants N P r = None) by (unfold wants; now rewrite PI, (proj2 (Nat.ltb_lt _ _) LT), X).
      assert (AR : p_run A r = WIn) by (apply (abs_run_in P T E A r); auto; discriminate).
      destruct (agent_eq _ _ _ _ r I R W1 W2) as (E1 & E2).
      split; [reflexivity|]. rewrite AR, E1, PI, R1. eexists. split; [reflexivity|].
      apply (on_worker P T E Q A r (WAfter APrio th)); auto; try congruence; try (oth; fail); cbn [p_run p_wto]; rewrite ?fupd_same; auto. intros e [<-|[]]; reflexivity.
  Qed.

  (** ** steps inside an object *)
  Definition moves (A : pst) (es : list pev) (A' : pst) : Prop := (A' = A /\ es = []) \/ exists l, on_queue A l = false /\ pstep A l = Some (A', es).
  Definition sim1 (P : pst) (T : threads) (E : flags) (Q : qst nat) (A : pst) (P' : pst) (T' : threads) (E' : flags) (o : list pev) : Prop :=
    exists A' es ew, moves A es A' /\ rel P' T' E' A' /\ inv P' T' E' /\ inq P' Q /\ late (owes P E Q) es (owes P' E' Q) ew /\ history ew = o.

  Lemma rel_gen P P' T T' E E' A A' t :
    (forall u, u <> t -> p_thr P' u = p_thr P u /\ (forall i, p_guard P' u i = p_guard P u i)) ->
    (forall u, u <> t -> p_thr A' u = p_thr A u /\ (forall i, p_guard A' u i = p_guard A u i)) ->
    (forall r u, u <> t -> th_done T' r u = th_done T r u) -> (forall r u, u <> t -> fl_done E' r u = fl_done E r u) ->
    (forall r, p_task A' r = p_task P' r) -> (forall r, p_needs A' r = p_needs P' r) -> (forall r, p_prio A' r = p_prio P' r) ->
    (forall r, p_ev A' r = negb (g_pat (E' r) =? 0)%Z) -> (forall r, p_run A' r = abs_run P' T' E' r) ->
    p_thr A' t = abs_thr P' T' E' t -> (forall i, p_guard A' t i = abs_guard P' T' t i) ->
    rel P T E A -> rel P' T' E' A'.
  Proof.
    intros F FA HT HE H1 H2 H3 H4 H5 H6 H7 [R1 R2 R3 R4 R5 R6 R7]. constructor; auto.
    - intros u. destruct (Nat.eq_dec u t) as [->|Ne]; [exact H6|]. destruct (FA u Ne) as (-> & _). destruct (F u Ne) as (F1 & F2). rewrite R6. symmetry. apply abs_thr_ext; auto.
    - intros u i. destruct (Nat.eq_dec u t) as [->|Ne]; [apply H7|]. destruct (FA u Ne) as (_ & ->). destruct (F u Ne) as (F1 & F2). rewrite R7. symmetry. apply abs_guard_ext; auto.
  Qed.
  Lemma inv_gen P P' T T' E E' t :
    (forall u, u <> t -> p_thr P' u = p_thr P u /\ (forall i, p_guard P' u i = p_guard P u i) /\ p_run P' u = p_run P u) ->
    (forall r, nat_ok (T' r) (p_run P' r)) -> (t < N -> p_run P' t <> WIn -> p_thr P' t = PIdle) -> (N <= t -> p_run P' t = WOff) ->
    (forall r u, u <> S t -> th_ok P r u (h_ph (T' r) u)) -> (forall r, th_ok P' r (S t) (h_ph (T' r) (S t))) ->
    (forall r u, u <> t -> fl_ok P r u (g_ph (E' r) u)) -> (forall r, fl_ok P' r t (g_ph (E' r) t)) ->
    (forall r, 0 <= g_pat (E' r) < 2 ^ w)%Z ->
    inv P T E -> inv P' T' E'.
  Proof.
    intros F H1 H2 H3 H4 H5 H6 H7 H9 [I1 I2 I3 I4 I5 I6]. constructor; auto.
    - intros r. destruct (Nat.eq_dec r t) as [->|Ne]; [exact H2|]. destruct (F r Ne) as (-> & _ & ->). apply I2.
    - intros r. destruct (Nat.eq_dec r t) as [->|Ne]; [exact H3|]. destruct (F r Ne) as (_ & _ & ->). apply I3.
    - intros r u. destruct (Nat.eq_dec u (S t)) as [->|Ne]; [apply H5|]. apply (th_ok_ext P); [|now apply H4].
      intros v Hv. apply wants_thread_ext. apply F. congruence.
    - intros r u. destruct (Nat.eq_dec u t) as [->|Ne]; [apply H7|]. apply (fl_ok_ext P); [|now apply H6]. destruct (F u Ne) as (F1 & F2 & F3). now apply wants_flag_ext.
  Qed.
  Lemma inq_gen P P' Q t :
    (forall u, u <> t -> p_thr P' u = p_thr P u /\ (forall i, p_guard P' u i = p_guard P u i) /\ p_run P' u = p_run P u) ->
    wants N P t = None -> inq P Q -> inq P' Q.
  Proof. intros F W I. apply (inq_frame P P' Q t F); [exact (inq_idle _ _ _ I W)|exact I]. Qed.
  Lemma th_wants P t r c : wants_thread P t = Some (r, c) -> wants_flag N P t = None /\ wants N P t = None /\ p_thr P t <> PIdle.
  Proof.
    unfold wants_thread, wants_flag, wants. destruct (p_thr P t) as [|[ | | | | |]|[ | | | |]|[|]|]; intros H; try discriminate; repeat split; discriminate.
  Qed.
  Lemma th_shape P t r c : wants_thread P t = Some (r, c) ->
    (exists x ms g p, c = TWait ms /\ p_thr P t = PHold SJoin r x ms g p) \/ (exists x ms g p, c = TStart /\ p_thr P t = PHold SGo r x ms g p).
  Proof.
    unfold wants_thread. destruct (p_thr P t) as [|[ | | | | |]|[ | | | |] r' x ms g p|[|]|] eqn:X; intros H; try discriminate; injection H as <- <-; [left|right]; exists x, ms, g, p; auto.
  Qed.
  (** nobody waits in two threads *)
  Lemma th_one P T E r r' t c : inv P T E -> wants_thread P t = Some (r, c) -> r' <> r -> h_ph (T r') (S t) = Out.
  Proof.
    intros I W Ne. pose proof (iv_th _ _ _ I r' (S t)) as H. destruct (h_ph (T r') (S t)) as [|d|v]; cbn in H; try tauto; exfalso.
    - destruct H as (t' & X & H). injection X as <-. congruence.
    - destruct H as (t' & d & X & H & _). injection X as <-. congruence.
  Qed.
  Lemma busy_run P T E t : inv P T E -> p_thr P t <> PIdle -> p_run P t = WIn \/ N <= t.
  Proof.
    intros I B. destruct (Nat.lt_ge_cases t N) as [L|G]; [left|now right]. destruct (p_run P t) eqn:X; try reflexivity; elim B; apply (iv_idle _ _ _ I t L); congruence.
  Qed.
  Lemma off_off P T E A r : inv P T E -> rel P T E A -> (p_run A r = WOff <-> h_st (T r) = HOff).
  Proof.
    intros I R. rewrite (rl_run _ _ _ _ R). unfold abs_run. pose proof (iv_nat _ _ _ I r) as H. unfold nat_ok in H. destruct (h_st (T r)); try (split; congruence).
    destruct H as (H1 & H2). split; [|discriminate]. destruct (p_run P r) as [| | | |[| | | |] th|]; try congruence; destruct (fl_done E r r); discriminate.
  Qed.

  Lemma set_same (f : nat -> status tcall tres) t q : set_st f t q t = q.
  Proof. unfold set_st. now rewrite Nat.eqb_refl. Qed.
  Lemma set_other (f : nat -> status tcall tres) t q u : u <> t -> set_st f t q u = f u.
  Proof. intros Ne. unfold set_st. now rewrite (proj2 (Nat.eqb_neq _ _) Ne). Qed.
  (** a client moves inside a thread object, the pool does not *)
  Lemma thread_quiet P T E Q A r u Tr : inv P T E -> rel P T E A -> inq P Q ->
    h_st Tr = h_st (T r) -> (forall v, v <> S u -> h_ph Tr v = h_ph (T r) v) ->
    th_done (fupd T r Tr) r u = th_done T r u -> th_ok P r (S u) (h_ph Tr (S u)) ->
    sim1 P T E Q A P (fupd T r Tr) E [].
  Proof.
    intros I R IQ A1 A4 A5 A6. exists A, [], []. split; [now left|].
    assert (DT : forall r' v, th_done (fupd T r Tr) r' v = th_done T r' v).
    { intros r' v. destruct (Nat.eq_dec r' r) as [->|Ne]; [|unfold th_done; now rewrite fupd_other]. destruct (Nat.eq_dec v u) as [->|Nv]; [exact A5|].
      unfold th_done. rewrite fupd_same, A4; [reflexivity|congruence]. }
    assert (RR : forall r', abs_run P (fupd T r Tr) E r' = abs_run P T E r').
    { intros r'. destruct (Nat.eq_dec r' r) as [->|Ne]; [|unfold abs_run; now rewrite fupd_other]. apply abs_run_ext; rewrite ?fupd_same; auto. }
    split; [|split; [|split; [exact IQ|split; [constructor; reflexivity|reflexivity]]]].
    - destruct R as [R1 R2 R3 R4 R5 R6 R7]. constructor; auto.
      + intros r'. now rewrite RR.
      + intros t. rewrite R6. symmetry. apply abs_thr_ext; auto.
      + intros t i. rewrite R7. symmetry. apply abs_guard_ext; auto.
    - apply (inv_gen P P T _ E E u); auto; try apply (iv_idle _ _ _ I); try apply (iv_out _ _ _ I); try apply (iv_pat _ _ _ I); try (intros; apply (iv_fl _ _ _ I)).
      + intros r'. destruct (Nat.eq_dec r' r) as [->|Ne]; [|rewrite fupd_other by exact Ne; apply I]. rewrite fupd_same. unfold nat_ok. rewrite A1. apply (iv_nat _ _ _ I r).
      + intros r' v Nv. destruct (Nat.eq_dec r' r) as [->|Ne]; [|rewrite fupd_other by exact Ne; apply I]. rewrite fupd_same, A4 by exact Nv. apply I.
      + intros r'. destruct (Nat.eq_dec r' r) as [->|Ne]; [|rewrite fupd_other by exact Ne; apply I]. now rewrite fupd_same.
  Qed.

  Lemma late_own D D' es : (forall u, D' u = D u) -> (forall e, In e es -> D (agent e) = false) -> late D es D' es.
  Proof.
    intros H. induction es as [|e es IH]; intros F; [now constructor|]. constructor; [apply F; now left|]. apply IH. intros e' He. apply F. now right.
  Qed.
  Lemma owes_busy P T E Q t : inv P T E -> p_thr P t <> PIdle -> owes P E Q t = false.
  Proof. intros I B. unfold owes. destruct (busy_run _ _ _ _ I B) as [-> |G]; [reflexivity|]. now rewrite (iv_out _ _ _ I t G). Qed.
  Lemma thread_eff P T E Q A r t c v Tr A' es l : inv P T E -> rel P T E A -> inq P Q -> wants_thread P t = Some (r, c) -> tfits c v ->
    (forall u, h_ph Tr u = set_st (h_ph (T r)) (S t) (Done v) u) -> nat_ok Tr (p_run P r) ->
    on_queue A l = false -> pstep A l = Some (A', es) ->
    (forall u, u <> t -> p_thr A' u = p_thr A u /\ (forall i, p_guard A' u i = p_guard A u i)) ->
    (forall u, p_task A' u = p_task A u) -> (forall u, p_needs A' u = p_needs A u) -> (forall u, p_prio A' u = p_prio A u) -> (forall u, p_ev A' u = p_ev A u) ->
    (forall u, p_run A' u = abs_run P (fupd T r Tr) E u) ->
    p_thr A' t = abs_thr P (fupd T r Tr) E t -> (forall i, p_guard A' t i = abs_guard P (fupd T r Tr) t i) -> (forall e, In e es -> agent e = t) -> history es = [] ->
    sim1 P T E Q A P (fupd T r Tr) E [].
  Proof.
    intros I R IQ W FT HT NK OQ ST F1 F2 F3 F4 F5 F6 F7 F8 EA EH. exists A', es, es. destruct (th_wants _ _ _ _ W) as (W2 & W3 & BZ).
    split; [right; exists l; auto|].
    split; [|split; [|split; [exact IQ|split; [|exact EH]]]].
    - apply (rel_gen P P T _ E E A A' t); auto.
      + intros r' u Ne. unfold th_done. destruct (Nat.eq_dec r' r) as [->|Nr]; [|now rewrite fupd_other]. rewrite fupd_same, HT, set_other by congruence. reflexivity.
      + intros u. rewrite F2. apply R.
      + intros u. rewrite F3. apply R.
      + intros u. rewrite F4. apply R.
      + intros u. rewrite F5. apply R.
    - apply (inv_gen P P T _ E E t); auto; try apply (iv_idle _ _ _ I); try apply (iv_out _ _ _ I); try apply (iv_pat _ _ _ I); try (intros; apply (iv_fl _ _ _ I)).
      + intros r'. destruct (Nat.eq_dec r' r) as [->|Ne]; [now rewrite fupd_same|rewrite fupd_other by exact Ne; apply (iv_nat _ _ _ I)].
      + intros r' v' Nv. destruct (Nat.eq_dec r' r) as [->|Ne]; [|rewrite fupd_other by exact Ne; apply (iv_th _ _ _ I)]. rewrite fupd_same, HT, set_other by congruence. apply (iv_th _ _ _ I).
      + intros r'. destruct (Nat.eq_dec r' r) as [->|Ne]; [|rewrite fupd_other by exact Ne; apply (iv_th _ _ _ I)]. rewrite fupd_same, HT, set_same. cbn. exists t, c. auto.
    - apply late_own; [reflexivity|]. intros e He. rewrite (EA e He). exact (owes_busy _ _ _ _ _ I BZ).
  Qed.
  Lemma abs_run_same P T E r Tr : h_st Tr = h_st (T r) -> forall u, abs_run P (fupd T r Tr) E u = abs_run P T E u.
  Proof.
    intros A1 u. destruct (Nat.eq_dec u r) as [->|Ne]; [|unfold abs_run; now rewrite fupd_other]. apply abs_run_ext; rewrite ?fupd_same; auto.
  Qed.
  Lemma thread_ret P T E Q A r t c v Tr : inv P T E -> rel P T E A -> inq P Q -> wants_thread P t = Some (r, c) -> tfits c v -> h_ph (T r) (S t) = Done v ->
    (forall u, h_ph Tr u = set_st (h_ph (T r)) (S t) Out u) -> h_st Tr = h_st (T r) ->
    sim1 P T E Q A (resume_thread P t v) (fupd T r Tr) E [].
  Proof.
    intros I R IQ W FT HV HT A1. exists A, [], []. split; [now left|]. destruct (th_wants _ _ _ _ W) as (W2 & W3 & BZ). pose proof R as [R1 R2 R3 R4 R5 R6 R7].
    pose proof (quiet_flag _ _ _ _ I W2) as QF. assert (DV : th_done T r t = Some v) by (unfold th_done; now rewrite HV).
    assert (DT' : forall u, th_done (fupd T r Tr) u t = None).
    { intros u. unfold th_done. destruct (Nat.eq_dec u r) as [->|Ne]; [now rewrite fupd_same, HT, set_same|]. now rewrite fupd_other, (th_one _ _ _ _ _ _ _ I W Ne). }
    assert (FP : forall u, u <> t -> p_thr (resume_thread P t v) u = p_thr P u /\ (forall i, p_guard (resume_thread P t v) u i = p_guard P u i) /\ p_run (resume_thread P t v) u = p_run P u).
    { intros u Ne. unfold resume_thread. destruct (p_thr P t) as [|[ | | | | |]|[ | | | |] ? ? ? [g|] ?|[|]|]; try (repeat split; reflexivity); try (destruct v as [|[]|]); cbn; unfold set_guard; rewrite ?fupd_other by exact Ne; repeat split. }
    assert (RN : forall u, p_run (resume_thread P t v) u = p_run P u).
    { intros u. unfold resume_thread. destruct (p_thr P t) as [|[ | | | | |]|[ | | | |]|[|]|]; try reflexivity; destruct v as [|[]|]; reflexivity. }
    assert (TK : forall u, p_task (resume_thread P t v) u = p_task P u /\ p_needs (resume_thread P t v) u = p_needs P u /\ p_prio (resume_thread P t v) u = p_prio P u).
    { intros u. unfold resume_thread. destruct (p_thr P t) as [|[ | | | | |]|[ | | | |]|[|]|]; try (repeat split; reflexivity); destruct v as [|[]|]; repeat split. }
    split; [|split; [|split; [|split; [|reflexivity]]]].
    - apply (rel_gen P (resume_thread P t v) T _ E E A A t); auto.
      + intros u Ne. split; apply (FP u Ne).
      + intros r' u Ne. unfold th_done. destruct (Nat.eq_dec r' r) as [->|Nr]; [|now rewrite fupd_other]. rewrite fupd_same, HT, set_other by congruence. reflexivity.
      + intros u. now rewrite (proj1 (TK u)).
      + intros u. destruct (TK u) as (_ & -> & _). auto.
      + intros u. destruct (TK u) as (_ & _ & ->). auto.
      + intros u. rewrite R5, <- (abs_run_same P T E r Tr A1). apply abs_run_ext; auto.
      + rewrite R6. unfold abs_thr, resume_thread. destruct (th_shape _ _ _ _ W) as [(x & ms & g & p & -> & X)|(x & ms & g & p & -> & X)]; rewrite X, DV; cbn in FT.
        * destruct FT as [-> | ->]; cbn; rewrite fupd_same; reflexivity.
        * cbn. rewrite fupd_same. reflexivity.
      + intros i. rewrite R7. unfold abs_guard, resume_thread. destruct (th_shape _ _ _ _ W) as [(x & ms & g & p & -> & X)|(x & ms & g & p & -> & X)]; rewrite X; cbn in FT.
        * destruct FT as [-> | ->]; cbn; rewrite fupd_same; reflexivity.
        * rewrite DV. cbn. rewrite fupd_same. destruct g as [g|]; [|reflexivity]. unfold set_guard. rewrite fupd_same, fupd_eq. reflexivity.
    - assert (W' : wants_thread (resume_thread P t v) t = None /\ wants_flag N (resume_thread P t v) t = None).
      { unfold wants_thread, wants_flag, resume_thread. destruct (th_shape _ _ _ _ W) as [(x & ms & g & p & -> & X)|(x & ms & g & p & -> & X)]; rewrite X; cbn in FT.
        - destruct FT as [-> | ->]; cbn; rewrite fupd_same; auto.
        - cbn. rewrite fupd_same. auto. }
      apply (inv_gen P (resume_thread P t v) T _ E E t FP); auto; try apply (iv_pat _ _ _ I); try (intros; apply (iv_fl _ _ _ I)).
      + intros r'. rewrite RN. destruct (Nat.eq_dec r' r) as [->|Ne]; [|rewrite fupd_other by exact Ne; apply (iv_nat _ _ _ I)]. rewrite fupd_same. unfold nat_ok. rewrite A1. apply (iv_nat _ _ _ I).
      + rewrite RN. intros L X. destruct (busy_run _ _ _ _ I BZ) as [|]; [congruence|lia].
      + rewrite RN. apply (iv_out _ _ _ I).
      + intros r' v' Nv. destruct (Nat.eq_dec r' r) as [->|Ne]; [|rewrite fupd_other by exact Ne; apply (iv_th _ _ _ I)]. rewrite fupd_same, HT, set_other by congruence. apply (iv_th _ _ _ I).
      + intros r'. destruct (Nat.eq_dec r' r) as [->|Ne]; [now rewrite fupd_same, HT, set_same|]. now rewrite fupd_other, (th_one _ _ _ _ _ _ _ I W Ne).
      + intros r'. now rewrite QF.
    - exact (inq_gen _ _ _ _ FP W3 IQ).
    - apply late_own; [|intros e []]. intros u. unfold owes. now rewrite RN.
  Qed.
  (** the native thread moves, and with it perhaps its runner *)
  Lemma thread_nat P P1 T E Q A r x Tr A' es l : inv P T E -> rel P T E A -> inq P Q -> r < N ->
    wants_flag N P r = None -> wants N P r = None -> p_thr P r = PIdle -> p_run P1 r = x -> (forall u, u <> r -> p_run P1 u = p_run P u) ->
    (forall u, p_thr P1 u = p_thr P u /\ (forall i, p_guard P1 u i = p_guard P u i) /\ p_task P1 u = p_task P u /\ p_needs P1 u = p_needs P u /\ p_prio P1 u = p_prio P u) -> x <> WIn ->
    (forall th, x <> WAfter ANotify th) -> (forall th, x <> WAfter ASend th) -> (forall th, x <> WAfter AReset th) ->
    (forall u, h_ph Tr u = h_ph (T r) u) -> nat_ok Tr x ->
    (A' = A /\ es = []) \/ (on_queue A l = false /\ pstep A l = Some (A', es) /\ es = [] /\ A' = p_wto A r (abs_run P1 (fupd T r Tr) E r)) ->
    p_run A' r = abs_run P1 (fupd T r Tr) E r ->
    sim1 P T E Q A P1 (fupd T r Tr) E [].
  Proof.
    intros I R IQ LT W2 W3 PI PX PR PF XI XN XS XR HT NK ST HR. pose proof R as [R1 R2 R3 R4 R5 R6 R7].
    assert (EA : es = []) by (destruct ST as [(_ & ST)|(_ & _ & ST & _)]; exact ST). subst es.
    assert (AE : (forall u, p_thr A' u = p_thr A u /\ forall i, p_guard A' u i = p_guard A u i) /\ (forall u, p_task A' u = p_task A u) /\ (forall u, p_needs A' u = p_needs A u) /\
                 (forall u, p_prio A' u = p_prio A u) /\ (forall u, p_ev A' u = p_ev A u) /\ (forall u, u <> r -> p_run A' u = p_run A u)).
    { destruct ST as [(-> & _)|(_ & _ & _ & ->)]; repeat split. intros u Ne. cbn. now rewrite fupd_other. }
    destruct AE as (AE1 & AE2 & AE3 & AE4 & AE5 & AE6).
    pose proof (quiet_flag _ _ _ _ I W2) as QF.
    assert (DT : forall r' u, th_done (fupd T r Tr) r' u = th_done T r' u).
    { intros r' u. unfold th_done. destruct (Nat.eq_dec r' r) as [->|Ne]; [|now rewrite fupd_other]. now rewrite fupd_same, HT. }
    assert (FP : forall u, u <> r -> p_thr P1 u = p_thr P u /\ (forall i, p_guard P1 u i = p_guard P u i) /\ p_run P1 u = p_run P u).
    { intros u Ne. destruct (PF u) as (F1 & F2 & _). auto. }
    assert (WT : forall u, th_ok P r u (h_ph Tr u)).
    { intros u. rewrite HT. apply (iv_th _ _ _ I). }
    assert (OW : owes P E Q r = false).
    { unfold owes. unfold fl_done. rewrite QF, (inq_idle _ _ _ IQ W3). destruct (p_run P r) as [| | | |[| | | |] th|]; reflexivity. }
    exists A', [], []. split; [destruct ST as [(-> & _)|(S1 & S2 & _)]; [left; auto|right; exists l; auto]|].
    split; [|split; [|split; [|split; [|reflexivity]]]].
    - constructor.
      + intros u. destruct (PF u) as (_ & _ & -> & _). now rewrite AE2.
      + intros u. destruct (PF u) as (_ & _ & _ & -> & _). now rewrite AE3.
      + intros u. destruct (PF u) as (_ & _ & _ & _ & ->). now rewrite AE4.
      + intros u. now rewrite AE5.
      + intros r0. destruct (Nat.eq_dec r0 r) as [->|Ne]; [exact HR|]. rewrite AE6, R5 by exact Ne. symmetry. apply abs_run_ext; rewrite ?fupd_other by exact Ne; auto.
      + intros t. rewrite (proj1 (AE1 t)), R6. symmetry. apply abs_thr_ext; auto; apply PF.
      + intros t i. rewrite (proj2 (AE1 t) i), R7. symmetry. apply abs_guard_ext; auto; apply PF.
    - apply (inv_gen P P1 T _ E E r FP); auto; try apply (iv_pat _ _ _ I); try (intros; apply (iv_fl _ _ _ I)).
      + intros r'. destruct (Nat.eq_dec r' r) as [->|Ne]; [now rewrite fupd_same, PX|]. rewrite fupd_other, PR by exact Ne. apply (iv_nat _ _ _ I).
      + intros _ _. destruct (PF r) as (-> & _). exact PI.
      + lia.
      + intros r' u Nu. destruct (Nat.eq_dec r' r) as [->|Ne]; [rewrite fupd_same; apply WT|]. rewrite fupd_other by exact Ne. apply (iv_th _ _ _ I).
      + intros r'. apply (th_ok_ext P); [intros v Hv; apply wants_thread_ext, PF|]. destruct (Nat.eq_dec r' r) as [->|Ne]; [rewrite fupd_same; apply WT|]. rewrite fupd_other by exact Ne. apply (iv_th _ _ _ I).
      + intros r'. now rewrite QF.
    - exact (inq_gen _ _ _ _ FP W3 IQ).
    - apply late_own; [|intros e []]. apply (owes_frame _ _ _ _ r FP). rewrite OW. unfold owes. rewrite PX. destruct x as [| | | |[| | | |] th|]; try reflexivity; exfalso; [exact (XN th eq_refl)|exact (XS th eq_refl)].
  Qed.

  (** one event of a thread object, heard by the pool *)
  Lemma thread_ev P T E Q A r e b P' o : inv P T E -> rel P T E A -> inq P Q -> r < N -> th_event (T r) e b -> hear_thread r P e = Some (P', o) ->
    sim1 P T E Q A P' (fupd T r b) E o.
  Proof.
    intros I R IQ LT S H. pose proof R as [R1 R2 R3 R4 R5 R6 R7]. pose proof (iv_nat _ _ _ I r) as NK. unfold nat_ok in NK.
    assert (SAME : h_st b = h_st (T r) -> (forall u, h_ph b u = h_ph (T r) u) -> sim1 P T E Q A P (fupd T r b) E []).
    { intros S1 S2. apply (thread_quiet P T E Q A r 0); auto.
      - unfold th_done. now rewrite fupd_same, S2.
      - rewrite S2. apply (iv_th _ _ _ I). }
    destruct e as [u c|u c v|u v]; destruct u as [|t].
    - (* the own thread: begin, end *)
      destruct c; cbn in S, H; try contradiction; destruct S as (S1 & S2 & S3).
      + injection H as <- <-. rewrite S1 in NK.
        assert (Y2 : p_thr P r = PIdle) by (apply (iv_idle _ _ _ I r LT); congruence).
        assert (AR : p_run A r = WStarted) by (rewrite R5; unfold abs_run; now rewrite S1).
        assert (HR : abs_run (p_wto P r WRead) (fupd T r b) E r = WRead) by (unfold abs_run; cbn; now rewrite !fupd_same, S2).
        apply (thread_nat P (p_wto P r WRead) T E Q A r WRead _ (p_wto A r WRead) [] (XRun r)); auto; try discriminate; cbn [p_run p_wto].
        * unfold wants_flag. rewrite NK, Y2. now destruct (r <? N).
        * unfold wants. rewrite NK, Y2. now destruct (r <? N).
        * now rewrite fupd_same.
        * intros u Ne. now rewrite fupd_other.
        * unfold nat_ok. rewrite S2. split; discriminate.
        * right. rewrite HR. cbn [on_queue p_step]. rewrite AR. repeat split.
        * rewrite HR, fupd_same. reflexivity.
      + destruct (p_run P r) eqn:Y; try discriminate. injection H as <- <-.
        assert (PI' : p_thr P r = PIdle) by (apply (iv_idle _ _ _ I r LT); congruence).
        apply (thread_nat P (p_wto P r WOff) T E Q A r WOff _ A [] (XRun r)); auto; try discriminate; cbn [p_run p_wto].
        * unfold wants_flag. rewrite PI', Y. now destruct (r <? N).
        * unfold wants. rewrite PI', Y. now destruct (r <? N).
        * now rewrite fupd_same.
        * intros u Ne. now rewrite fupd_other.
        * unfold nat_ok. now rewrite S2.
        * rewrite R5. unfold abs_run. rewrite fupd_same, S1, S2, Y. reflexivity.
    - (* a call *)
      cbn in S. destruct S as (S1 & S2 & S3). cbn [hear_thread] in H. destruct (wants_thread P t) as [(r', c')|] eqn:W; [|discriminate].
      destruct (r =? r') eqn:Er; [|discriminate]. destruct (tcall_dec c c') as [<-|]; [|discriminate]. cbn in H. injection H as <- <-. apply Nat.eqb_eq in Er. subst r'.
      apply (thread_quiet P T E Q A r t); auto.
      + intros v Ne. now rewrite S3, set_other.
      + unfold th_done. now rewrite fupd_same, S3, set_same, S1.
      + rewrite S3, set_same. cbn. exists t. auto.
    - (* the own thread takes effect *)
      cbn in H. injection H as <- <-. destruct c; cbn in S; try (destruct S as (S1 & S2); now apply SAME). destruct S as (S1 & S2 & S3). rewrite S1 in NK.
      assert (Y2 : p_thr P r = PIdle) by (apply (iv_idle _ _ _ I r LT); congruence).
      assert (AR : p_run A r = WEnd) by (rewrite R5; unfold abs_run; now rewrite S1).
      assert (HR : abs_run P (fupd T r b) E r = WOff) by (unfold abs_run; now rewrite fupd_same, S2).
      apply (thread_nat P P T E Q A r WOff _ (p_wto A r WOff) [] (XRun r)); auto; try discriminate.
      + unfold wants_flag. rewrite NK, Y2. now destruct (r <? N).
      + unfold wants. rewrite NK, Y2. now destruct (r <? N).
      + unfold nat_ok. now rewrite S2.
      + right. rewrite HR. cbn [on_queue p_step]. rewrite AR. repeat split.
      + rewrite HR. cbn. now rewrite fupd_same.
    - (* a call takes effect *)
      cbn in H. injection H as <- <-. cbn in S. destruct S as (X & HT & S). pose proof (iv_th _ _ _ I r (Datatypes.S t)) as H0. rewrite X in H0. cbn in H0. destruct H0 as (t' & Et & W). injection Et as <-.
      assert (DN : th_done T r t = None) by (unfold th_done; now rewrite X).
      assert (DV : th_done (fupd T r b) r t = Some v) by (unfold th_done; now rewrite fupd_same, HT, set_same).
      destruct (th_shape _ _ _ _ W) as [(x & ms & g & p & -> & Y)|(x & ms & g & p & -> & Y)].
      + (* wait *)
        assert (AT : p_thr A t = PHold SJoin r x ms g p) by (rewrite R6; unfold abs_thr; now rewrite Y, DN).
        destruct S as (S1 & [(-> & OFF)|(-> & EM & NOFF)]).
        * apply (proj2 (off_off _ _ _ _ r I R)) in OFF.
          apply (thread_eff P T E Q A r t (TWait ms) (RErr OK) _ (p_go A t (PHold STask r x ms g p)) [] (XStep t)); auto; cbn [tfits]; auto.
          { unfold nat_ok. rewrite S1. exact (iv_nat _ _ _ I r). }
          { cbn [on_queue]. now rewrite AT. }
          { cbn [p_step]. rewrite AT, OFF. reflexivity. }
          { intros v Ne. cbn. now rewrite fupd_other. }
          { intros v. cbn. rewrite R5. symmetry. now apply abs_run_same. }
          { cbn. unfold abs_thr. rewrite Y, DV. now rewrite fupd_same. }
          { intros i. cbn. rewrite R7. unfold abs_guard. now rewrite Y. }
          { intros e []. }
        * apply (thread_eff P T E Q A r t (TWait ms) (RErr TimedOut) _ (p_go A t (PRet (PErr TimedOut))) [Eff t (PStart x ms g p) (PErr TimedOut)] (XTimeout t None)); auto; cbn [tfits]; auto.
          { unfold nat_ok. rewrite S1. exact (iv_nat _ _ _ I r). }
          { cbn [on_queue]. now rewrite AT. }
          { cbn [p_step]. rewrite AT, (proj2 (Z.eqb_neq _ _) EM). destruct (p_run A r) eqn:Z; try reflexivity. elim NOFF. now apply (off_off _ _ _ _ r I R). }
          { intros v Ne. cbn. now rewrite fupd_other. }
          { intros v. cbn. rewrite R5. symmetry. now apply abs_run_same. }
          { cbn. unfold abs_thr. rewrite Y, DV. now rewrite fupd_same. }
          { intros i. cbn. rewrite R7. unfold abs_guard. now rewrite Y. }
          { intros e [<-|[]]. reflexivity. }
      + (* start *)
        assert (AT : p_thr A t = PHold SGo r x ms g p) by (rewrite R6; unfold abs_thr; now rewrite Y, DN).
        destruct S as (-> & S1).
        apply (thread_eff P T E Q A r t TStart RVoid _ (mkP (p_q A) (p_task A) (p_needs A) (p_prio A) (p_ev A)
                    (fupd (p_run A) r (match p_run A r with WOff => WStarted | w => w end))
                    (match g with Some i => set_guard (p_guard A) t i (Some r) | None => p_guard A end)
                    (fupd (p_thr A) t (PRet (PErr OK)))) [Eff t (PStart x ms g p) (PErr OK)] (XStep t)); auto; cbn [tfits]; auto.
        { unfold nat_ok. rewrite S1. destruct (h_st (T r)); cbn; auto. }
        { cbn [on_queue]. now rewrite AT. }
        { cbn [p_step]. rewrite AT. reflexivity. }
        { intros v Ne. cbn. rewrite fupd_other by exact Ne. split; [reflexivity|]. intros i. destruct g as [g|]; [|reflexivity]. unfold set_guard. now rewrite fupd_other. }
        { intros v. cbn. destruct (Nat.eq_dec v r) as [->|Ne].
          - rewrite fupd_same, R5. unfold abs_run at 2. rewrite fupd_same, S1. unfold abs_run. destruct (h_st (T r)) eqn:HS; cbn [started]; try reflexivity.
            destruct (p_run P r) as [| | | |[| | | |] th|]; try reflexivity; try (elim (proj1 NK); reflexivity); destruct (fl_done E r r); reflexivity.
          - rewrite fupd_other, R5 by exact Ne. unfold abs_run. now rewrite fupd_other. }
        { cbn. unfold abs_thr. rewrite Y, DV. now rewrite fupd_same. }
        { intros i. cbn. unfold abs_guard. rewrite Y. destruct g as [g|].
          - rewrite DV. unfold set_guard. rewrite fupd_same, fupd_eq. rewrite R7. unfold abs_guard. rewrite Y, DN. reflexivity.
          - rewrite R7. unfold abs_guard. now rewrite Y. }
        { intros e [<-|[]]. reflexivity. }
    - cbn in S, H. injection H as <- <-. destruct S as (S1 & S2). now apply SAME.
    - cbn in S. destruct S as (X & S1 & HT). cbn in H. injection H as <- <-.
      pose proof (iv_th _ _ _ I r (Datatypes.S t)) as H0. rewrite X in H0. cbn in H0. destruct H0 as (t' & c & Et & W & FT). injection Et as <-.
      apply (thread_ret P T E Q A r t c v); auto.
  Qed.
  (** *** inside an event flag *)
  Lemma fl_wants P t r c : wants_flag N P t = Some (r, c) -> wants_thread P t = None /\ wants N P t = None.
  Proof.
    unfold wants_thread, wants_flag, wants. destruct (p_thr P t) as [|[ | | | | |]|[ | | | |]|[|]|]; intros H; try discriminate; split; try reflexivity.
    destruct (t <? N); [|discriminate]. destruct (p_run P t) as [| | | |[| | | |] th|]; try discriminate; reflexivity.
  Qed.
  Inductive fshape (P : pst) (t r : nat) : ecall -> Prop :=
  | fs_wait g ms : p_thr P t = PAt (PWait g ms) -> p_guard P t g = Some r -> fshape P t r (EWaitAny (Within ms))
  | fs_rel g : p_thr P t = PAt (PRelease g) -> p_guard P t g = Some r -> fshape P t r (EWaitAny (Within (-1)))
  | fs_reset g : p_thr P t = PRel false r g -> fshape P t r EResetAll
  | fs_notify th : p_thr P t = PIdle -> t < N -> r = t -> p_run P t = WAfter ANotify th -> fshape P t r ESetAll
  | fs_clear th : p_thr P t = PIdle -> t < N -> r = t -> p_run P t = WAfter AReset th -> fshape P t r EResetAll.
  Lemma fl_shape P t r c : wants_flag N P t = Some (r, c) -> fshape P t r c.
  Proof.
    unfold wants_flag. destruct (p_thr P t) as [|[x ms g p|g ms|g|g|x q|x th]|[ | | | |]|[|]|] eqn:X; intros H; try discriminate.
    - destruct (Nat.ltb_spec t N); [|discriminate]. destruct (p_run P t) as [| | | |[| | | |] th|] eqn:Y; try discriminate; injection H as <- <-; [eapply fs_notify|eapply fs_clear]; eauto.
    - destruct (p_guard P t g) eqn:Y; [|discriminate]. injection H as <- <-. eapply fs_wait; eauto.
    - destruct (p_guard P t g) eqn:Y; [|discriminate]. injection H as <- <-. eapply fs_rel; eauto.
    - injection H as <- <-. eapply fs_reset; eauto.
  Qed.
  Lemma fl_one P T E r r' t c : inv P T E -> wants_flag N P t = Some (r, c) -> r' <> r -> g_ph (E r') t = Out.
  Proof.
    intros I W Ne. pose proof (iv_fl _ _ _ I r' t) as H. destruct (g_ph (E r') t) as [|d|v]; cbn in H; [reflexivity|congruence|]. destruct H as (d & H & _). congruence.
  Qed.
  Lemma flag_move P P' T E Q A A' r t c e' es ew o : inv P T E -> rel P T E A -> inq P Q -> wants_flag N P t = Some (r, c) ->
    (forall u, u <> t -> g_ph e' u = g_ph (E r) u) -> (0 <= g_pat e' < 2 ^ w)%Z -> fl_ok P' r t (g_ph e' t) ->
    (forall u, u <> t -> p_thr P' u = p_thr P u /\ (forall i, p_guard P' u i = p_guard P u i) /\ p_run P' u = p_run P u) ->
    (forall u, p_task P' u = p_task P u /\ p_needs P' u = p_needs P u /\ p_prio P' u = p_prio P u) ->
    nat_ok (T t) (p_run P' t) -> (t < N -> p_run P' t <> WIn -> p_thr P' t = PIdle) -> (N <= t -> p_run P' t = WOff) ->
    moves A es A' ->
    (forall u, u <> t -> p_thr A' u = p_thr A u /\ (forall i, p_guard A' u i = p_guard A u i) /\ p_run A' u = p_run A u) ->
    (forall u, p_task A' u = p_task A u /\ p_needs A' u = p_needs A u /\ p_prio A' u = p_prio A u) ->
    (forall u, u <> r -> p_ev A' u = p_ev A u) -> p_ev A' r = negb (g_pat e' =? 0)%Z ->
    p_run A' t = abs_run P' T (fupd E r e') t -> p_thr A' t = abs_thr P' T (fupd E r e') t -> (forall i, p_guard A' t i = abs_guard P' T t i) ->
    late (owes P E Q) es (fun u => if u =? t then owes P' (fupd E r e') Q t else owes P E Q u) ew -> history ew = o ->
    sim1 P T E Q A P' T (fupd E r e') o.
  Proof.
    intros I R IQ W H1 H3 H4 FP TP NK PI PO MV FA TA V1 V2 A1 A2 A3 LT HO. destruct (fl_wants _ _ _ _ W) as (W1 & W3). pose proof R as [R1 R2 R3 R4 R5 R6 R7].
    pose proof (quiet_thread _ _ _ _ I W1) as QT.
    assert (DF : forall r' u, u <> t -> fl_done (fupd E r e') r' u = fl_done E r' u).
    { intros r' u Ne. unfold fl_done. destruct (Nat.eq_dec r' r) as [->|Nr]; [|now rewrite fupd_other]. now rewrite fupd_same, H1. }
    exists A', es, ew. split; [exact MV|]. split; [|split; [|split; [|split; [|exact HO]]]].
    - apply (rel_gen P P' T T E _ A A' t); auto.
      + intros u Ne. split; apply (FP u Ne).
      + intros u Ne. split; apply (FA u Ne).
      + intros u. rewrite (proj1 (TA u)), (proj1 (TP u)). auto.
      + intros u. destruct (TA u) as (_ & -> & _). destruct (TP u) as (_ & -> & _). auto.
      + intros u. destruct (TA u) as (_ & _ & ->). destruct (TP u) as (_ & _ & ->). auto.
      + intros u. destruct (Nat.eq_dec u r) as [->|Ne]; [now rewrite fupd_same|]. rewrite fupd_other, V1 by exact Ne. auto.
      + intros u. destruct (Nat.eq_dec u t) as [->|Ne]; [exact A1|]. destruct (FA u Ne) as (_ & _ & ->). rewrite R5. symmetry. apply abs_run_ext; auto. apply (FP u Ne).
    - apply (inv_gen P P' T T E _ t FP); auto; try (intros; apply (iv_th _ _ _ I)).
      + intros u. destruct (Nat.eq_dec u t) as [->|Ne]; [exact NK|]. destruct (FP u Ne) as (_ & _ & ->). apply (iv_nat _ _ _ I).
      + intros r'. now rewrite QT.
      + intros r' u Ne. destruct (Nat.eq_dec r' r) as [->|Nr]; [rewrite fupd_same, H1 by exact Ne|rewrite fupd_other by exact Nr]; apply (iv_fl _ _ _ I).
      + intros r'. destruct (Nat.eq_dec r' r) as [->|Nr]; [now rewrite fupd_same|]. rewrite fupd_other by exact Nr. now rewrite (fl_one _ _ _ _ _ _ _ I W Nr).
      + intros r'. destruct (Nat.eq_dec r' r) as [->|Nr]; [now rewrite fupd_same|]. rewrite fupd_other by exact Nr. apply (iv_pat _ _ _ I).
    - exact (inq_gen _ _ _ _ FP W3 IQ).
    - eapply late_ext; [exact LT|reflexivity|]. intros u. cbn. destruct (Nat.eqb_spec u t) as [->|Ne]; [reflexivity|]. unfold owes. destruct (FP u Ne) as (_ & _ & ->). now rewrite DF.
  Qed.
  (** nothing to see from outside *)
  Lemma flag_same P T E Q A r e' : inv P T E -> rel P T E A -> inq P Q -> (forall u, g_ph e' u = g_ph (E r) u) -> g_pat e' = g_pat (E r) ->
    sim1 P T E Q A P T (fupd E r e') [].
  Proof.
    intros I R IQ H1 H3. pose proof R as [R1 R2 R3 R4 R5 R6 R7].
    assert (DF : forall r' u, fl_done (fupd E r e') r' u = fl_done E r' u).
    { intros r' u. unfold fl_done. destruct (Nat.eq_dec r' r) as [->|Nr]; [|now rewrite fupd_other]. now rewrite fupd_same, H1. }
    exists A, [], []. split; [now left|]. split; [|split; [|split; [exact IQ|split; [|reflexivity]]]].
    - constructor; auto.
      + intros u. rewrite R4. destruct (Nat.eq_dec u r) as [->|Ne]; [now rewrite fupd_same, H3|now rewrite fupd_other].
      + intros u. rewrite R5. symmetry. apply abs_run_ext; auto.
      + intros u. rewrite R6. symmetry. apply abs_thr_ext; auto.
    - destruct I as [I1 I2 I3 I4 I5 I6]. constructor; auto; intros r'; destruct (Nat.eq_dec r' r) as [->|Nr]; rewrite ?fupd_same, ?fupd_other by exact Nr; auto.
      + intros t. rewrite H1. apply I5.
      + rewrite H3. apply I6.
    - apply late_own; [|intros e []]. intros u. unfold owes. now rewrite DF.
  Qed.

  Lemma pat_any p : (0 <= p < 2 ^ w)%Z -> ((exists i, (0 <= i < w)%Z /\ has p i) <-> p <> 0%Z).
  Proof.
    intros B. split.
    - intros (i & _ & H) ->. unfold has in H. rewrite Z.bits_0 in H. discriminate.
    - intros NZ. exists (Z.log2 p). assert (0 < p)%Z by lia. unfold has. rewrite Z.bit_log2 by lia. split; [|reflexivity].
      split; [apply Z.log2_nonneg|]. apply Z.log2_lt_pow2; lia.
  Qed.
  Lemma flag_quiet P T E Q A r t c e' : inv P T E -> rel P T E A -> inq P Q -> wants_flag N P t = Some (r, c) ->
    (forall u, u <> t -> g_ph e' u = g_ph (E r) u) -> g_ph (E r) t = Out -> g_ph e' t = Pending c -> g_pat e' = g_pat (E r) ->
    sim1 P T E Q A P T (fupd E r e') [].
  Proof.
    intros I R IQ W H1 H2 H3 H5. pose proof R as [R1 R2 R3 R4 R5 R6 R7].
    assert (DF : forall r' u, fl_done (fupd E r e') r' u = fl_done E r' u).
    { intros r' u. unfold fl_done. destruct (Nat.eq_dec r' r) as [->|Nr]; [|now rewrite fupd_other]. rewrite fupd_same. destruct (Nat.eq_dec u t) as [->|Ne]; [now rewrite H2, H3|now rewrite H1]. }
    apply (flag_move P P T E Q A A r t c e' [] []); auto.
    - rewrite H5. apply (iv_pat _ _ _ I).
    - rewrite H3. exact W.
    - apply (iv_nat _ _ _ I).
    - apply (iv_idle _ _ _ I).
    - apply (iv_out _ _ _ I).
    - left. auto.
    - rewrite H5. apply R4.
    - rewrite R5. symmetry. apply abs_run_ext; auto.
    - rewrite R6. symmetry. apply abs_thr_ext; auto.
    - apply late_own; [|intros e []]. intros u. destruct (Nat.eqb_spec u t) as [->|]; [|reflexivity]. unfold owes. now rewrite DF.
  Qed.
  (** the objects take effect: an abstract step *)
  Lemma flag_eff P T E Q A r t c v e' : inv P T E -> rel P T E A -> inq P Q -> g_ph (E r) t = Pending c ->
    (forall u, u <> t -> g_ph e' u = g_ph (E r) u) -> g_ph e' t = Done v -> espec w false (g_pat (E r)) t c v (g_pat e') ->
    sim1 P T E Q A P T (fupd E r e') [].
  Proof.
    intros I R IQ H1 H2 H3 SP. pose proof R as [R1 R2 R3 R4 R5 R6 R7]. pose proof (iv_fl _ _ _ I r t) as W. rewrite H1 in W. cbn in W.
    assert (DN : fl_done E r t = None) by (unfold fl_done; now rewrite H1).
    assert (DV : fl_done (fupd E r e') r t = Some v) by (unfold fl_done; now rewrite fupd_same, H3).
    pose proof (iv_pat _ _ _ I r) as PB. destruct SP as (PB' & SP). pose proof (pat_any _ PB) as PA.
    pose proof (R4 r) as EV.
    assert (CO : forall r' , p_thr P t <> PIdle -> abs_run P T (fupd E r e') r' = abs_run P T E r').
    { intros r' BZ. unfold abs_run. destruct (h_st (T r')); try reflexivity. destruct (Nat.eq_dec r' t) as [->|Ne].
      - destruct (busy_run _ _ _ _ I BZ) as [-> |G]; [reflexivity|]. now rewrite (iv_out _ _ _ I t G).
      - assert (X : fl_done (fupd E r e') r' r' = fl_done E r' r'); [|now rewrite X].
        unfold fl_done. destruct (Nat.eq_dec r' r) as [->|Nr]; [|now rewrite fupd_other]. rewrite fupd_same, H2 by congruence. reflexivity. }
    assert (OW : p_thr P t <> PIdle -> owes P E Q t = false /\ owes P (fupd E r e') Q t = false).
    { intros BZ. unfold owes. destruct (busy_run _ _ _ _ I BZ) as [-> |G]; [auto|]. rewrite (iv_out _ _ _ I t G). auto. }
    assert (LO : forall es, p_thr P t <> PIdle -> (forall e, In e es -> agent e = t) -> late (owes P E Q) es (fun u => if u =? t then owes P (fupd E r e') Q t else owes P E Q u) es).
    { intros es BZ HE. destruct (OW BZ) as (O1 & O2). apply late_own; [|intros e He; now rewrite (HE e He)]. intros u. destruct (Nat.eqb_spec u t) as [->|]; [congruence|reflexivity]. }
    destruct (fl_shape _ _ _ _ W) as [g ms X G|g X G|g X|th X LT EQ Y|th X LT EQ Y]; cbn [econd] in SP.
    - assert (BZ : p_thr P t <> PIdle) by congruence.
      assert (AT : p_thr A t = PAt (PWait g ms)) by (rewrite R6; unfold abs_thr; now rewrite X, G, DN).
      assert (AG : forall i, p_guard A t i = p_guard P t i) by (intros i; rewrite R7; unfold abs_guard; now rewrite X).
      destruct SP as [(Q1 & -> & PE)|(Q1 & NF & -> & PE)].
      + apply PA in Q1. cbn in PE, H3, DV.
        apply (flag_move P P T E Q A (p_go A t (PRet (PErr OK))) r t (EWaitAny (Within ms)) e' [Eff t (PWait g ms) (PErr OK)] [Eff t (PWait g ms) (PErr OK)] []); auto; try apply (iv_nat _ _ _ I); try apply (iv_idle _ _ _ I); try apply (iv_out _ _ _ I); cbn [p_thr p_run p_go p_ev p_guard].
        * rewrite H3. exists (EWaitAny (Within ms)). cbn. auto.
        * right. exists (XStep t). cbn [on_queue p_step]. rewrite AT, AG, G, EV. rewrite (proj2 (Z.eqb_neq _ _) Q1). auto.
        * intros u Ne. now rewrite fupd_other.
        * now rewrite EV, PE.
        * now rewrite R5, CO.
        * rewrite fupd_same. unfold abs_thr. now rewrite X, G, DV.
        * intros i. now rewrite R7.
        * apply LO; [exact BZ|]. intros e [<-|[]]. reflexivity.
      + assert (MS : ms <> (-1)%Z) by (intros ->; apply NF; cbn; auto).
        assert (PZ : g_pat (E r) = 0%Z) by (destruct (Z.eq_dec (g_pat (E r)) 0); [assumption|]; elim Q1; now apply PA). cbn in H3, DV.
        apply (flag_move P P T E Q A (p_go A t (PRet (PErr TimedOut))) r t (EWaitAny (Within ms)) e' [Eff t (PWait g ms) (PErr TimedOut)] [Eff t (PWait g ms) (PErr TimedOut)] []); auto; try apply (iv_nat _ _ _ I); try apply (iv_idle _ _ _ I); try apply (iv_out _ _ _ I); cbn [p_thr p_run p_go p_ev p_guard].
        * rewrite H3. exists (EWaitAny (Within ms)). cbn. auto.
        * right. exists (XTimeout t None). cbn [on_queue p_step]. rewrite AT, AG, G, EV, PZ. cbn. rewrite (proj2 (Z.eqb_neq _ _) MS). auto.
        * intros u Ne. now rewrite fupd_other.
        * now rewrite EV, PE.
        * now rewrite R5, CO.
        * rewrite fupd_same. unfold abs_thr. now rewrite X, G, DV.
        * intros i. now rewrite R7.
        * apply LO; [exact BZ|]. intros e [<-|[]]. reflexivity.
    - assert (BZ : p_thr P t <> PIdle) by congruence.
      assert (AT : p_thr A t = PAt (PRelease g)) by (rewrite R6; unfold abs_thr; now rewrite X, G, DN).
      assert (AG : forall i, p_guard A t i = p_guard P t i) by (intros i; rewrite R7; unfold abs_guard; now rewrite X).
      destruct SP as [(Q1 & -> & PE)|(Q1 & NF & _)]; [|elim NF; cbn; auto].
      apply PA in Q1. cbn in PE, H3, DV.
      apply (flag_move P P T E Q A (p_go A t (PRel false r g)) r t (EWaitAny (Within (-1))) e' [] [] []); auto; try apply (iv_nat _ _ _ I); try apply (iv_idle _ _ _ I); try apply (iv_out _ _ _ I); cbn [p_thr p_run p_go p_ev p_guard].
      * rewrite H3. exists (EWaitAny (Within (-1))). cbn. auto.
      * right. exists (XStep t). cbn [on_queue p_step]. rewrite AT, AG, G, EV. rewrite (proj2 (Z.eqb_neq _ _) Q1). auto.
      * intros u Ne. now rewrite fupd_other.
      * now rewrite EV, PE.
      * now rewrite R5, CO.
      * rewrite fupd_same. unfold abs_thr. now rewrite X, G, DV.
      * intros i. now rewrite R7.
      * apply LO; [exact BZ|]. intros e [].
    - assert (BZ : p_thr P t <> PIdle) by congruence.
      assert (AT : p_thr A t = PRel false r g) by (rewrite R6; unfold abs_thr; now rewrite X, DN).
      assert (AG : forall i, p_guard A t i = p_guard P t i) by (intros i; rewrite R7; unfold abs_guard; now rewrite X).
      destruct SP as (-> & PE).
      apply (flag_move P P T E Q A (mkP (p_q A) (p_task A) (p_needs A) (p_prio A) (fupd (p_ev A) r false) (p_run A) (p_guard A) (fupd (p_thr A) t (PRel true r g))) r t EResetAll e' [] [] []);
        auto; try apply (iv_nat _ _ _ I); try apply (iv_idle _ _ _ I); try apply (iv_out _ _ _ I); cbn [p_thr p_run p_go p_ev p_guard].
      * rewrite H3. exists EResetAll. cbn. auto.
      * right. exists (XStep t). cbn [on_queue p_step]. rewrite AT. auto.
      * intros u Ne. now rewrite fupd_other.
      * intros u Ne. now rewrite fupd_other.
      * now rewrite fupd_same, PE.
      * now rewrite R5, CO.
      * rewrite fupd_same. unfold abs_thr. now rewrite X, DV.
      * intros i. now rewrite R7.
      * apply LO; [exact BZ|]. intros e [].
    - subst r. assert (AR : p_run A t = WAfter ANotify th).
      { rewrite R5. unfold abs_run. pose proof (iv_nat _ _ _ I t) as NK. unfold nat_ok in NK. destruct (h_st (T t)); try congruence. now rewrite Y, DN. }
      assert (NR : h_st (T t) = HRun) by (pose proof (iv_nat _ _ _ I t) as NK; unfold nat_ok in NK; destruct (h_st (T t)); try congruence; reflexivity).
      destruct SP as (-> & PE).
      assert (PZ : g_pat e' <> 0%Z) by (apply (pat_any _ PB'); exists 0%Z; split; [lia|apply PE; lia]).
      apply (flag_move P P T E Q A (mkP (p_q A) (p_task A) (p_needs A) (p_prio A) (fupd (p_ev A) t true) (fupd (p_run A) t WEnd) (p_guard A) (p_thr A)) t t ESetAll e'
        [Eff t (PEnd (p_task P t) th) PVoid; Ret t PVoid] [Eff t (PEnd (p_task P t) th) PVoid] []);
        auto; try apply (iv_nat _ _ _ I); try apply (iv_idle _ _ _ I); try apply (iv_out _ _ _ I); cbn [p_thr p_run p_go p_ev p_guard].
      * rewrite H3. exists ESetAll. cbn. auto.
      * right. exists (XRun t). cbn [on_queue p_step]. rewrite AR, R1. auto.
      * intros u Ne. now rewrite fupd_other.
      * intros u Ne. now rewrite fupd_other.
      * now rewrite fupd_same, (proj2 (Z.eqb_neq _ _) PZ).
      * rewrite fupd_same. unfold abs_run. now rewrite NR, Y, DV.
      * rewrite R6. unfold abs_thr. now rewrite X.
      * intros i. now rewrite R7.
      * apply lt_same; [cbn; unfold owes; now rewrite Y, DN|]. eapply lt_hold; [unfold owes; now rewrite Y, DN|intros u; reflexivity|]. apply lt_nil. intros u. cbn.
        destruct (Nat.eqb_spec u t) as [->|]; [unfold owes; now rewrite Y, DV|reflexivity].
    - subst r. assert (AR : p_run A t = WAfter AReset th).
      { rewrite R5. unfold abs_run. pose proof (iv_nat _ _ _ I t) as NK. unfold nat_ok in NK. destruct (h_st (T t)); try congruence. now rewrite Y, DN. }
      assert (NR : h_st (T t) = HRun) by (pose proof (iv_nat _ _ _ I t) as NK; unfold nat_ok in NK; destruct (h_st (T t)); try congruence; reflexivity).
      destruct SP as (-> & PE).
      apply (flag_move P P T E Q A (mkP (p_q A) (p_task A) (p_needs A) (p_prio A) (fupd (p_ev A) t false) (fupd (p_run A) t (WAfter ASend th)) (p_guard A) (p_thr A)) t t EResetAll e' [] [] []);
        auto; try apply (iv_nat _ _ _ I); try apply (iv_idle _ _ _ I); try apply (iv_out _ _ _ I); cbn [p_thr p_run p_go p_ev p_guard].
      * rewrite H3. exists EResetAll. cbn. auto.
      * right. exists (XRun t). cbn [on_queue p_step]. rewrite AR. auto.
      * intros u Ne. now rewrite fupd_other.
      * intros u Ne. now rewrite fupd_other.
      * now rewrite fupd_same, PE.
      * rewrite fupd_same. unfold abs_run. now rewrite NR, Y, DV.
      * rewrite R6. unfold abs_thr. now rewrite X.
      * intros i. now rewrite R7.
      * apply late_own; [|intros e []]. intros u. destruct (Nat.eqb_spec u t) as [->|]; [|reflexivity]. unfold owes. now rewrite Y.
  Qed.
  Lemma flag_ret P T E Q A r t c v e' : inv P T E -> rel P T E A -> inq P Q -> g_ph (E r) t = Done v -> wants_flag N P t = Some (r, c) -> efits c v ->
    (forall u, u <> t -> g_ph e' u = g_ph (E r) u) -> g_ph e' t = Out -> g_pat e' = g_pat (E r) ->
    sim1 P T E Q A (fst (resume_flag P t v)) T (fupd E r e') (snd (resume_flag P t v)).
  Proof.
    intros I R IQ H1 W FT H2 H3 H5. pose proof R as [R1 R2 R3 R4 R5 R6 R7].
    assert (DV : fl_done E r t = Some v) by (unfold fl_done; now rewrite H1).
    assert (DN : fl_done (fupd E r e') r t = None) by (unfold fl_done; now rewrite fupd_same, H3).
    assert (PB : (0 <= g_pat e' < 2 ^ w)%Z) by (rewrite H5; apply (iv_pat _ _ _ I)).
    pose proof (R4 r) as EV. rewrite <- H5 in EV.
    assert (RUN : forall P', p_thr P t <> PIdle -> p_run P' t = p_run P t -> p_run A t = abs_run P' T (fupd E r e') t).
    { intros P' BZ X. rewrite R5. unfold abs_run. rewrite X. destruct (busy_run _ _ _ _ I BZ) as [-> |G]; [reflexivity|]. now rewrite (iv_out _ _ _ I t G). }
    assert (LO : forall P', p_thr P t <> PIdle -> p_run P' t = p_run P t -> late (owes P E Q) [] (fun u => if u =? t then owes P' (fupd E r e') Q t else owes P E Q u) []).
    { intros P' BZ X. apply lt_nil. intros u. destruct (Nat.eqb_spec u t) as [->|]; [|reflexivity]. unfold owes. rewrite X. destruct (busy_run _ _ _ _ I BZ) as [-> |G]; [reflexivity|]. now rewrite (iv_out _ _ _ I t G). }
    assert (PI : p_thr P t <> PIdle -> t < N -> p_run P t <> WIn -> False) by (intros BZ L X; destruct (busy_run _ _ _ _ I BZ) as [|]; [congruence|lia]).
    unfold resume_flag. destruct (fl_shape _ _ _ _ W) as [g ms X G|g X G|g X|th X LT EQ Y|th X LT EQ Y]; rewrite X.
    - assert (BZ : p_thr P t <> PIdle) by congruence.
      assert (FV : exists e, v = ERes e None) by (cbn in FT; destruct FT as [->|(-> & _)]; eauto). destruct FV as (e & ->). cbn [fst snd].
      apply (flag_move P (p_go P t (PRet (PErr e))) T E Q A A r t (EWaitAny (Within ms)) e' [] [] []); auto; try apply (iv_nat _ _ _ I); try apply (iv_out _ _ _ I); cbn [p_thr p_run p_go p_ev p_guard]; auto.
      + now rewrite H3.
      + intros u Ne. now rewrite fupd_other.
      + intros L Z. elim (PI BZ L Z).
      + now left.
      + rewrite R6. unfold abs_thr. cbn. rewrite fupd_same, X, G, DV. reflexivity.
      + intros i. rewrite R7. unfold abs_guard. cbn. now rewrite fupd_same, X.
    - assert (BZ : p_thr P t <> PIdle) by congruence. rewrite G. cbn [fst snd].
      apply (flag_move P (p_go P t (PRel false r g)) T E Q A A r t (EWaitAny (Within (-1))) e' [] [] []); auto; try apply (iv_nat _ _ _ I); try apply (iv_out _ _ _ I); cbn [p_thr p_run p_go p_ev p_guard]; auto.
      + now rewrite H3.
      + intros u Ne. now rewrite fupd_other.
      + intros L Z. elim (PI BZ L Z).
      + now left.
      + rewrite R6. unfold abs_thr. cbn. rewrite fupd_same, X, G, DV, DN. reflexivity.
      + intros i. rewrite R7. unfold abs_guard. cbn. now rewrite fupd_same, X.
    - assert (BZ : p_thr P t <> PIdle) by congruence. cbn [fst snd].
      apply (flag_move P (p_go P t (PRel true r g)) T E Q A A r t EResetAll e' [] [] []); auto; try apply (iv_nat _ _ _ I); try apply (iv_out _ _ _ I); cbn [p_thr p_run p_go p_ev p_guard]; auto.
      + now rewrite H3.
      + intros u Ne. now rewrite fupd_other.
      + intros L Z. elim (PI BZ L Z).
      + now left.
      + rewrite R6. unfold abs_thr. cbn. rewrite fupd_same, X, DV. reflexivity.
      + intros i. rewrite R7. unfold abs_guard. cbn. now rewrite fupd_same, X.
    - subst r. rewrite Y. cbn [fst snd].
      assert (NR : h_st (T t) = HRun) by (pose proof (iv_nat _ _ _ I t) as NK; unfold nat_ok in NK; destruct (h_st (T t)); try congruence; reflexivity).
      apply (flag_move P (p_wto P t WEnd) T E Q A A t t ESetAll e' [] [Ret t PVoid] [Ret t PVoid]); auto; cbn [p_thr p_run p_wto p_ev p_guard]; auto.
      + now rewrite H3.
      + intros u Ne. now rewrite fupd_other.
      + rewrite fupd_same. apply (nat_ok_in _ (p_run P t)); try apply (iv_nat _ _ _ I); rewrite ?Y; discriminate.
      + lia.
      + now left.
      + rewrite R5. unfold abs_run. cbn. rewrite fupd_same, NR, Y, DV. reflexivity.
      + rewrite R6. unfold abs_thr. cbn. now rewrite X.
      + intros i. rewrite R7. unfold abs_guard. cbn. now rewrite X.
      + eapply lt_emit; [unfold owes; now rewrite Y, DV|intros u; reflexivity|]. apply lt_nil. intros u. cbn. destruct (u =? t); [|reflexivity]. unfold owes. cbn. now rewrite fupd_same.
    - subst r. rewrite Y. cbn [fst snd]. destruct (fl_wants _ _ _ _ W) as (_ & W3). pose proof (inq_idle _ _ _ IQ W3) as QI.
      assert (NR : h_st (T t) = HRun) by (pose proof (iv_nat _ _ _ I t) as NK; unfold nat_ok in NK; destruct (h_st (T t)); try congruence; reflexivity).
      apply (flag_move P (p_wto P t (WAfter ASend th)) T E Q A A t t EResetAll e' [] [] []); auto; cbn [p_thr p_run p_wto p_ev p_guard]; auto.
      + now rewrite H3.
      + intros u Ne. now rewrite fupd_other.
      + rewrite fupd_same. apply (nat_ok_in _ (p_run P t)); try apply (iv_nat _ _ _ I); rewrite ?Y; discriminate.
      + lia.
      + now left.
      + rewrite R5. unfold abs_run. cbn. rewrite fupd_same, NR, Y, DV. reflexivity.
      + rewrite R6. unfold abs_thr. cbn. now rewrite X.
      + intros i. rewrite R7. unfold abs_guard. cbn. now rewrite X.
      + apply lt_nil. intros u. destruct (Nat.eqb_spec u t) as [->|]; [|reflexivity]. unfold owes. cbn. now rewrite fupd_same, QI, Y.
  Qed.
  (** one event of an event flag, heard by the pool *)
  Lemma flag_ev P T E Q A r e f0 f b P' o : inv P T E -> rel P T E A -> inq P Q -> lin_run (espec w false) f0 (g_pat (E r)) [e] f (g_pat b) -> (forall u, g_ph (E r) u = f0 u) -> (forall u, g_ph b u = f u) ->
    hear_flag N r P e = Some (P', o) -> sim1 P T E Q A P' T (fupd E r b) o.
  Proof.
    intros I R IQ L F0 F H. destruct e as [t c|t c v|t v]; inversion L; subst; match goal with h : lin_run _ _ _ [] _ _ |- _ => inversion h; subst end.
    - cbn in H. destruct (wants_flag N P t) as [(r', c')|] eqn:W; [|discriminate].
      destruct (r =? r') eqn:Er; [|discriminate]. destruct (ecall_dec c c') as [<-|]; [|discriminate]. cbn in H. injection H as <- <-. apply Nat.eqb_eq in Er. subst r'.
      apply (flag_quiet P T E Q A r t c); auto.
      + intros u Ne. rewrite F, F0. unfold set_st. now rewrite (proj2 (Nat.eqb_neq _ _) Ne).
      + now rewrite F0.
      + rewrite F. unfold set_st. now rewrite Nat.eqb_refl.
    - cbn in H. injection H as <- <-. apply (flag_eff P T E Q A r t c v); auto.
      + now rewrite F0.
      + intros u Ne. rewrite F, F0. unfold set_st. now rewrite (proj2 (Nat.eqb_neq _ _) Ne).
      + rewrite F. unfold set_st. now rewrite Nat.eqb_refl.
    - match goal with h : f0 t = Done v |- _ => rename h into D end. rewrite <- F0 in D. pose proof (iv_fl _ _ _ I r t) as W. rewrite D in W. cbn in W. destruct W as (c & W & FT).
      cbn in H. destruct (resume_flag P t v) as (P1, o1) eqn:RF. injection H as <- <-.
      replace P1 with (fst (resume_flag P t v)) by now rewrite RF. replace o1 with (snd (resume_flag P t v)) by now rewrite RF.
      apply (flag_ret P T E Q A r t c v); auto.
      + intros u Ne. rewrite F, F0. unfold set_st. now rewrite (proj2 (Nat.eqb_neq _ _) Ne).
      + rewrite F. unfold set_st. now rewrite Nat.eqb_refl.
  Qed.
  (** *** inside the queue *)
  Definition sim2 (P : pst) (T : threads) (E : flags) (Q : qst nat) (A : pst) (P' : pst) (T' : threads) (E' : flags) (Q' : qst nat) (o : list pev) : Prop :=
    exists Ls A' es ew, exec sstep (PoolStackModel.mkT A Q) Ls = Some (PoolStackModel.mkT A' Q', es) /\
      rel P' T' E' A' /\ inv P' T' E' /\ inq P' Q' /\ late (owes P E Q) es (owes P' E' Q') ew /\ history ew = o.
  Lemma q_wants P t c : wants N P t = Some c -> wants_thread P t = None /\ wants_flag N P t = None.
  Proof.
    unfold wants_thread, wants_flag, wants. destruct (p_thr P t) as [|[ | | | | |]|[ | | | |]|[|]|]; intros H; try discriminate; split; try reflexivity.
    destruct (t <? N); [|discriminate]. destruct (p_run P t) as [| | | |[| | | |] th|]; try discriminate; reflexivity.
  Qed.
  Inductive qshape (P : pst) (t : nat) : qcall nat -> Prop :=
  | qs_start x ms g p : p_thr P t = PAt (PStart x ms g p) -> x <> 0 -> qshape P t (QRecv true ms)
  | qs_rel r g : p_thr P t = PRel true r g -> qshape P t (QSend r (-1)%Z)
  | qs_end th : p_thr P t = PIdle -> t < N -> p_run P t = WAfter ASend th -> qshape P t (QSend t (-1)%Z).
  Lemma q_shape P t c : wants N P t = Some c -> qshape P t c.
  Proof.
    unfold wants. destruct (p_thr P t) as [|[x ms g p|g ms|g|g|x q|x th]|[ | | | |]|[|]|] eqn:X; intros H; try discriminate.
    - destruct (Nat.ltb_spec t N); [|discriminate]. destruct (p_run P t) as [| | | |[| | | |] th|] eqn:Y; try discriminate. injection H as <-. eapply qs_end; eauto.
    - destruct (Nat.eqb_spec x 0); [discriminate|]. injection H as <-. eapply qs_start; eauto.
    - injection H as <-. eapply qs_rel; eauto.
  Qed.
  Lemma q_same P T E A t c : inv P T E -> rel P T E A -> wants N P t = Some c ->
    p_thr A t = p_thr P t /\ (forall i, p_guard A t i = p_guard P t i) /\ (p_thr P t = PIdle -> p_run A t = p_run P t) /\ wants N A t = Some c.
  Proof.
    intros I R W. destruct (q_wants _ _ _ W) as (W1 & W2). destruct (agent_eq _ _ _ _ t I R W1 W2) as (E1 & E2).
    assert (E3 : p_thr P t = PIdle -> p_run A t = p_run P t).
    { intros X. destruct (q_shape _ _ _ W) as [x ms g p Y _|r g Y|th Y LT Z]; try congruence. rewrite Z. apply (abs_run_in _ _ _ _ _ _ I R Z); discriminate. }
    split; [exact E1|]. split; [exact E2|]. split; [exact E3|]. rewrite <- W. unfold wants. rewrite E1. destruct (p_thr P t) eqn:X; try reflexivity. now rewrite E3.
  Qed.
  (** thread [t], not inside an object that reports, moves; [on_agent] and [on_worker] without the queue *)
  Lemma agent_ri P T E A t P1 A1 : inv P T E -> rel P T E A ->
    p_thr P t <> PIdle -> wants_thread P t = None -> wants_flag N P t = None ->
    (forall u, u <> t -> p_thr P1 u = p_thr P u /\ (forall i, p_guard P1 u i = p_guard P u i)) -> (forall u, p_run P1 u = p_run P u) ->
    (forall u, u <> t -> p_thr A1 u = p_thr A u /\ (forall i, p_guard A1 u i = p_guard A u i)) -> (forall u, p_run A1 u = p_run A u) ->
    (forall r, p_task A1 r = p_task P1 r) -> (forall r, p_needs A1 r = p_needs P1 r) -> (forall r, p_prio A1 r = p_prio P1 r) -> (forall r, p_ev A1 r = p_ev A r) ->
    p_thr A1 t = p_thr P1 t -> (forall i, p_guard A1 t i = p_guard P1 t i) -> rel P1 T E A1 /\ inv P1 T E.
  Proof.
    intros I R BZ W1 W2 F1 F2 F3 F4 H1 H2 H3 H4 H5 H6.
    assert (FP : forall u, u <> t -> p_thr P1 u = p_thr P u /\ (forall i, p_guard P1 u i = p_guard P u i) /\ p_run P1 u = p_run P u).
    { intros u Ne. destruct (F1 u Ne) as (X & Y). auto. }
    assert (FA : forall u, u <> t -> p_thr A1 u = p_thr A u /\ (forall i, p_guard A1 u i = p_guard A u i) /\ p_run A1 u = p_run A u).
    { intros u Ne. destruct (F3 u Ne) as (X & Y). auto. }
    pose proof (quiet_thread _ _ _ _ I W1) as QT. pose proof (quiet_flag _ _ _ _ I W2) as QF.
    assert (DT : forall r, th_done T r t = None) by (intros r; unfold th_done; now rewrite QT).
    assert (DF : forall r, fl_done E r t = None) by (intros r; unfold fl_done; now rewrite QF).
    pose proof (busy_run _ _ _ _ I BZ) as RI.
    split.
    - apply (rel_frame P P1 T E A A1 t FP FA); auto.
      + rewrite H5. unfold abs_thr. destruct (p_thr P1 t) as [|[ | | | | |]|[ | | | |]|[|]|]; try reflexivity; rewrite ?DT, ?DF; try reflexivity.
        * destruct (p_guard P1 t g); [rewrite DF|]; reflexivity.
        * destruct (p_guard P1 t g); [rewrite DF|]; reflexivity.
      + intros i. rewrite H6. unfold abs_guard. destruct (p_thr P1 t) as [|[ | | | | |]|[ | | | |] r x ms [g|] p|[|]|]; rewrite ?DT; reflexivity.
      + rewrite F4, (rl_run _ _ _ _ R). symmetry. apply abs_run_ext; auto.
    - apply (inv_frame P P1 T E t FP QT QF); auto.
      + rewrite F2. apply (iv_nat _ _ _ I).
      + rewrite F2. intros L X. destruct RI as [RI|G]; [congruence|lia].
      + rewrite F2. apply (iv_out _ _ _ I).
  Qed.
  Lemma worker_ri P T E A r : inv P T E -> rel P T E A -> wants N P r <> None -> p_thr P r = PIdle -> rel (p_wto P r WEnd) T E (p_wto A r WEnd) /\ inv (p_wto P r WEnd) T E.
  Proof.
    intros I R W PI. destruct (wants N P r) as [c|] eqn:WW; [|congruence]. destruct (q_wants _ _ _ WW) as (W1 & W2).
    destruct (q_shape _ _ _ WW) as [x ms g p Y _|r' g Y|th Y LT Z]; try congruence.
    pose proof (quiet_thread _ _ _ _ I W1) as QT. pose proof (quiet_flag _ _ _ _ I W2) as QF. pose proof R as [R1 R2 R3 R4 R5 R6 R7].
    assert (FP : forall u, u <> r -> p_thr (p_wto P r WEnd) u = p_thr P u /\ (forall i, p_guard (p_wto P r WEnd) u i = p_guard P u i) /\ p_run (p_wto P r WEnd) u = p_run P u)
      by (intros u Ne; cbn; now rewrite fupd_other).
    assert (FA : forall u, u <> r -> p_thr (p_wto A r WEnd) u = p_thr A u /\ (forall i, p_guard (p_wto A r WEnd) u i = p_guard A u i) /\ p_run (p_wto A r WEnd) u = p_run A u)
      by (intros u Ne; cbn; now rewrite fupd_other).
    assert (NR : h_st (T r) = HRun) by (pose proof (iv_nat _ _ _ I r) as NK; unfold nat_ok in NK; destruct (h_st (T r)); try congruence; reflexivity).
    split.
    - apply (rel_frame P _ T E A _ r FP FA); auto; cbn [p_thr p_run p_wto p_guard].
      + rewrite R6. apply abs_thr_ext; auto.
      + intros i. rewrite R7. apply abs_guard_ext; auto.
      + rewrite fupd_same. unfold abs_run. cbn. now rewrite NR, fupd_same.
    - apply (inv_frame P _ T E r FP QT QF); auto; cbn [p_thr p_run p_wto p_guard].
      + rewrite fupd_same. apply (nat_ok_in _ (p_run P r)); try apply (iv_nat _ _ _ I); rewrite ?Z; discriminate.
      + lia.
  Qed.

  Definition q_quiet (l : qlab nat) : Prop := QueueStackProofs.quiet nat l.
  Lemma late_q P E Q Q1 t es : (forall u, u <> t -> q_thr Q1 u = q_thr Q u) -> owes P E Q t = false -> owes P E Q1 t = false -> (forall e, In e es -> agent e = t) ->
    late (owes P E Q) es (owes P E Q1) es.
  Proof.
    intros H O1 O2 HE. apply late_own; [|intros e He; now rewrite (HE e He)]. intros u. destruct (Nat.eq_dec u t) as [->|Ne]; [congruence|]. unfold owes. now rewrite H.
  Qed.
  Lemma inq_move P Q Q1 t c : (forall u, u <> t -> q_thr Q1 u = q_thr Q u) -> (q_thr Q1 t = QIdle \/ exists pt, q_thr Q1 t = QAt c pt) -> wants N P t = Some c -> inq P Q -> inq P Q1.
  Proof.
    intros H K W I u d pt Hu. destruct (Nat.eq_dec u t) as [->|Ne].
    - destruct K as [K|(pt' & K)]; rewrite K in Hu; [discriminate|]. injection Hu as <- _. exact W.
    - rewrite H in Hu by exact Ne. exact (I u d pt Hu).
  Qed.
  Lemma one_s A Q L A1 Q1 es : sstep (PoolStackModel.mkT A Q) L = Some (PoolStackModel.mkT A1 Q1, es) -> exec sstep (PoolStackModel.mkT A Q) [L] = Some (PoolStackModel.mkT A1 Q1, es).
  Proof. intros H. cbn [exec]. rewrite H, app_nil_r. reflexivity. Qed.

  Lemma q_one P T E Q A l Q1 qes P1 o : inv P T E -> rel P T E A -> inq P Q -> q_quiet l -> qstep Q l = Some (Q1, qes) -> hears (hear_queue N) P (history qes) = Some (P1, o) ->
    sim2 P T E Q A P1 T E Q1 o.
  Proof.
    intros I R IQ QU ST H. destruct l as [t c|t|t|t|t b]; try contradiction QU.
    - (* entering *)
      cbn [q_step] in ST. destruct (q_thr Q t) as [|c0 pt0] eqn:X; [|discriminate]. injection ST as <- <-.
      cbn in H. destruct (wants N P t) as [c'|] eqn:W; [|discriminate]. destruct (qcall_dec c c') as [<-|]; [|discriminate]. injection H as <- <-.
      destruct (q_same _ _ _ _ _ _ I R W) as (E1 & E2 & E3 & E4).
      assert (QO : forall pt u, u <> t -> q_thr (q_go Q t (QAt c pt)) u = q_thr Q u) by (intros pt u Ne; cbn; now rewrite fupd_other).
      exists [TEnter t], A, [], []. split; [apply one_s; cbn [PoolStackModel.t_step t_pool t_queue]; rewrite E4; cbn [q_step]; rewrite X; reflexivity|].
      split; [exact R|]. split; [exact I|]. split; [|split; [|reflexivity]].
      + apply (inq_move P Q _ t c); auto. right. eexists. cbn. now rewrite fupd_same.
      + apply (late_q _ _ _ _ t); auto.
        * unfold owes. rewrite X. destruct (q_shape _ _ _ W) as [x ms g p Y _|r g Y|th Y LT Z].
          -- destruct (busy_run P T E t I ltac:(congruence)) as [-> |G]; [reflexivity|now rewrite (iv_out _ _ _ I t G)].
          -- destruct (busy_run P T E t I ltac:(congruence)) as [-> |G]; [reflexivity|now rewrite (iv_out _ _ _ I t G)].
          -- now rewrite Z.
        * unfold owes. cbn. rewrite fupd_same. destruct (q_shape _ _ _ W) as [x ms g p Y _|r g Y|th Y LT Z].
          -- destruct (busy_run P T E t I ltac:(congruence)) as [-> |G]; [reflexivity|now rewrite (iv_out _ _ _ I t G)].
          -- destruct (busy_run P T E t I ltac:(congruence)) as [-> |G]; [reflexivity|now rewrite (iv_out _ _ _ I t G)].
          -- now rewrite Z.
        * intros e [].
    - (* a step *)
      destruct (q_thr Q t) as [|c pt] eqn:X; [cbn [q_step] in ST; now rewrite X in ST|]. pose proof (IQ t c pt X) as W.
      destruct (q_same _ _ _ _ _ _ I R W) as (E1 & E2 & E3 & E4). destruct (q_wants _ _ _ W) as (W1 & W2).
      assert (TS : sstep (PoolStackModel.mkT A Q) (TQueue t) = Some (PoolStackModel.mkT (match pt with MessageQueueModel.PRet res => resume A t res | _ => A end) Q1,
                     match c, pt with QSend _ _, PSetEv _ => note_push A t | _, _ => [] end)).
      { cbn [PoolStackModel.t_step t_pool t_queue]. rewrite ST, X. destruct c, pt; reflexivity. }
      assert (CASES : (exists res, pt = MessageQueueModel.PRet res /\ Q1 = q_go Q t QIdle /\ history qes = [Ret t res]) \/
                      ((forall res, pt <> MessageQueueModel.PRet res) /\ history qes = [] /\ exists pt1, (forall u, u <> t -> q_thr Q1 u = q_thr Q u) /\ q_thr Q1 t = QAt c pt1 /\
                         (after_set pt1 = match pt with PSetEv _ => true | _ => after_set pt end))).
      { cbn [q_step] in ST. rewrite X in ST. clear - ST W X. assert (SRC : match c with QSend _ _ | QRecv _ _ => True | _ => False end) by (destruct (q_shape _ _ _ W); exact Logic.I).
        destruct pt; try (right; split; [intros res; discriminate|]);
          repeat match type of ST with (if ?x then _ else _) = _ => destruct x; [|discriminate] end.
        - injection ST as <- <-. split; [reflexivity|]. eexists. unfold set_outer, q_go. destruct (is_send c); cbn; rewrite fupd_same; (split; [intros u Ne; now rewrite fupd_other|split; reflexivity]).
        - injection ST as <- <-. split; [reflexivity|]. eexists. cbn; rewrite fupd_same; (split; [intros u Ne; now rewrite fupd_other|split; reflexivity]).
        - injection ST as <- <-. split; [reflexivity|]. eexists. cbn; rewrite fupd_same; (split; [intros u Ne; now rewrite fupd_other|split; [reflexivity|now destruct (blocked nat size Q c)]]).
        - injection ST as <- <-. split; [reflexivity|]. eexists. unfold reset_bit. destruct (is_send c); cbn; rewrite fupd_same; (split; [intros u Ne; now rewrite fupd_other|split; reflexivity]).
        - injection ST as <- <-. split; [reflexivity|]. eexists. cbn; rewrite fupd_same; (split; [intros u Ne; now rewrite fupd_other|split; [reflexivity|now destruct b]]).
        - injection ST as <- <-. split; [reflexivity|]. eexists. cbn; rewrite fupd_same; (split; [intros u Ne; now rewrite fupd_other|split; reflexivity]).
        - injection ST as <- <-. split; [reflexivity|]. eexists. cbn; rewrite fupd_same; (split; [intros u Ne; now rewrite fupd_other|split; reflexivity]).
        - unfold q_op in ST. destruct c as [v ms|st ms| |]; try contradiction SRC.
          + destruct (ring_push nat (rbBufSize size) (q_ring Q) v) as [rg|]; injection ST as <- <-.
            * split; [reflexivity|]. eexists. cbn; rewrite fupd_same; (split; [intros u Ne; now rewrite fupd_other|split; reflexivity]).
            * split; [reflexivity|]. exists POp. cbn. auto.
          + destruct (ring_pop nat (rbBufSize size) (q_ring Q)) as [(v, rg)|]; injection ST as <- <-.
            * split; [reflexivity|]. eexists. cbn; rewrite fupd_same; (split; [intros u Ne; now rewrite fupd_other|split; reflexivity]).
            * split; [reflexivity|]. exists POp. cbn. auto.
        - injection ST as <- <-. split; [reflexivity|]. eexists. unfold set_bit. destruct (is_send c); cbn; rewrite fupd_same; (split; [intros u Ne; now rewrite fupd_other|split; reflexivity]).
        - injection ST as <- <-. split; [reflexivity|]. eexists. cbn; rewrite fupd_same; (split; [intros u Ne; now rewrite fupd_other|split; [reflexivity|now destruct c]]).
        - injection ST as <- <-. split; [reflexivity|]. eexists. unfold set_outer. destruct (is_send c); cbn; rewrite fupd_same; (split; [intros u Ne; now rewrite fupd_other|split; reflexivity]).
        - left. exists r. injection ST as <- <-. auto. }
      destruct CASES as [(res & -> & -> & HI)|(NR & HI & pt1 & QO & QT1 & AS)]; rewrite HI in H; cbn in H; injection H as <- <-.
      + (* the call returns *)
        assert (QO : forall u, u <> t -> q_thr (q_go Q t QIdle) u = q_thr Q u) by (intros u Ne; cbn; now rewrite fupd_other).
        assert (TS' : sstep (PoolStackModel.mkT A Q) (TQueue t) = Some (PoolStackModel.mkT (resume A t res) (q_go Q t QIdle), [])) by (rewrite TS; destruct c; reflexivity).
        assert (NI : forall P1, (forall u, u <> t -> wants N P1 u = wants N P u) -> inq P1 (q_go Q t QIdle)).
        { intros P1 HW u d pt' Hu. cbn in Hu. rewrite fupd_eq in Hu. destruct (Nat.eqb_spec u t); [discriminate|]. rewrite HW by assumption. exact (IQ u d pt' Hu). }
        destruct (q_shape _ _ _ W) as [x ms g p Y _|r g Y|th Y LT Z].
        * assert (BZ : p_thr P t <> PIdle) by congruence.
          assert (G : exists k, resume P t res = P /\ resume A t res = A \/ resume P t res = p_go P t k /\ resume A t res = p_go A t k).
          { unfold resume. rewrite E1, Y. destruct res as [e|[] [v|]|n|]; try (exists PIdle; left; split; reflexivity); eexists; right; split; reflexivity. }
          destruct G as (k & G).
          assert (K : rel (resume P t res) T E (resume A t res) /\ inv (resume P t res) T E /\ (forall u, u <> t -> wants N (resume P t res) u = wants N P u) /\ (forall u, p_run (resume P t res) u = p_run P u)).
          { destruct G as [(-> & ->)|(-> & ->)]; [auto|].
            assert (K : rel (p_go P t k) T E (p_go A t k) /\ inv (p_go P t k) T E).
            { apply (agent_ri P T E A t); auto; try apply R; cbn [p_thr p_go p_guard]; try (intros u Ne; now rewrite fupd_other); rewrite ?fupd_same; auto. }
            split; [apply K|]. split; [apply K|]. split; [|reflexivity]. intros u Ne. apply wants_ext; cbn; rewrite ?fupd_other by exact Ne; reflexivity. }
          destruct K as (K1 & K2 & K3 & K4). rewrite Y.
          exists [TQueue t], (resume A t res), [], []. split; [now apply one_s|]. split; [exact K1|]. split; [exact K2|]. split; [now apply NI|]. split; [|reflexivity].
          apply late_own; [|intros e []]. intros u. unfold owes. rewrite K4. destruct (Nat.eq_dec u t) as [->|Ne]; [|now rewrite QO].
          destruct (busy_run _ _ _ _ I BZ) as [-> |GG]; [reflexivity|]. now rewrite (iv_out _ _ _ I t GG).
        * assert (BZ : p_thr P t <> PIdle) by congruence.
          assert (K : rel (resume P t res) T E (resume A t res) /\ inv (resume P t res) T E).
          { unfold resume. rewrite E1, Y. apply (agent_ri P T E A t); auto; try apply R; cbn [p_thr p_go p_guard].
            - intros u Ne. unfold set_guard. now rewrite !fupd_other.
            - intros u Ne. unfold set_guard. now rewrite !fupd_other.
            - now rewrite !fupd_same.
            - intros i. unfold set_guard. rewrite !fupd_same, !fupd_eq, E2. reflexivity. }
          assert (K3 : (forall u, u <> t -> wants N (resume P t res) u = wants N P u) /\ (forall u, p_run (resume P t res) u = p_run P u)).
          { unfold resume. rewrite Y. split; [|reflexivity]. intros u Ne. apply wants_ext; cbn; rewrite ?fupd_other by exact Ne; reflexivity. }
          destruct K as (K1 & K2). destruct K3 as (K3 & K4). rewrite Y.
          exists [TQueue t], (resume A t res), [], []. split; [now apply one_s|]. split; [exact K1|]. split; [exact K2|]. split; [now apply NI|]. split; [|reflexivity].
          apply late_own; [|intros e []]. intros u. unfold owes. rewrite K4. destruct (Nat.eq_dec u t) as [->|Ne]; [|now rewrite QO].
          destruct (busy_run _ _ _ _ I BZ) as [-> |GG]; [reflexivity|]. now rewrite (iv_out _ _ _ I t GG).
        * destruct (worker_ri _ _ _ _ t I R ltac:(congruence) Y) as (K1 & K2).
          assert (RP : resume P t res = p_wto P t WEnd) by (unfold resume; now rewrite Y). assert (RA : resume A t res = p_wto A t WEnd) by (unfold resume; now rewrite E1, Y).
          rewrite Y, RP. exists [TQueue t], (p_wto A t WEnd), [], [Ret t PVoid]. split; [apply one_s; now rewrite TS', RA|]. split; [exact K1|]. split; [exact K2|]. split; [|split; [|reflexivity]].
          -- apply NI. intros u Ne. apply wants_ext; cbn; rewrite ?fupd_other by exact Ne; reflexivity.
          -- eapply lt_emit; [unfold owes; rewrite Z, X; reflexivity|intros u; reflexivity|]. apply lt_nil. intros u. destruct (Nat.eqb_spec u t) as [->|Ne].
             ++ unfold owes. cbn. now rewrite fupd_same.
             ++ unfold owes. cbn. rewrite !fupd_other by exact Ne. reflexivity.
      + (* inside the call *)
        assert (KQ : inq P Q1) by (apply (inq_move P Q Q1 t c); auto; right; eauto).
        assert (TS' : sstep (PoolStackModel.mkT A Q) (TQueue t) = Some (PoolStackModel.mkT A Q1, match c, pt with QSend _ _, PSetEv _ => note_push A t | _, _ => [] end)).
        { rewrite TS. destruct pt; try reflexivity. elim (NR r eq_refl). }
        assert (OB : p_thr P t <> PIdle -> owes P E Q t = false /\ owes P E Q1 t = false).
        { intros BZ. unfold owes. destruct (busy_run _ _ _ _ I BZ) as [-> |GG]; [auto|]. now rewrite (iv_out _ _ _ I t GG). }
        destruct (q_shape _ _ _ W) as [x ms g p Y _|r g Y|th Y LT Z].
        * destruct (OB ltac:(congruence)) as (O1 & O2). exists [TQueue t], A, [], []. split; [now apply one_s|]. split; [exact R|]. split; [exact I|]. split; [exact KQ|]. split; [|reflexivity].
          apply (late_q _ _ _ _ t); auto. intros e [].
        * destruct (OB ltac:(congruence)) as (O1 & O2). exists [TQueue t], A, (match pt with PSetEv _ => note_push A t | _ => [] end), (match pt with PSetEv _ => note_push A t | _ => [] end).
          split; [now apply one_s|]. split; [exact R|]. split; [exact I|]. split; [exact KQ|]. unfold note_push. rewrite E1, Y. split; [|destruct pt; reflexivity].
          apply (late_q _ _ _ _ t); auto. intros e. destruct pt; cbn; try tauto. intros [<-|[]]. reflexivity.
        * destruct (match pt with PSetEv _ => true | _ => false end) eqn:PS.
          -- destruct pt; try discriminate. exists [TQueue t], A, (note_push A t), [Eff t (PEnd (p_task A t) th) PVoid].
             split; [now apply one_s|]. split; [exact R|]. split; [exact I|]. split; [exact KQ|]. split; [|reflexivity]. unfold note_push. rewrite E1, Y, (E3 Y), Z.
             apply lt_same; [cbn; unfold owes; now rewrite Z, X|]. eapply lt_hold; [unfold owes; now rewrite Z, X|intros u; reflexivity|]. apply lt_nil. intros u. destruct (Nat.eqb_spec u t) as [->|Ne].
             ++ unfold owes. now rewrite Z, QT1, AS.
             ++ unfold owes. now rewrite QO.
          -- exists [TQueue t], A, [], []. split; [apply one_s; rewrite TS'; destruct pt; try reflexivity; discriminate|]. split; [exact R|]. split; [exact I|]. split; [exact KQ|]. split; [|reflexivity].
             apply lt_nil. intros u. destruct (Nat.eq_dec u t) as [->|Ne]; [|unfold owes; now rewrite QO]. unfold owes. rewrite Z, X, QT1, AS. destruct pt; try reflexivity; discriminate.
    - (* giving up *)
      destruct (q_thr Q t) as [|c pt] eqn:X; [cbn [q_step] in ST; now rewrite X in ST|]. pose proof (IQ t c pt X) as W.
      destruct (q_same _ _ _ _ _ _ I R W) as (E1 & E2 & E3 & E4).
      assert (TS : sstep (PoolStackModel.mkT A Q) (TGiveUp t) = Some (PoolStackModel.mkT A Q1, note_give_up A t)) by (cbn [PoolStackModel.t_step t_pool t_queue]; now rewrite ST).
      assert (CASES : exists pt1, (forall u, u <> t -> q_thr Q1 u = q_thr Q u) /\ q_thr Q1 t = QAt c pt1 /\ history qes = [] /\ (tmout c <> -1)%Z).
      { cbn [q_step] in ST. rewrite X in ST. clear - ST. destruct pt; try discriminate.
        - destruct (free (outer Q c)); [discriminate|]. destruct (Z.eqb_spec (tmout c) (-1)); [discriminate|]. injection ST as <- <-. eexists. cbn. rewrite fupd_same. split; [intros u Ne; now rewrite fupd_other|]. auto.
        - destruct (wait_bit Q c); [discriminate|]. destruct (Z.eqb_spec (tmout c) (-1)); [discriminate|]. injection ST as <- <-. eexists. cbn. rewrite fupd_same. split; [intros u Ne; now rewrite fupd_other|]. auto. }
      destruct CASES as (pt1 & QO & QT1 & HI & TM). rewrite HI in H. cbn in H. injection H as <- <-.
      destruct (q_shape _ _ _ W) as [x ms g p Y _|r g Y|th Y LT Z]; [|elim TM; reflexivity|elim TM; reflexivity].
      assert (BZ : p_thr P t <> PIdle) by congruence.
      exists [TGiveUp t], A, (note_give_up A t), (note_give_up A t). split; [now apply one_s|]. split; [exact R|]. split; [exact I|].
      split; [apply (inq_move P Q Q1 t (QRecv true ms)); auto; right; eauto|]. unfold note_give_up. rewrite E1, Y. split; [|reflexivity].
      apply (late_q _ _ _ _ t); auto.
      + unfold owes. destruct (busy_run _ _ _ _ I BZ) as [-> |GG]; [auto|]. now rewrite (iv_out _ _ _ I t GG).
      + unfold owes. destruct (busy_run _ _ _ _ I BZ) as [-> |GG]; [auto|]. now rewrite (iv_out _ _ _ I t GG).
      + intros e [<-|[]]. reflexivity.
  Qed.

  Lemma hears_app {X : Type} (h : pst -> X -> option (pst * pout)) a : forall P b P' o, hears h P (a ++ b) = Some (P', o) ->
    exists P1 o1 o2, hears h P a = Some (P1, o1) /\ hears h P1 b = Some (P', o2) /\ o = o1 ++ o2.
  Proof.
    induction a as [|e a IH]; intros P b P' o H; cbn in *; [exists P, [], o; auto|].
    destruct (h P e) as [(P1, o1)|]; [|discriminate]. destruct (hears h P1 (a ++ b)) as [(P2, o2)|] eqn:HX; [|discriminate]. injection H as <- <-.
    destruct (IH _ _ _ _ HX) as (P3 & o3 & o4 & -> & B & ->). exists P3, (o1 ++ o3), o4. rewrite app_assoc. auto.
  Qed.
  Lemma q_many T E qls : forall P Q A Q' qes P' o, inv P T E -> rel P T E A -> inq P Q -> (forall l, In l qls -> q_quiet l) ->
    exec qstep Q qls = Some (Q', qes) -> hears (hear_queue N) P (history qes) = Some (P', o) -> sim2 P T E Q A P' T E Q' o.
  Proof.
    induction qls as [|l qls IH]; intros P Q A Q' qes P' o I R IQ QU EX H; cbn [exec] in EX.
    - injection EX as <- <-. cbn in H. injection H as <- <-. exists [], A, [], []. split; [reflexivity|]. split; [exact R|]. split; [exact I|]. split; [exact IQ|]. split; [apply lt_nil; reflexivity|reflexivity].
    - destruct (qstep Q l) as [[Q1 e1]|] eqn:E1; [|discriminate]. destruct (exec qstep Q1 qls) as [[Q2 e2]|] eqn:E2; [|discriminate]. injection EX as <- <-.
      unfold history in H. rewrite filter_app in H. destruct (hears_app _ _ _ _ _ _ H) as (P1 & o1 & o2 & H1 & H2 & ->).
      destruct (q_one P T E Q A l Q1 e1 P1 o1 I R IQ (QU l (or_introl eq_refl)) E1 H1) as (L1 & A1 & s1 & w1 & X1 & R1 & I1 & Q1' & T1 & HW1).
      destruct (IH P1 Q1 A1 Q2 e2 P' o2 I1 R1 Q1' (fun x hx => QU x (or_intror hx)) E2 H2) as (L2 & A2 & s2 & w2 & X2 & R2 & I2 & Q2' & T2 & HW2).
      exists (L1 ++ L2), A2, (s1 ++ s2), (w1 ++ w2). split; [now rewrite exec_app, X1, X2|]. split; [exact R2|]. split; [exact I2|]. split; [exact Q2'|].
      split; [exact (late_app _ _ _ _ T1 _ _ _ T2)|]. unfold history in *. now rewrite filter_app, HW1, HW2.
  Qed.


  (** ** any number of events of one object *)
  Lemma sim2_refl P T E Q A : inv P T E -> rel P T E A -> inq P Q -> sim2 P T E Q A P T E Q [].
  Proof.
    intros I R IQ. exists [], A, [], []. split; [reflexivity|]. split; [exact R|]. split; [exact I|]. split; [exact IQ|]. split; [apply lt_nil; reflexivity|reflexivity].
  Qed.
  Lemma sim1_sim2 P T E Q A P' T' E' o : sim1 P T E Q A P' T' E' o -> sim2 P T E Q A P' T' E' Q o.
  Proof.
    intros (A' & es & ew & MV & R' & I' & IQ' & L & H). destruct MV as [(-> & ->)|(x & OQ & SX)].
    - exists [], A, [], ew. auto 6.
    - exists [TPool x], A', es, ew. split; [apply one_s; cbn [PoolStackModel.t_step t_pool t_queue]; rewrite OQ, SX; reflexivity|]. auto.
  Qed.
  Lemma sim2_trans P T E Q A P1 T1 E1 Q1 o1 P2 T2 E2 Q2 o2 : sim2 P T E Q A P1 T1 E1 Q1 o1 ->
    (forall A1, rel P1 T1 E1 A1 -> inv P1 T1 E1 -> inq P1 Q1 -> sim2 P1 T1 E1 Q1 A1 P2 T2 E2 Q2 o2) -> sim2 P T E Q A P2 T2 E2 Q2 (o1 ++ o2).
  Proof.
    intros (L1 & A1 & s1 & w1 & X1 & R1 & I1 & IQ1 & T1' & HW1) H. destruct (H A1 R1 I1 IQ1) as (L2 & A2 & s2 & w2 & X2 & R2 & I2 & IQ2 & T2' & HW2).
    exists (L1 ++ L2), A2, (s1 ++ s2), (w1 ++ w2). split; [now rewrite exec_app, X1, X2|]. split; [exact R2|]. split; [exact I2|]. split; [exact IQ2|].
    split; [exact (late_app _ _ _ _ T1' _ _ _ T2')|]. unfold history in *. now rewrite filter_app, HW1, HW2.
  Qed.
  (** only the callers' places and the states matter *)
  Definition same_th (T T' : threads) : Prop := forall r, h_st (T' r) = h_st (T r) /\ forall u, h_ph (T' r) u = h_ph (T r) u.
  Definition same_fl (E E' : flags) : Prop := forall r, g_pat (E' r) = g_pat (E r) /\ forall u, g_ph (E' r) u = g_ph (E r) u.
  Lemma sim2_ext P T E Q A P' T' E' Q' o T2 E2 : sim2 P T E Q A P' T' E' Q' o -> same_th T' T2 -> same_fl E' E2 -> sim2 P T E Q A P' T2 E2 Q' o.
  Proof.
    intros (Ls & A' & es & ew & X & R & I & IQ & L & H) ST SF.
    assert (DT : forall r t, th_done T2 r t = th_done T' r t) by (intros r t; unfold th_done; now rewrite (proj2 (ST r))).
    assert (DF : forall r t, fl_done E2 r t = fl_done E' r t) by (intros r t; unfold fl_done; now rewrite (proj2 (SF r))).
    exists Ls, A', es, ew. split; [exact X|]. split; [|split; [|split; [exact IQ|split; [|exact H]]]].
    - destruct R as [R1 R2 R3 R4 R5 R6 R7]. constructor; auto.
      + intros r. rewrite R4. now rewrite (proj1 (SF r)).
      + intros r. rewrite R5. unfold abs_run. now rewrite (proj1 (ST r)), DF.
      + intros t. rewrite R6. symmetry. apply abs_thr_ext; auto.
      + intros t i. rewrite R7. symmetry. apply abs_guard_ext; auto.
    - destruct I as [I1 I2 I3 I4 I5 I6]. constructor; auto.
      + intros r. unfold nat_ok. rewrite (proj1 (ST r)). apply I1.
      + intros r u. rewrite (proj2 (ST r)). apply I4.
      + intros r u. rewrite (proj2 (SF r)). apply I5.
      + intros r. rewrite (proj1 (SF r)). apply I6.
    - eapply late_ext; [exact L|reflexivity|]. intros u. unfold owes. now rewrite DF.
  Qed.
  Lemma hears_one {X : Type} (h : pst -> X -> option (pst * pout)) P e es P' o : hears h P (e :: es) = Some (P', o) ->
    exists P1 o1 o2, h P e = Some (P1, o1) /\ hears h P1 es = Some (P', o2) /\ o = o1 ++ o2.
  Proof.
    intros H. cbn in H. destruct (h P e) as [(P1, o1)|]; [|discriminate]. destruct (hears h P1 es) as [(P2, o2)|] eqn:HX; [|discriminate]. injection H as <- <-. exists P1, o1, o2. auto.
  Qed.
  (** what a thread object does when it reports events *)
  Inductive th_run : athr -> list (event tcall tres) -> athr -> Prop :=
  | tr_nil a b : h_st b = h_st a -> (forall u, h_ph b u = h_ph a u) -> th_run a [] b
  | tr_cons a e b es c : th_event a e b -> th_run b es c -> th_run a (e :: es) c.
  Lemma thread_evs r a es b : th_run a es b -> forall P T E Q A P' o T', r < N -> T r = a -> inv P T E -> rel P T E A -> inq P Q ->
    hears (hear_thread r) P es = Some (P', o) -> (forall q, q <> r -> T' q = T q) -> T' r = b -> sim2 P T E Q A P' T' E Q o.
  Proof.
    induction 1 as [a b H1 H2|a e b es c HE HR IH]; intros P T E Q A P' o T' LT TA I R IQ H TO TB.
    - cbn in H. injection H as <- <-. apply (sim2_ext _ _ _ _ _ _ T E); [now apply sim2_refl| |intros r'; auto].
      intros r'. destruct (Nat.eq_dec r' r) as [->|Ne]; [rewrite TB, TA; auto|rewrite TO by exact Ne; auto].
    - destruct (hears_one _ _ _ _ _ _ H) as (P1 & o1 & o2 & H1 & H2 & ->). rewrite <- TA in HE.
      eapply sim2_trans; [apply sim1_sim2; exact (thread_ev P T E Q A r e b P1 o1 I R IQ LT HE H1)|].
      intros A1 R1 I1 IQ1. apply IH; auto.
      + now rewrite fupd_same.
      + intros q Ne. rewrite fupd_other by exact Ne. auto.
  Qed.
  Lemma flag_evs r es : forall P T E Q A P' o f p f' p' E', lin_run (espec w false) f p es f' p' -> (forall u, g_ph (E r) u = f u) -> g_pat (E r) = p ->
    inv P T E -> rel P T E A -> inq P Q -> hears (hear_flag N r) P es = Some (P', o) -> (forall q, q <> r -> E' q = E q) -> (forall u, g_ph (E' r) u = f' u) -> g_pat (E' r) = p' ->
    sim2 P T E Q A P' T E' Q o.
  Proof.
    induction es as [|e es IH]; intros P T E Q A P' o f p f' p' E' L F PP I R IQ H EO F' PP'.
    - inversion L; subst. cbn in H. injection H as <- <-. apply (sim2_ext _ _ _ _ _ _ T E); [now apply sim2_refl|intros r'; auto|].
      intros r'. destruct (Nat.eq_dec r' r) as [->|Ne]; [|rewrite EO by exact Ne; auto]. split; [congruence|]. intros u. now rewrite F, F'.
    - destruct (hears_one _ _ _ _ _ _ H) as (P1 & o1 & o2 & H1 & H2 & ->).
      assert (SP : exists f1 p1, lin_run (espec w false) f p [e] f1 p1 /\ lin_run (espec w false) f1 p1 es f' p').
      { inversion L; subst; (eexists; eexists; split; [|eassumption]); econstructor; eauto; constructor. }
      destruct SP as (f1 & p1 & L1 & L2).
      subst p. eapply sim2_trans; [apply sim1_sim2; exact (flag_ev P T E Q A r e f f1 (mkG f1 p1) P1 o1 I R IQ L1 F (fun _ => eq_refl) H1)|].
      intros A1 R1 I1 IQ1. apply (IH P1 T _ Q A1 P' o2 f1 p1 f' p' E' L2); auto; rewrite ?fupd_same; auto. intros q Ne. rewrite fupd_other by exact Ne. auto.
  Qed.
End P.
