(** Concrete runs of the two stacks, for the examples and for the run that goes wrong. *)
From Coq Require Import List ZArith Bool Lia Arith.
Import ListNotations.
From Verif Require Import Spec.OSError Spec.Linear Spec.MutexSpec Spec.EventFlagSpec Spec.MessageQueueSpec OS.Sched OS.MessageQueueModel
  OS.MutexModel OS.EventFlagModel OS.ItronMutexModel OS.ItronEventFlagModel OS.QueueStackModel.
Open Scope Z_scope.

(** the next move of thread [t] *)
Definition std_next (s : std_st nat) (t : nat) : std_lab nat :=
  match c_thr s t with
  | CIdle => CDo t
  | CBefore g c p => match uses g c p with Some (OMutex o m) => CMtx o (MCall t m) | Some (OEvent e) => CEvt (LCall t e) | None => CDo t end
  | CIn g c p => match uses g c p with Some (OMutex o m) => CMtx o (MStep t) | Some (OEvent e) => CEvt (LStep t) | None => CDo t end
  end.
Definition itr_next (s : itr_st nat) (t : nat) : itr_lab nat :=
  match c_thr s t with
  | CIdle => CDo t
  | CBefore g c p => match uses g c p with Some (OMutex o m) => CMtx o (KCall t m) | Some (OEvent e) => CEvt (FCall t e) | None => CDo t end
  | CIn g c p => match uses g c p with Some (OMutex o m) => CMtx o (KStep t) | Some (OEvent e) => CEvt (FStep t 0) | None => CDo t end
  end.
(** a plan: a given step, or up to [k] moves of thread [t] *)
Section Plan.
  Context {S L : Type} (step : S -> L -> option (S * list (event (qcall nat) (qres nat)))) (next : S -> nat -> L).
  Fixpoint moves (k t : nat) (s : S) : list L * S :=
    match k with
    | O => ([], s)
    | Datatypes.S k' => match step s (next s t) with Some (s', _) => let (ls, s'') := moves k' t s' in (next s t :: ls, s'') | None => ([], s) end
    end.
  Fixpoint plan (ps : list (L + nat * nat)) (s : S) : list L :=
    match ps with
    | [] => []
    | inl l :: ps' => l :: match step s l with Some (s', _) => plan ps' s' | None => [] end
    | inr (t, k) :: ps' => let (ls, s') := moves k t s in ls ++ plan ps' s'
    end.
End Plan.
Definition sstep := std_step nat 2 1 32 true.
Definition sinit := std_init nat.
Definition splan ps := plan sstep std_next ps sinit.
Definition kstep := itr_step nat 2 32 32 true.
Definition kinit := itr_init nat.
Definition kplan ps := plan kstep itr_next ps kinit.

Definition std_okb (l : std_lab nat) : bool := match l with CMtx ORB (MThrow _) => false | _ => true end.
Lemma std_okb_ok ls : forallb std_okb ls = true -> forall l, In l ls -> std_ok nat l.
Proof. intros F l Hl. rewrite forallb_forall in F. specialize (F l Hl). destruct l as [t c|t|[| |] [ | | |]|l|t b]; cbn in *; auto; discriminate. Qed.
Definition itr_okb (l : itr_lab nat) : bool := match l with CCall _ c => -1 <=? tmout c | CMtx ORB (KRefuse _) => false | _ => true end.
Lemma itr_okb_ok ls : forallb itr_okb ls = true -> forall l, In l ls -> itr_ok nat l.
Proof.
  intros F l Hl. rewrite forallb_forall in F. specialize (F l Hl). destruct l as [t c|t|[| |] [ | | |]|l|t b]; cbn -[Z.leb Z.le] in *; auto; try discriminate.
  now apply Z.leb_le.
Qed.

(** lock() on m_mtxRB fails once, before the sender pushes; LockGuard ignores it *)
Definition std_bad : list (std_lab nat) :=
  splan [inl (CCall 0 (QSend 7%nat (-1))); inr (0,15)%nat; inl (CMtx ORB (MThrow 0)); inr (0,2)%nat;      (* pushes without the lock *)
         inl (CCall 1 (QRecv true (-1))); inr (1,100)%nat;                                                (* pops, resets nothing, returns *)
         inl (CCall 2 (QRecv true (-1))); inr (2,100)%nat;                                                (* finds it empty, waits for NOT_EMPTY *)
         inr (0,100)%nat; inr (2,9)%nat].                                                                 (* sets NOT_EMPTY; the second receiver pops *)
Lemma std_bad_run : exists l1 t l2 s es, exec sstep sinit (l1 ++ CMtx ORB (MThrow t) :: l2) = Some (s, es) /\
  (forall l, In l (l1 ++ l2) -> std_ok nat l) /\ c_ub s = true.
Proof.
  exists (firstn 16 std_bad), 0%nat, (skipn 17 std_bad).
  destruct (exec sstep sinit (firstn 16 std_bad ++ CMtx ORB (MThrow 0) :: skipn 17 std_bad)) as [[s es]|] eqn:E; [|vm_compute in E; discriminate].
  exists s, es. split; [exact E|]. split; [apply std_okb_ok; vm_compute; reflexivity|].
  assert (X : match exec sstep sinit (firstn 16 std_bad ++ CMtx ORB (MThrow 0) :: skipn 17 std_bad) with Some (s, _) => c_ub s | None => false end = true) by (vm_compute; reflexivity).
  now rewrite E in X.
Qed.
Definition itr_bad : list (itr_lab nat) :=
  kplan [inl (CCall 0 (QSend 7%nat (-1))); inr (0,13)%nat; inl (CMtx ORB (KRefuse 0)); inr (0,3)%nat;
         inl (CCall 1 (QRecv true (-1))); inr (1,100)%nat; inl (CCall 2 (QRecv true (-1))); inr (2,100)%nat; inr (0,100)%nat; inr (2,5)%nat].
Lemma itr_bad_run : exists l1 t l2 s es, exec kstep kinit (l1 ++ CMtx ORB (KRefuse t) :: l2) = Some (s, es) /\
  (forall l, In l (l1 ++ l2) -> itr_ok nat l) /\ c_ub s = true.
Proof.
  exists (firstn 14 itr_bad), 0%nat, (skipn 15 itr_bad).
  destruct (exec kstep kinit (firstn 14 itr_bad ++ CMtx ORB (KRefuse 0) :: skipn 15 itr_bad)) as [[s es]|] eqn:E; [|vm_compute in E; discriminate].
  exists s, es. split; [exact E|]. split; [apply itr_okb_ok; vm_compute; reflexivity|].
  assert (X : match exec kstep kinit (firstn 14 itr_bad ++ CMtx ORB (KRefuse 0) :: skipn 15 itr_bad) with Some (s, _) => c_ub s | None => false end = true) by (vm_compute; reflexivity).
  now rewrite E in X.
Qed.

(** a receiver waits on an empty queue; two senders overlap; a third message finds the queue full and times out *)
Definition std_good_run : list (std_lab nat) :=
  splan [inl (CCall 0 (QRecv true (-1))); inr (0,100)%nat; inl (CCall 1 (QSend 5%nat 10)); inr (1,7)%nat; inl (CCall 2 (QSend 6%nat 10)); inr (2,3)%nat;
         inr (1,100)%nat; inr (0,4)%nat; inr (2,100)%nat; inr (0,100)%nat; inl (CCall 1 (QSend 8%nat 10)); inr (1,100)%nat;
         inl (CCall 2 (QSend 9%nat 10)); inr (2,100)%nat; inl (CEvt (LTimeout 2)); inr (2,100)%nat; inl (CCall 0 QGetSize); inr (0,100)%nat].
Definition itr_good_run : list (itr_lab nat) :=
  kplan [inl (CCall 0 (QRecv true (-1))); inr (0,100)%nat; inl (CCall 1 (QSend 5%nat 10)); inr (1,7)%nat; inl (CCall 2 (QSend 6%nat 10)); inr (2,3)%nat;
         inr (1,100)%nat; inr (0,4)%nat; inr (2,100)%nat; inr (0,100)%nat; inr (2,100)%nat; inl (CCall 1 (QSend 8%nat 10)); inr (1,100)%nat;
         inl (CCall 2 (QSend 9%nat 10)); inr (2,100)%nat; inl (CEvt (FTimeout 2)); inr (2,100)%nat; inl (CCall 0 QGetSize); inr (0,100)%nat].

(** nothing can move: two receivers on an empty queue, the second behind the first at m_mtxRecv *)
Definition std_stuck_run : list (std_lab nat) :=
  splan [inl (CCall 0 (QSend 5%nat (-1))); inr (0,100)%nat; inl (CCall 0 (QRecv false 10)); inr (0,100)%nat;
         inl (CCall 1 (QRecv true (-1))); inr (1,100)%nat; inl (CCall 2 (QRecv true (-1))); inr (2,100)%nat].
Notation R := (QRecv (V := nat) true (-1)).
Lemma std_stuck_facts : match exec sstep sinit std_stuck_run with
  | Some (s, _) => (forall t, c_thr s (3 + t)%nat = CIdle) /\ c_thr s 0%nat = CIdle /\ c_thr s 1%nat = CIn true R PWait /\ c_thr s 2%nat = CIn true R PLockOuter /\
      (forall o t, x_thr (c_mtx s o) (3 + t)%nat = MIdle) /\ (forall o, x_thr (c_mtx s o) 0%nat = MIdle) /\ (forall o, x_thr (c_mtx s o) 1%nat = MIdle) /\
      x_thr (c_mtx s OSnd) 2%nat = MIdle /\ x_thr (c_mtx s ORB) 2%nat = MIdle /\ x_thr (c_mtx s ORcv) 2%nat = MAcq (MTimedLock (-1)) /\ x_owner (c_mtx s ORcv) = Some (1%nat, 1%nat) /\
      (forall t, e_thr (c_ev s) (3 + t)%nat = EIdle) /\ e_thr (c_ev s) 0%nat = EIdle /\ e_thr (c_ev s) 2%nat = EIdle /\
      e_thr (c_ev s) 1%nat = EAsleep (EWait EV_NOT_EMPTY ModeOR false (Within (-1))) (OWait EV_NOT_EMPTY ModeOR false (-1))
  | None => False end.
Proof. vm_compute. repeat split; try reflexivity; intros [| |]; reflexivity. Qed.
Lemma std_stuck_example : match exec sstep sinit std_stuck_run with
  | Some (s, _) => (forall l, std_moves nat l -> sstep s l = None) /\ c_running s 1 = Some R /\ c_running s 2 = Some R /\ c_idle s 0
  | None => False end.
Proof.
  pose proof std_stuck_facts as F. destruct (exec sstep sinit std_stuck_run) as [[s es]|]; [|contradiction].
  destruct F as (T3 & T0 & T1 & T2 & M3 & M0 & M1 & MS2 & MB2 & MR2 & OW & E3 & E0 & E2 & E1).
  cbn [Nat.add] in T3, M3, E3.
  split; [|unfold c_running, c_idle; rewrite T0, T1, T2; repeat split].
  intros l P. destruct l as [t c|t|o l|l|t b]; try contradiction; unfold sstep, std_step; cbn [c_step].
  - destruct t as [|[|[|t]]]; [rewrite T0|rewrite T1|rewrite T2|rewrite (T3 t)]; reflexivity.
  - destruct l as [t m|t|t|t]; try contradiction; unfold m_step.
    + destruct t as [|[|[|t]]].
      * rewrite M0. cbn [hear hear_mutex]. now rewrite T0.
      * rewrite M1. cbn [hear hear_mutex]. now rewrite T1.
      * destruct o; [rewrite MS2|rewrite MR2|rewrite MB2]; cbn [hear hear_mutex]; rewrite ?T2; reflexivity.
      * rewrite (M3 o t). cbn [hear hear_mutex]. now rewrite (T3 t).
    + destruct t as [|[|[|t]]]; [now rewrite M0|now rewrite M1| |now rewrite (M3 o t)].
      destruct o; [now rewrite MS2|rewrite MR2, OW; reflexivity|now rewrite MB2].
  - destruct l as [t m|t|t|t]; try contradiction; unfold e_step.
    + destruct t as [|[|[|t]]]; [rewrite E0|rewrite E1|rewrite E2|rewrite (E3 t)]; try reflexivity; cbn [hear hear_event]; rewrite ?T0, ?T2, ?(T3 t); reflexivity.
    + destruct t as [|[|[|t]]]; [rewrite E0|rewrite E1|rewrite E2|rewrite (E3 t)]; reflexivity.
Qed.
