(** Concrete runs of the ThreadPool over the whole Itron stack, for the examples. *)
From Coq Require Import List ZArith Bool Lia Arith.
Import ListNotations.
From Verif Require Import Spec.OSError Spec.Linear Spec.EventFlagSpec Spec.MessageQueueSpec Spec.ThreadSpec Spec.ItronThreadSpec OS.Sched OS.MessageQueueModel OS.EventFlagModel OS.ItronEventFlagModel
  OS.ItronMutexModel OS.QueueStackModel OS.QueueStackRuns Spec.ThreadPoolSpec OS.ThreadPoolModel OS.PoolStackModel OS.PoolWholeModel OS.ItronThreadModel OS.PoolItronModel.
Local Open Scope nat_scope.

(** the next move of thread [t] *)
Definition z_next (N : nat) (s : zst) (t : nat) : zlab :=
  match c_thr (z_queue s) t with
  | CIdle =>
      match wants N (z_pool s) t with
      | Some c => ZQueue (CCall t c)
      | None =>
          match wants_thread (z_pool s) t with
          | Some (r, c) => match n_thr (z_thread s r) (S t) with IIdle => ZThread r (NCall (S t) (IT c)) | _ => ZThread r (NStep (S t)) end
          | None =>
              match wants_flag N (z_pool s) t with
              | Some (r, c) => match f_thr (z_flag s r) t with FIdle => ZFlag r (FCall t c) | _ => ZFlag r (FStep t 0) end
              | None =>
                  match p_thr (z_pool s) t with
                  | PIdle => match n_task (z_thread s t), p_run (z_pool s) t with
                             | KRun, WEnd => ZThread t NTask
                             | KRun, _ => ZPool (XRun t)
                             | _, _ => ZThread t NTask
                             end
                  | _ => ZPool (XStep t)
                  end
              end
          end
      end
  | _ => ZQueue (itr_next (z_queue s) t)
  end.
(** a plan: a given step, or up to [k] moves of thread [t]; priorities 1 to 10, unsigned int and FLGPTN of 32 bits *)
Section Plan.
  Variable N : nat.
  Notation step := (z_step N 1%Z (fun t => Z.of_nat t) 1%Z 10%Z 32%Z 32%Z true).
  Fixpoint z_run (k t : nat) (s : zst) : list zlab * zst :=
    match k with
    | O => ([], s)
    | S k' => match step s (z_next N s t) with Some (s', _) => let (ls, s'') := z_run k' t s' in (z_next N s t :: ls, s'') | None => ([], s) end
    end.
  Fixpoint z_plan (ps : list (zlab + nat * nat)) (s : zst) : list zlab :=
    match ps with
    | [] => []
    | inl l :: ps' => l :: match step s l with Some (s', _) => z_plan ps' s' | None => [] end
    | inr (t, k) :: ps' => let (ls, s') := z_run k t s in ls ++ z_plan ps' s'
    end.
  (** the creating thread is number 9 *)
  Definition z_fill : list (itr_lab nat) :=
    plan (itr_step nat (Z.of_nat N) 32%Z 32%Z true) itr_next (flat_map (fun r => [inl (CCall 9 (QSend r (-1)%Z)); inr (9, 100)]) (seq 0 N)) (itr_init nat).
  Definition z_full : itr_st nat := match exec (itr_step nat (Z.of_nat N) 32%Z 32%Z true) (itr_init nat) z_fill with Some (c, _) => c | None => itr_init nat end.
End Plan.
Definition itr_calmb (l : itr_lab nat) : bool := match l with CCall _ c => (-1 <=? tmout c)%Z | CMtx _ (KRefuse _) | CThrow _ _ => false | _ => true end.
Lemma itr_calmb_calm l : itr_calmb l = true -> itr_calm nat l.
Proof. destruct l as [t c|t|o []|l|t b]; cbn -[Z.leb Z.le]; auto; try discriminate. apply Z.leb_le. Qed.
Definition z_calmb (l : zlab) : bool :=
  match l with
  | ZQueue (CMtx _ (KRefuse _)) | ZQueue (CThrow _ _) => false
  | ZPool (XCall _ (PStart _ ms _ _)) | ZPool (XCall _ (PWait _ ms)) => (-1 <=? ms)%Z
  | _ => true
  end.
Lemma z_calmb_calm ls : forallb z_calmb ls = true -> forall l, In l ls -> z_calm l.
Proof.
  intros F l Hl. rewrite forallb_forall in F. specialize (F l Hl). destruct l as [[t []| | | |]|[| |? []| |]|r l|r l]; cbn -[Z.leb Z.le] in *; auto; try discriminate; now apply Z.leb_le.
Qed.

Definition z_ownb (l : zlab) : bool :=
  match l with ZPool (XStep _) | ZPool (XTimeout _ _) | ZPool (XRun _) => true | ZPool _ | ZThread _ (NSpin _) => false | _ => true end.
Lemma z_ownb_own l : z_ownb l = true -> z_own l.
Proof. destruct l as [[]|l|r []|r l]; cbn; auto; discriminate. Qed.

Ltac z_filled_tac N :=
  let X := fresh in
  destruct (exec (itr_step nat (Z.of_nat N) 32%Z 32%Z true) (itr_init nat) (z_fill N)) as [[q es]|] eqn:X; [|vm_compute in X; discriminate];
  exists 9, (z_fill N), es; replace (z_full N) with q by (unfold z_full; now rewrite X); split; [exact X|];
  split; [intros l Hl; assert (F : forallb itr_calmb (z_fill N) = true) by (vm_compute; reflexivity); rewrite forallb_forall in F; apply itr_calmb_calm; now apply F|];
  vm_compute in X; injection X as <- <-; split; [reflexivity|]; intros t; do 10 (destruct t as [|t]; [reflexivity|]); reflexivity.
Lemma z_full_one : z_filled 1 32%Z 32%Z true (z_full 1).
Proof. z_filled_tac 1. Qed.
Lemma z_full_two : z_filled 2 32%Z 32%Z true (z_full 2).
Proof. z_filled_tac 2. Qed.

(** two threads: client 2 starts task 5 with a guard and waits for it; task 5 starts task 6; both end, client 2 wakes up and releases *)
Definition z_two : list zlab :=
  z_plan 2 [inl (ZPool (XCall 2 (PStart 5 (-1) (Some 9) (Some 3%Z)))); inr (2, 100); inr (0, 20); inl (ZPool (XCall 2 (PWait 9 (-1)))); inr (2, 20);
            inl (ZPool (XCall 0 (PStart 6 (-1) None None))); inr (0, 100); inr (1, 20); inl (ZPool (XTaskEnd 0 false)); inl (ZPool (XTaskEnd 1 true)); inr (1, 7); inr (0, 9); inr (2, 3);
            inr (1, 30); inr (0, 40); inr (2, 40); inl (ZPool (XCall 2 (PRelease 9))); inr (2, 100); inr (1, 100); inr (0, 100); inr (1, 100); inr (2, 100)] (z_init 1%Z (z_full 2)).
(** one thread: it runs task 5 of client 1 while client 2 waits inside the queue *)
Definition z_busy : list zlab :=
  z_plan 1 [inl (ZPool (XCall 1 (PStart 5 (-1) (Some 4) None))); inr (1, 100); inr (0, 100); inl (ZPool (XCall 2 (PStart 6 50 None None))); inr (2, 100);
            inl (ZPool (XCall 1 (PWait 4 20))); inr (1, 100)] (z_init 1%Z (z_full 1)).
