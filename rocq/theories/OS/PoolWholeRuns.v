(** Concrete runs of the ThreadPool over the whole StdCpp stack, for the examples. *)
From Coq Require Import List ZArith Bool Lia Arith.
Import ListNotations.
From Verif Require Import Spec.OSError Spec.Linear Spec.EventFlagSpec Spec.MessageQueueSpec Spec.ThreadSpec OS.Sched OS.MessageQueueModel OS.EventFlagModel OS.MutexModel
  OS.QueueStackModel OS.QueueStackRuns Spec.ThreadPoolSpec OS.ThreadPoolModel OS.PoolStackModel OS.ThreadModel OS.PoolWholeModel.
Local Open Scope nat_scope.

(** the next move of thread [t] *)
Definition w_next (N : nat) (s : wst) (t : nat) : wlab :=
  match c_thr (w_queue s) t with
  | CIdle =>
      match wants N (w_pool s) t with
      | Some c => WQueue (CCall t c)
      | None =>
          match wants_thread (w_pool s) t with
          | Some (r, c) => match t_thr (w_thread s r) (S t) with TIdle => WThread r (TCall (S t) c) | _ => WThread r (TStep (S t)) end
          | None =>
              match wants_flag N (w_pool s) t with
              | Some (r, c) => match e_thr (w_flag s r) t with EIdle => WFlag r (LCall t c) | _ => WFlag r (LStep t) end
              | None =>
                  match p_thr (w_pool s) t with
                  | PIdle => match t_nat (w_thread s t), p_run (w_pool s) t with
                             | NRun, WEnd => WThread t NStep
                             | NRun, _ => WPool (XRun t)
                             | _, _ => WThread t NStep
                             end
                  | _ => WPool (XStep t)
                  end
              end
          end
      end
  | _ => WQueue (std_next (w_queue s) t)
  end.
(** a plan: a given step, or up to [k] moves of thread [t] *)
Section Plan.
  Variable N : nat.
  Notation step := (w_step N 1%Z (fun t => Z.of_nat t) 1 32%Z true).
  Fixpoint w_run (k t : nat) (s : wst) : list wlab * wst :=
    match k with
    | O => ([], s)
    | S k' => match step s (w_next N s t) with Some (s', _) => let (ls, s'') := w_run k' t s' in (w_next N s t :: ls, s'') | None => ([], s) end
    end.
  Fixpoint w_plan (ps : list (wlab + nat * nat)) (s : wst) : list wlab :=
    match ps with
    | [] => []
    | inl l :: ps' => l :: match step s l with Some (s', _) => w_plan ps' s' | None => [] end
    | inr (t, k) :: ps' => let (ls, s') := w_run k t s in ls ++ w_plan ps' s'
    end.
  (** the creating thread is number 9 *)
  Definition w_fill : list (std_lab nat) :=
    plan (std_step nat (Z.of_nat N) 1 32%Z true) std_next (flat_map (fun r => [inl (CCall 9 (QSend r (-1)%Z)); inr (9, 100)]) (seq 0 N)) (std_init nat).
  Definition w_full : std_st nat := match exec (std_step nat (Z.of_nat N) 1 32%Z true) (std_init nat) w_fill with Some (c, _) => c | None => std_init nat end.
End Plan.
Definition std_calmb (l : std_lab nat) : bool := match l with CMtx _ (MThrow _) | CThrow _ _ => false | _ => true end.
Lemma std_calmb_calm l : std_calmb l = true -> std_calm nat l.
Proof. destruct l as [t c|t|o []|l|t b]; cbn; auto; discriminate. Qed.
Definition w_calmb (l : wlab) : bool := match l with WQueue l => std_calmb l | _ => true end.
Lemma w_calmb_calm ls : forallb w_calmb ls = true -> forall l, In l ls -> w_calm l.
Proof. intros F l Hl. rewrite forallb_forall in F. specialize (F l Hl). destruct l as [l|l|r l|r l]; cbn in *; auto. now apply std_calmb_calm. Qed.
Definition w_ownb (l : wlab) : bool :=
  match l with
  | WPool (XStep _) | WPool (XTimeout _ _) | WPool (XRun _) => true
  | WPool _ | WQueue (CEvt (LSpurious _)) | WThread _ (TSpurious _) | WThread _ NSpurious | WFlag _ (LSpurious _) => false
  | _ => true
  end.
Lemma w_ownb_own l : w_ownb l = true -> w_own l.
Proof. destruct l as [[]|[| | |[]|]|r []|r []]; cbn; auto; discriminate. Qed.

Ltac w_filled_tac N :=
  let X := fresh in
  destruct (exec (std_step nat (Z.of_nat N) 1 32%Z true) (std_init nat) (w_fill N)) as [[q es]|] eqn:X; [|vm_compute in X; discriminate];
  exists 9, (w_fill N), es; replace (w_full N) with q by (unfold w_full; now rewrite X); split; [exact X|];
  split; [intros l Hl; assert (F : forallb std_calmb (w_fill N) = true) by (vm_compute; reflexivity); rewrite forallb_forall in F; apply std_calmb_calm; now apply F|];
  vm_compute in X; injection X as <- <-; split; [reflexivity|]; intros t; do 10 (destruct t as [|t]; [reflexivity|]); reflexivity.
Lemma w_full_one : w_filled 1 1 32%Z true (w_full 1).
Proof. w_filled_tac 1. Qed.
Lemma w_full_two : w_filled 2 1 32%Z true (w_full 2).
Proof. w_filled_tac 2. Qed.

(** two threads: client 2 starts task 5 with a guard and waits for it; task 5 starts task 6; both end, client 2 wakes up and releases *)
Definition w_two : list wlab :=
  w_plan 2 [inr (0, 5); inr (1, 5); inl (WPool (XCall 2 (PStart 5 (-1) (Some 9) (Some 3%Z)))); inr (2, 100); inr (0, 20); inl (WPool (XCall 2 (PWait 9 (-1)))); inr (2, 20);
            inl (WPool (XCall 0 (PStart 6 (-1) None None))); inr (0, 100); inr (1, 20); inl (WPool (XTaskEnd 0 false)); inl (WPool (XTaskEnd 1 true)); inr (1, 7); inr (0, 9); inr (2, 3);
            inr (1, 30); inr (0, 40); inr (2, 40); inl (WPool (XCall 2 (PRelease 9))); inr (2, 100); inr (1, 100); inr (0, 40); inr (2, 100)] (w_init 1%Z (w_full 2)).
(** one thread: it runs task 5 of client 1 while client 2 waits inside the queue *)
Definition w_busy : list wlab :=
  w_plan 1 [inl (WPool (XCall 1 (PStart 5 (-1) (Some 4) None))); inr (1, 100); inr (0, 100); inl (WPool (XCall 2 (PStart 6 50 None None))); inr (2, 100);
            inl (WPool (XCall 1 (PWait 4 20))); inr (1, 100)] (w_init 1%Z (w_full 1)).
