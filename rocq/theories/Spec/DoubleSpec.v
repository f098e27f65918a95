(** Specification of what a unit test relies on when it runs the library over the test doubles of
    platform/TestDoubleOSWrapper.  A test may override a double, so what a double answers is a parameter. *)
From Coq Require Import List ZArith Bool.
Import ListNotations.
From Verif Require Import Spec.OSError Spec.MessageQueueSpec.

(** * the doubles of Thread, OneShotTimer, PeriodicTimer *)
Inductive tcall := TStart | TWait | TTryWait | TTimedWait (ms : Z) | TIsFinished | TSetName (n : Z) | TGetName
  | TSetPriority (p : Z) | TGetPriority | TGetInitialPriority | TGetStackSize | TGetNativeHandle.
Inductive icall := IStart (ms : Z) | IStop | IIsStarted | IGetPeriod | ISetName (n : Z) | IGetName.   (* both timers; start() of a periodic one: ms = 0 *)
Inductive dres := DVoid | DErr (e : err) | DBool (b : bool) | DNum (n : Z).
(** the last name / priority set, or the one given at creation *)
Definition last_name (n0 : Z) (cs : list tcall) : Z := fold_left (fun n c => match c with TSetName m => m | _ => n end) cs n0.
Definition last_priority (p0 : Z) (cs : list tcall) : Z := fold_left (fun p c => match c with TSetPriority q => q | _ => p end) cs p0.
Definition last_iname (n0 : Z) (cs : list icall) : Z := fold_left (fun n c => match c with ISetName m => m | _ => n end) cs n0.
(** what a call gives after the calls [cs] on a thread created with the given arguments *)
Definition tspec (pri stack name : Z) (cs : list tcall) (c : tcall) : dres :=
  match c with
  | TStart | TSetName _ | TSetPriority _ => DVoid
  | TWait | TTryWait | TTimedWait _ => DErr OK
  | TIsFinished => DBool false
  | TGetName => DNum (last_name name cs)
  | TGetPriority => DNum (last_priority pri cs)
  | TGetInitialPriority => DNum pri
  | TGetStackSize => DNum stack
  | TGetNativeHandle => DNum 0
  end.
Definition ispec (period name : Z) (cs : list icall) (c : icall) : dres :=
  match c with
  | IStart _ | IStop | ISetName _ => DVoid
  | IIsStarted => DBool false
  | IGetPeriod => DNum period
  | IGetName => DNum (last_iname name cs)
  end.

(** * calls that reach the doubles of a queue: its three mutexes and its event flag *)
Inductive dmutex := MSend | MRecv | MRing.
Definition dmutex_eqb (a b : dmutex) : bool := match a, b with MSend, MSend | MRecv, MRecv | MRing, MRing => true | _, _ => false end.
Inductive dcall := DTimedLock (o : dmutex) (ms : Z) | DLock (o : dmutex) | DUnlock (o : dmutex) | DSet (pattern : Z) | DReset (pattern : Z) | DWait (pattern ms : Z).
(** the calls so far with the answers they got *)
Definition dlog := list (dcall * err).
(** locks and unlocks nest properly; the locks held *)
Fixpoint nested (held : list dmutex) (l : dlog) : option (list dmutex) :=
  match l with
  | [] => Some held
  | (DTimedLock o _, OK) :: l' | (DLock o, OK) :: l' => nested (o :: held) l'
  | (DUnlock o, _) :: l' => match held with o' :: h => if dmutex_eqb o o' then nested h l' else None | [] => None end
  | _ :: l' => nested held l'
  end.

Section Queue.
  Variable V : Type.
  Variable N : nat.                       (* maxSize *)
  (** one call on a queue that holds [q]: a message goes through exactly if the call returns OK; otherwise the queue is as before *)
  Definition dq_spec (q : list V) (c : qcall V) (r : qres V) (q' : list V) : Prop :=
    match c with
    | QSend v _ => (r = RSend OK /\ length q < N /\ q' = q ++ [v]) \/ (exists e, e <> OK /\ r = RSend e /\ q' = q)
    | QRecv store _ => (exists v, q = v :: q' /\ r = RRecv OK (if store then Some v else None)) \/ (exists e, e <> OK /\ r = RRecv e None /\ q' = q)
    | QGetSize => r = RNum (Z.of_nat (length q)) /\ q' = q
    | QGetMaxSize => r = RNum (Z.of_nat N) /\ q' = q
    end.
  Inductive dq_runs : list V -> list (qcall V) -> list (qres V) -> list V -> Prop :=
  | dr_nil q : dq_runs q [] [] q
  | dr_cons q c r q1 cs rs q2 : dq_spec q c r q1 -> dq_runs q1 cs rs q2 -> dq_runs q (c :: cs) (r :: rs) q2.
  (** a program that never sends to a full queue nor receives from an empty one, and what it sees *)
  Fixpoint fits (q : list V) (cs : list (qcall V)) : option (list (qres V) * list V) :=
    match cs with
    | [] => Some ([], q)
    | QSend v _ :: cs' => if length q <? N then match fits (q ++ [v]) cs' with Some (rs, q') => Some (RSend OK :: rs, q') | None => None end else None
    | QRecv store _ :: cs' =>
        match q with
        | v :: q1 => match fits q1 cs' with Some (rs, q') => Some (RRecv OK (if store then Some v else None) :: rs, q') | None => None end
        | [] => None
        end
    | QGetSize :: cs' => match fits q cs' with Some (rs, q') => Some (RNum (Z.of_nat (length q)) :: rs, q') | None => None end
    | QGetMaxSize :: cs' => match fits q cs' with Some (rs, q') => Some (RNum (Z.of_nat N) :: rs, q') | None => None end
    end%nat.
End Queue.

(** * the conversation of a queue with its doubles *)
Definition NotEmpty : Z := 1.
Definition NotFull : Z := 2.
(** what is done under the lock of the ring buffer; without the unlock if the lock was refused *)
Definition ring_section (body l : list dcall) : Prop := l = DLock MRing :: body ++ [DUnlock MRing] \/ l = DLock MRing :: body.
(** the calls [l] made by one call [c] that returns [r], on a queue of [n] messages ([maxSize] at most) *)
Definition talk {V : Type} (maxSize n : Z) (c : qcall V) (r : qres V) (l : list dcall) : Prop :=
  match c with
  | QSend _ ms =>
      (exists e, e <> OK /\ r = RSend e /\ l = [DTimedLock MSend ms]) \/
      exists l1 l2, l = DTimedLock MSend ms :: l1 ++ (if Z.eqb n maxSize then [DWait NotFull ms] else []) ++ l2 ++ [DUnlock MSend] /\
        ring_section (if Z.eqb n maxSize then [DReset NotFull] else []) l1 /\
        ((r = RSend OK /\ ring_section [DSet NotEmpty] l2) \/ exists e, e <> OK /\ r = RSend e /\ n = maxSize /\ l2 = [])
  | QRecv _ ms =>
      (exists e, e <> OK /\ r = RRecv e None /\ l = [DTimedLock MRecv ms]) \/
      exists l1 l2, l = DTimedLock MRecv ms :: l1 ++ (if Z.eqb n 0 then [DWait NotEmpty ms] else []) ++ l2 ++ [DUnlock MRecv] /\
        ring_section (if Z.eqb n 0 then [DReset NotEmpty] else []) l1 /\
        (((exists m, r = RRecv OK m) /\ ring_section [DSet NotFull] l2) \/ exists e, e <> OK /\ r = RRecv e None /\ n = 0%Z /\ l2 = [])
  | QGetSize | QGetMaxSize => ring_section [] l
  end.

(** * ThreadPool *)
(** calls on the pool and on WaitGuard objects, named by numbers; [task] and [g]: 0 and None are null pointers *)
Inductive pcall := PStart (task : Z) (ms : Z) (g : option nat) (pri : Z) | PGuardWait (g : nat) (ms : Z) | PGuardRelease (g : nat).
(** the tasks of the start calls that returned OK, in order, with their priorities *)
Fixpoint started (cs : list pcall) (rs : list err) : list (Z * Z) :=
  match cs, rs with
  | PStart task _ _ pri :: cs', OK :: rs' => (task, pri) :: started cs' rs'
  | _ :: cs', _ :: rs' => started cs' rs'
  | _, _ => []
  end.
(** a guard is not used for a second task before it is released: [used] are the guards in use *)
Fixpoint proper (used : list nat) (cs : list pcall) : Prop :=
  match cs with
  | [] => True
  | PStart _ _ (Some g) _ :: cs' => ~ In g used /\ proper (g :: used) cs'
  | PGuardRelease g :: cs' => proper (remove Nat.eq_dec g used) cs'
  | _ :: cs' => proper used cs'
  end.
(** the guards in use at the end *)
Fixpoint unreleased (used : list nat) (cs : list pcall) : list nat :=
  match cs with
  | [] => used
  | PStart _ _ (Some g) _ :: cs' => unreleased (g :: used) cs'
  | PGuardRelease g :: cs' => unreleased (remove Nat.eq_dec g used) cs'
  | _ :: cs' => unreleased used cs'
  end.
(** the guards that hold a thread: given one by a start that returned OK, not released since *)
Fixpoint holding (held : list nat) (cs : list pcall) (rs : list err) : list nat :=
  match cs, rs with
  | PStart _ _ (Some g) _ :: cs', OK :: rs' => holding (g :: held) cs' rs'
  | PGuardRelease g :: cs', _ :: rs' => holding (remove Nat.eq_dec g held) cs' rs'
  | _ :: cs', _ :: rs' => holding held cs' rs'
  | _, _ => held
  end.
