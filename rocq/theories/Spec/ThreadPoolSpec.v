(** Specification of OSWrapper::ThreadPool (mechanism/OSWrapper/ThreadPool.h): [N] threads, numbered from 0, each free, occupied by a
    task that was accepted by start, or held by a WaitGuard whose task has ended.
    Agents 0 .. N-1 are the threads of the pool (they may call the pool from inside their tasks); agents N, N+1, ... are the others.
    A WaitGuard is used by the agent that owns it only: guard [g] of agent [t] is the pair (t, g). *)
From Coq Require Import List ZArith Bool Arith.
Import ListNotations.
From Verif Require Import Spec.OSError Spec.Linear.

Definition task := nat.                                  (* a Runnable; 0 is the null pointer *)
Inductive pcall :=
| PStart (x : task) (ms : Z) (g : option nat) (p : option Z)  (* start / tryStart / timedStart: -1 FOREVER, 0 POLLING; None: INHERIT_PRIORITY *)
| PWait (g : nat) (ms : Z)                               (* WaitGuard wait / tryWait / timedWait *)
| PRelease (g : nat)                                     (* WaitGuard release, ~WaitGuard *)
| PIsValid (g : nat)
| PBegin (x : task) (prio : Z)                           (* action of a pool thread: Runnable::run of x begins, at this priority *)
| PEnd (x : task) (threw : bool).                        (* ... has returned or thrown, and the pool has taken note *)
Inductive pres := PVoid | PErr (e : err) | PBool (b : bool).

Record job := mkJob { j_task : task; j_prio : Z; j_guard : option (nat * nat) }.
Inductive place :=
| Free
| Assigned (j : job)              (* accepted, the task has not begun *)
| Busy (j : job)                  (* the task is running *)
| Ended (t g : nat)               (* the task has ended; held by guard g of agent t *)
| Lost.                           (* never available again *)
Definition set_place (f : nat -> place) (r : nat) (x : place) : nat -> place := fun u => if Nat.eqb u r then x else f u.

Section Spec.
  Variable N : nat.               (* maxThreads *)
  Variable ext_prio : nat -> Z.   (* the priority of a calling agent that is not a pool thread *)

  Definition guarded_by (t g : nat) (x : place) : Prop :=
    match x with Assigned j | Busy j => j_guard j = Some (t, g) | Ended t' g' => t' = t /\ g' = g | _ => False end.
  (** guard (t, g) is valid *)
  Definition valid (f : nat -> place) (t g : nat) : Prop := exists r, r < N /\ guarded_by t g (f r).
  (** the priority a start by agent t asks for *)
  Definition wanted_prio (f : nat -> place) (t : nat) (p : option Z) (q : Z) : Prop :=
    match p with
    | Some v => q = v
    | None => if t <? N then exists j, f t = Busy j /\ q = j_prio j else q = ext_prio t
    end.

  Definition pspec (f : nat -> place) (t : nat) (c : pcall) (r : pres) (f' : nat -> place) : Prop :=
    match c with
    | PStart x ms g p =>
        (x = 0 /\ r = PErr InvalidParameter /\ f' = f) \/
        (x <> 0 /\ r = PErr OK /\ exists k q, k < N /\ f k = Free /\ wanted_prio f t p q /\
            (forall i, g = Some i -> ~ valid f t i) /\
            f' = set_place f k (Assigned (mkJob x q (option_map (pair t) g)))) \/
        (x <> 0 /\ r = PErr TimedOut /\ ms <> (-1)%Z /\ f' = f)
    | PWait g ms =>
        (r = PErr OK /\ f' = f /\ (~ valid f t g \/ exists k, k < N /\ f k = Ended t g)) \/
        (r = PErr TimedOut /\ ms <> (-1)%Z /\ f' = f /\ exists k j, k < N /\ (f k = Assigned j \/ f k = Busy j) /\ j_guard j = Some (t, g))
    | PRelease g =>
        r = PVoid /\ ((~ valid f t g /\ f' = f) \/ exists k, k < N /\ f k = Ended t g /\ f' = set_place f k Free)
    | PIsValid g => f' = f /\ ((r = PBool true /\ valid f t g) \/ (r = PBool false /\ ~ valid f t g))
    | PBegin x q => r = PVoid /\ t < N /\ exists j, f t = Assigned j /\ x = j_task j /\ q = j_prio j /\ f' = set_place f t (Busy j)
    | PEnd x threw =>
        r = PVoid /\ t < N /\ exists j, f t = Busy j /\ x = j_task j /\
          f' = set_place f t (match j_guard j with None => Free | Some (u, g) => Ended u g end)
    end.
  (** the same, but a start that times out may make a free thread disappear *)
  Definition pspec_lossy (f : nat -> place) (t : nat) (c : pcall) (r : pres) (f' : nat -> place) : Prop :=
    pspec f t c r f' \/
    exists x ms g p k, c = PStart x ms g p /\ x <> 0 /\ ms <> (-1)%Z /\ r = PErr TimedOut /\ k < N /\ f k = Free /\ f' = set_place f k Lost.
End Spec.
Definition all_free : nat -> place := fun _ => Free.
(** the calls and returns seen, [o], are explained by instants of effect: [ew] is [o] with one such instant for every call that returned
    (and for some of those that have not), between its call and its return *)
Definition explains (N : nat) (ext_prio : nat -> Z) (o ew : list (event pcall pres)) (f : nat -> status pcall pres) (sg : nat -> place) : Prop :=
  history ew = o /\ lin_run (pspec_lossy N ext_prio) (fun _ => Out) all_free ew f sg.

(** counting, in a sequence of effects: starts of [x] that returned OK, beginnings and ends of [x] *)
Definition count_eff (p : nat * pcall * pres -> bool) (l : list (nat * pcall * pres)) : nat := length (filter p l).
Definition accepted (x : task) (e : nat * pcall * pres) : bool := match e with (_, PStart y _ _ _, PErr OK) => Nat.eqb x y | _ => false end.
Definition begun (x : task) (e : nat * pcall * pres) : bool := match e with (_, PBegin y _, _) => Nat.eqb x y | _ => false end.
Definition ended (x : task) (e : nat * pcall * pres) : bool := match e with (_, PEnd y _, _) => Nat.eqb x y | _ => false end.
(** starts that returned TimedOut *)
Definition timed_out (e : nat * pcall * pres) : bool := match e with (_, PStart _ _ _ _, PErr TimedOut) => true | _ => false end.
(** the threads below [N] in a state of this kind *)
Definition count_places (p : place -> bool) (f : nat -> place) (N : nat) : nat := length (filter (fun r => p (f r)) (seq 0 N)).
Definition is_lost (x : place) : bool := match x with Lost => true | _ => false end.
Definition is_free (x : place) : bool := match x with Free => true | _ => false end.
Definition has_task (x : task) (y : place) : bool := match y with Assigned j => Nat.eqb x (j_task j) | _ => false end.
Definition runs_task (x : task) (y : place) : bool := match y with Busy j => Nat.eqb x (j_task j) | _ => false end.
