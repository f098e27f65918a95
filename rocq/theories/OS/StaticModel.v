(** Static objects of the library and of the program (one platform).  The factories are function-local static objects of init
    (StdCppOSWrapper.cpp:30-47 and the others): built when init is called for the first time, in the order of their declarations.  The pointers
    s_factory (Mutex.cpp:7 and the others) are initialized statically with 0 and never cleared.  Timeout::POLLING and FOREVER (Timeout.cpp:5-6) have a constructor
    that is not constexpr: they are zero until their dynamic initialization, which comes at an unspecified moment before main.
    Environment (C++: [basic.start.dynamic], [basic.start.term]): static objects are destroyed in the reverse order of the completion of their
    constructions, after main.  The factories have user-provided virtual destructors (MutexFactory.h:10 and the others), so that using one after its
    destruction is undefined.
    Simplifications: exit is called after main has begun; neither init nor the construction of further static objects happens during the
    destructions; only destructors of static objects run then (no other threads); the factories' constructors do not fail. *)
From Coq Require Import List ZArith Bool Arith.
Import ListNotations.
From Verif Require Import Spec.FacadeSpec Spec.PlatformSpec Spec.StaticSpec OS.Sched.

Inductive item := IU (u : nat) | IF (k : kind).
Inductive phase := Starting | Running | Exiting.
Record sst := mkSt {
  k_stack : list item;        (* built and not destroyed, the last one first *)
  k_reg : bool;               (* init has been called: the pointers are set *)
  k_const : bool;             (* the constants have got their values *)
  k_phase : phase;
  k_cur : option nat;         (* whose destructor runs *)
  k_seen : list nat }.        (* built so far *)
Definition s_start : sst := mkSt [] false false Starting None [].
Inductive slab := LConst | LBuilt (u : nat) | LInit | LUse (k : kind) (create : bool) | LRead | LMain | LExit | LPop.

(** Itron: ItronOSWrapper.cpp:19-24; Posix: PosixOSWrapper.cpp:34-40; the others in the same order *)
Definition declared (p : platform) : list kind :=
  [KThread; KMutex; KEventFlag; KFixed; KVariable; KPeriodic] ++ match p with Itron => [] | _ => [KOneShot] end.
Definition same_item (k : kind) (x : item) : bool := match x with IF k' => kind_eqb k k' | IU _ => false end.
Definition alive (s : sst) (k : kind) : bool := existsb (same_item k) (k_stack s).
Definition going (s : sst) : bool := match k_phase s with Exiting => false | _ => true end.
Definition code_runs (s : sst) : bool := match k_phase s, k_cur s with Exiting, None => false | _, _ => true end.

Section Static.
  Variable p : platform.
  (** Mutex.cpp:14-31 and the others: create; destroy *)
  Definition use (s : sst) (k : kind) (create : bool) : served :=
    if k_reg s && existsb (kind_eqb k) (declared p) then if alive s k then Served else Dead
    else if create then AssertionFailed else NoEffect.
  Definition s_step (s : sst) (l : slab) : option (sst * life) :=
    match l with
    | LConst => match k_phase s, k_const s with
                | Starting, false => Some (mkSt (k_stack s) (k_reg s) true Starting (k_cur s) (k_seen s), [EConst])
                | _, _ => None
                end
    | LBuilt u => if going s && negb (existsb (Nat.eqb u) (k_seen s)) then
                    Some (mkSt (IU u :: k_stack s) (k_reg s) (k_const s) (k_phase s) (k_cur s) (u :: k_seen s), [EBuilt u])
                  else None
    | LInit => if going s then
                 Some (mkSt (if k_reg s then k_stack s else rev (map IF (declared p)) ++ k_stack s) true (k_const s) (k_phase s) (k_cur s) (k_seen s), [EInit])
               else None
    | LUse k c => if code_runs s then Some (s, [EUse k c (use s k c)]) else None
    | LRead => if code_runs s then Some (s, [ERead (if k_const s then (-1)%Z else 0%Z)]) else None
    | LMain => match k_phase s, k_const s with
               | Starting, true => Some (mkSt (k_stack s) (k_reg s) true Running (k_cur s) (k_seen s), [EMain])
               | _, _ => None
               end
    | LExit => match k_phase s with Running => Some (mkSt (k_stack s) (k_reg s) (k_const s) Exiting (k_cur s) (k_seen s), [EExit]) | _ => None end
    | LPop => match k_phase s, k_stack s with
              | Exiting, IU u :: st => Some (mkSt st (k_reg s) (k_const s) Exiting (Some u) (k_seen s), [EGone u])
              | Exiting, IF k :: st => Some (mkSt st (k_reg s) (k_const s) Exiting None (k_seen s), [])
              | _, _ => None
              end
    end.
End Static.
