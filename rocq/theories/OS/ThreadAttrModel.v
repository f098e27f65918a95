(** Model of the attributes of StdCppThread, PosixThread and WindowsThread: create, setPriority, getPriority, getInitialPriority, setName,
    getName (platform/StdCppOSWrapper/StdCppThreadFactory.cpp:34-49, 103-145, 168-209, 230-238; platform/PosixOSWrapper/PosixThreadFactory.cpp:9-50;
    platform/WindowsOSWrapper/WindowsThreadFactory.cpp:10-51).
    One step of a thread is: taking a lock, one access to a field of an object, one call of the operating system, or releasing a lock.
    Simplified: destroy is not modelled (nobody uses an object after destroy; see C61 for its map); getCurrentThread is one step under the
    factory's mutex (its map in detail: C61); the native name (pthread_setname_np, SetThreadDescription) is not modelled, its failure is
    ignored by the code; setPriorityRange is not called while threads exist, so the table is constant. *)
From Coq Require Import List ZArith Bool Arith.
Import ListNotations.
From Verif Require Import Spec.Linear Spec.ThreadAttrSpec OS.Sched OS.PriorityModel.
Local Open Scope Z_scope.

(** what differs between the platforms: the arguments set as given, getNormalPriority(), m_prioMap.at (None: it throws) *)
Record platform := mkPf { pf_direct : Z -> bool; pf_normal : Z; pf_native : Z -> option Z }.
(** StdCppThreadFactory.cpp:115-133, 240-258: everything but INHERIT_PRIORITY is direct; no native priority *)
Definition std_platform : platform := mkPf (fun p => negb (p =? INHERIT)) 0 (fun _ => Some 0).
(** PosixThreadFactory.cpp:27, 33, 45; WindowsThreadFactory.cpp:31, 34, 49; Thread.cpp:193-197 (the sum fits in an int: Z.quot) *)
Definition in_range (lowest highest p : Z) : bool := (min_priority lowest highest <=? p) && (p <=? max_priority lowest highest).
Definition middle (lowest highest : Z) : Z := Z.quot (min_priority lowest highest + max_priority lowest highest) 2.
Definition posix_platform (dflt pmin pmax lowest highest : Z) : platform :=
  mkPf (in_range lowest highest) (middle lowest highest) (lookup (posix_table dflt pmin pmax lowest highest)).
Definition windows_platform (lowest highest : Z) : platform :=
  mkPf (in_range lowest highest) (middle lowest highest) (lookup (windows_table lowest highest)).

(** on whose behalf setPriority runs: the API call setPriority(p), or create(p, n) *)
Inductive kont := KSet (p : Z) | KNew (p : Z) (n : nat).
Inductive which := WPrio | WInit | WName.
Inductive apc :=
| POut
| PNameL (x n : nat) (k : option (Z * nat))    (* setName: wants x's m_mutex; Some (p, n): within create *)
| PNameW (x n : nat) (k : option (Z * nat))    (* holds it, about to write m_name *)
| PNameU (x : nat) (k : option (Z * nat))      (* about to release it *)
| PSet (x : nat) (k : kont)                    (* setPriority entered *)
| PCur (x : nat) (k : kont)                    (* about to ask for the current thread *)
| PReadL (x : nat) (k : kont)                  (* t->getPriority() on its own object: wants its m_mutex *)
| PRead (x : nat) (k : kont)                   (* about to read m_priority *)
| PReadU (x : nat) (v : Z) (k : kont)          (* about to release *)
| PWriteL (x : nat) (v : Z) (k : kont)         (* wants x's m_mutex *)
| PWrite (x : nat) (v : Z) (k : kont)          (* about to write m_priority *)
| PNative (x : nat) (v : Z) (k : kont)         (* about to call the operating system *)
| PWriteU (x : nat) (v : Z) (k : kont)         (* about to release *)
| PThrown (x : nat)                            (* m_prioMap.at has thrown std::out_of_range *)
| PGetL (x : nat) (w : which)                  (* a getter: wants x's m_mutex *)
| PGet (x : nat) (w : which)                   (* about to read the field *)
| PGetU (x : nat) (r : ares)                   (* about to release *)
| PNewF (p : Z) (n : nat)                      (* create: wants the factory's m_mutex *)
| PNew (p : Z) (n : nat)                       (* about to allocate the object *)
| PBegin (x : nat) (p : Z) (n : nat)           (* beginThread: about to start the native thread *)
| PInit (x : nat) (p : Z) (n : nat)            (* about to write m_initialPriority *)
| PNewU (x : nat) (p : Z) (n : nat)            (* about to release the factory's m_mutex *)
| PInsF (x : nat) (p : Z) (n : nat)            (* wants it again *)
| PIns (x : nat) (p : Z) (n : nat)             (* about to insert into m_threadIdMap *)
| PFailU (x : option nat)                      (* an exception: about to release the factory's m_mutex *)
| PFailF (x : option nat)                      (* wants it again *)
| PFail (x : option nat)                       (* about to delete the object *)
| PNewUR (r : ares)                            (* about to release the factory's m_mutex, then return *)
| PRet (r : ares).

Record ast := mkA {
  a_obj : nat -> option attr;        (* m_priority, m_initialPriority, m_name *)
  a_pub : nat -> bool;               (* in m_threadIdMap: create has given the object out *)
  a_os : nat -> Z;                   (* the native priority of the object's thread *)
  a_lock : nat -> option nat;        (* who holds the object's m_mutex *)
  a_fac : option nat;                (* who holds the factory's m_mutex (recursive) *)
  a_pc : nat -> apc }.
Definition a_init : ast := mkA (fun _ => None) (fun _ => false) (fun _ => 0) (fun _ => None) None (fun _ => POut).
Definition go (s : ast) (t : nat) (q : apc) : ast := mkA (a_obj s) (a_pub s) (a_os s) (a_lock s) (a_fac s) (fupd (a_pc s) t q).
Definition lock_go (s : ast) (x : nat) (o : option nat) (t : nat) (q : apc) : ast :=
  mkA (a_obj s) (a_pub s) (a_os s) (fupd (a_lock s) x o) (a_fac s) (fupd (a_pc s) t q).
Definition fac_go (s : ast) (o : option nat) (t : nat) (q : apc) : ast :=
  mkA (a_obj s) (a_pub s) (a_os s) (a_lock s) o (fupd (a_pc s) t q).
Definition obj_go (s : ast) (x : nat) (o : option attr) (t : nat) (q : apc) : ast :=
  mkA (fupd (a_obj s) x o) (a_pub s) (a_os s) (a_lock s) (a_fac s) (fupd (a_pc s) t q).
Definition pub_go (s : ast) (x : nat) (t : nat) (q : apc) : ast :=
  mkA (a_obj s) (fupd (a_pub s) x true) (a_os s) (a_lock s) (a_fac s) (fupd (a_pc s) t q).
Definition os_go (s : ast) (x : nat) (v : Z) (t : nat) (q : apc) : ast :=
  mkA (a_obj s) (a_pub s) (fupd (a_os s) x v) (a_lock s) (a_fac s) (fupd (a_pc s) t q).

(** [AStep t fail]: thread [t] moves; [fail]: the system refuses what the step asks of it (memory, a thread, a native priority).
    [AAlloc t x]: [t] allocates object [x] *)
Inductive alab := ALCall (t : nat) (c : acall) | AStep (t : nat) (fail : bool) | AAlloc (t x : nat).

Section Model.
  Variable pf : platform.
  Variable ext : nat -> bool.         (* the callers that are not threads of the library *)

  Definition start_of (c : acall) : apc :=
    match c with
    | ACreate p n => PNewF p n
    | ASet x p => PSet x (KSet p)
    | AGet x => PGetL x WPrio
    | AInit x => PGetL x WInit
    | AName x n => PNameL x n None
    | AGetName x => PGetL x WName
    end.
  (** the object a call is made on must exist *)
  Definition on_object (s : ast) (c : acall) : bool :=
    match c with ACreate _ _ => true | ASet x _ | AGet x | AInit x | AName x _ | AGetName x => a_pub s x end.
  Definition arg (k : kont) : Z := match k with KSet p => p | KNew p _ => p end.
  Definition read_field (o : attr) (w : which) : ares :=
    match w with WPrio => RInt (at_prio o) | WInit => RInt (at_init o) | WName => RStr (at_name o) end.
  Definition get_call (x : nat) (w : which) : acall := match w with WPrio => AGet x | WInit => AInit x | WName => AGetName x end.
  (** a recursive mutex *)
  Definition fac_free (s : ast) (t : nat) : bool := match a_fac s with None => true | Some u => Nat.eqb u t end.

  Definition a_step (s : ast) (l : alab) : option (ast * list (event acall ares)) :=
    match l with
    | ALCall t c =>
        match a_pc s t with
        | POut => if (ext t || a_pub s t) && on_object s c then Some (go s t (start_of c), [Call t c]) else None
        | _ => None
        end
    | AAlloc t x =>
        match a_pc s t with
        | PNew p n =>
            (* StdCppThreadFactory.cpp:34-39, 168-171, 182: new StdCppThread(r, priority, ...): m_priority = m_initialPriority = priority *)
            if negb (ext x) && match a_obj s x with None => true | Some _ => false end
            then Some (obj_go s x (Some (mkAttr p p n)) t (PBegin x p n), []) else None
        | _ => None
        end
    | AStep t fail =>
        match a_pc s t with
        | POut => None
        (* setName: StdCppThreadFactory.cpp:103-107, PosixThreadFactory.cpp:16-23, WindowsThreadFactory.cpp:15-27 *)
        | PNameL x n k => match a_lock s x with None => Some (lock_go s x (Some t) t (PNameW x n k), []) | Some _ => None end
        | PNameW x n k =>
            match a_obj s x with
            | Some o => Some (obj_go s x (Some (mkAttr (at_prio o) (at_init o) n)) t (PNameU x k),
                              match k with None => [Eff t (AName x n) RVoid] | Some _ => [] end)
            | None => None
            end
        | PNameU x k => Some (lock_go s x None t (match k with None => PRet RVoid | Some (p, n) => PSet x (KNew p n) end), [])
        (* setPriority: StdCppThreadFactory.cpp:115-133, PosixThreadFactory.cpp:25-50, WindowsThreadFactory.cpp:29-50 *)
        | PSet x k => Some (go s t (if pf_direct pf (arg k) then PWriteL x (arg k) k else PCur x k), [])
        | PCur x k =>
            (* getCurrentThread: StdCppThreadFactory.cpp:230-238 *)
            if fac_free s t then Some (go s t (if a_pub s t then PReadL x k else PWriteL x (pf_normal pf) k), []) else None
        | PReadL x k => match a_lock s t with None => Some (lock_go s t (Some t) t (PRead x k), []) | Some _ => None end
        | PRead x k => match a_obj s t with Some o => Some (go s t (PReadU x (at_prio o) k), []) | None => None end
        | PReadU x v k => Some (lock_go s t None t (PWriteL x v k), [])
        | PWriteL x v k => match a_lock s x with None => Some (lock_go s x (Some t) t (PWrite x v k), []) | Some _ => None end
        | PWrite x v k =>
            match a_obj s x with
            | Some o => Some (obj_go s x (Some (mkAttr v (at_init o) (at_name o))) t (PNative x v k),
                              match k with KSet p => [Eff t (ASet x p) RVoid] | KNew _ _ => [] end)
            | None => None
            end
        | PNative x v k =>
            (* m_prioMap.at(v); pthread_setschedparam / SetThreadPriority, whose result is ignored *)
            match pf_native pf v with
            | None =>     (* out_of_range leaves setPriority; create catches it (187-193) *)
                Some (match k with
                      | KSet _ => (lock_go s x None t (PThrown x), [])
                      | KNew p n => (lock_go s x None t (PFailU (Some x)), [Eff t (ACreate p n) RNull])
                      end)
            | Some w => Some (if fail then go s t (PWriteU x v k) else os_go s x w t (PWriteU x v k), [])
            end
        | PWriteU x v k => Some (lock_go s x None t (match k with KSet _ => PRet RVoid | KNew p n => PInit x p n end), [])
        | PThrown _ => None
        (* getPriority, getInitialPriority, getName: StdCppThreadFactory.cpp:109-113, 135-145 *)
        | PGetL x w => match a_lock s x with None => Some (lock_go s x (Some t) t (PGet x w), []) | Some _ => None end
        | PGet x w =>
            match a_obj s x with
            | Some o => Some (go s t (PGetU x (read_field o w)), [Eff t (get_call x w) (read_field o w)])
            | None => None
            end
        | PGetU x r => Some (lock_go s x None t (PRet r), [])
        (* create: StdCppThreadFactory.cpp:173-209; beginThread: 41-49 *)
        | PNewF p n => match a_fac s with None => Some (fac_go s (Some t) t (PNew p n), []) | Some _ => None end
        | PNew p n => if fail then Some (go s t (PFailU None), [Eff t (ACreate p n) RNull]) else None
        | PBegin x p n => Some (if fail then (go s t (PFailU (Some x)), [Eff t (ACreate p n) RNull]) else (go s t (PNameL x n (Some (p, n))), []))
        | PInit x p n =>
            match a_obj s x with
            | Some o => Some (obj_go s x (Some (mkAttr (at_prio o) (at_prio o) (at_name o))) t (PNewU x p n), [])
            | None => None
            end
        | PNewU x p n => Some (fac_go s None t (PInsF x p n), [])
        | PInsF x p n => match a_fac s with None => Some (fac_go s (Some t) t (PIns x p n), []) | Some _ => None end
        | PIns x p n =>
            Some (if fail then (go s t (PFailU (Some x)), [Eff t (ACreate p n) RNull])
                  else (pub_go s x t (PNewUR (RThread x)), [Eff t (ACreate p n) (RThread x)]))
        | PFailU ox => Some (fac_go s None t (PFailF ox), [])
        | PFailF ox => match a_fac s with None => Some (fac_go s (Some t) t (PFail ox), []) | Some _ => None end
        | PFail ox => Some (match ox with Some x => obj_go s x None t (PNewUR RNull) | None => go s t (PNewUR RNull) end, [])
        | PNewUR r => Some (fac_go s None t (PRet r), [])
        | PRet r => Some (go s t POut, [Ret t r])
        end
    end.
  (** an operating system that refuses no priority *)
  Definition a_step_ok (s : ast) (l : alab) : option (ast * list (event acall ares)) :=
    match l with
    | AStep t true => match a_pc s t with PNative _ _ _ => None | _ => a_step s l end
    | _ => a_step s l
    end.
  Definition a_idle (s : ast) (t : nat) : Prop := a_pc s t = POut.
  (** nobody can move without a new call *)
  Definition a_stuck (s : ast) : Prop := forall l, (forall t c, l <> ALCall t c) -> a_step s l = None.
End Model.
(** the attributes of the objects that create has given out *)
Definition given_out (s : ast) : astate := fun x => if a_pub s x then a_obj s x else None.
(** the object of which thread [t] is about to read or write a field (or which it is about to delete) *)
Definition touches (s : ast) (t : nat) : option nat :=
  match a_pc s t with
  | PNameW x _ _ | PWrite x _ _ | PGet x _ | PInit x _ _ => Some x
  | PRead _ _ => Some t
  | PFail ox => ox
  | _ => None
  end.
