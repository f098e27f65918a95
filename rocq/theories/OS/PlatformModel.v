(** Model of the init functions: platform/StdCppOSWrapper/StdCppOSWrapper.cpp:30-47, PosixOSWrapper/PosixOSWrapper.cpp:32-49,
    WindowsOSWrapper/WindowsOSWrapper.cpp:32-49, ItronOSWrapper/ItronOSWrapper.cpp:17-32, TestDoubleOSWrapper/TestDoubleOSWrapper.cpp:35-52, and of the priority range kept by the
    thread factories they build.  A function-local static object is built when its declaration is first passed and never again.
    Simplified: the constructors do not fail (those of Posix and Windows fill an std::unordered_map, which can run out of memory).
    Addresses: [home p k] is the static object of platform [p] for class [k]. *)
From Coq Require Import List ZArith Bool.
Import ListNotations.
From Verif Require Import Spec.FacadeSpec Spec.PlatformSpec OS.FacadeModel OS.PriorityModel.
Open Scope Z_scope.

Section Platform.
  Variable home : platform -> kind -> Z.
  (** the answers of the factories to everything but the four priority questions *)
  Variable other : Z -> api -> Z.
  (** TMIN_TPRI, TMAX_TPRI of the uITRON kernel *)
  Variables tmin tmax : Z.
  (** pthread_getschedparam(pthread_self(), ...) succeeds *)
  Variable sched_ok : bool.

  Record pstate := mkP {
    p_statics : statics;                              (* the s_factory pointers *)
    p_posix : option (Z * Z);                         (* PosixOSWrapper.cpp:34: theThreadFactory, once built: lowest, highest *)
    p_windows : option (Z * Z)                        (* WindowsOSWrapper.cpp:34 *)
  }.
  Definition p_init : pstate := mkP s_init None None.

  (** PosixThreadFactory.cpp:54-73: m_lowestPriority(0), m_highestPriority(0); return if pthread_getschedparam fails; setPriorityRange *)
  Definition posix_ctor (lo hi : Z) : Z * Z := if sched_ok then (lo, hi) else (0, 0).
  (** WindowsThreadFactory.cpp:52-61 *)
  Definition windows_ctor (lo hi : Z) : Z * Z := (lo, hi).
  Definition build (was : option (Z * Z)) (ctor : Z * Z) : option (Z * Z) := match was with Some r => Some r | None => Some ctor end.

  (** StdCppOSWrapper.cpp:40-46, PosixOSWrapper.cpp:42-48, WindowsOSWrapper.cpp:42-48, TestDoubleOSWrapper.cpp:45-51 *)
  Definition register_seven (p : platform) (s : statics) : statics :=
    let s := register s KThread (home p KThread) in
    let s := register s KMutex (home p KMutex) in
    let s := register s KEventFlag (home p KEventFlag) in
    let s := register s KFixed (home p KFixed) in
    let s := register s KVariable (home p KVariable) in
    let s := register s KPeriodic (home p KPeriodic) in
    register s KOneShot (home p KOneShot).
  (** ItronOSWrapper.cpp:26-31 *)
  Definition register_six (p : platform) (s : statics) : statics :=
    let s := register s KThread (home p KThread) in
    let s := register s KMutex (home p KMutex) in
    let s := register s KEventFlag (home p KEventFlag) in
    let s := register s KFixed (home p KFixed) in
    let s := register s KVariable (home p KVariable) in
    register s KPeriodic (home p KPeriodic).

  Definition init_platform (s : pstate) (p : platform) (lo hi : Z) : pstate :=
    match p with
    | StdCpp => mkP (register_seven StdCpp (p_statics s)) (p_posix s) (p_windows s)
    | Posix => mkP (register_seven Posix (p_statics s)) (build (p_posix s) (posix_ctor lo hi)) (p_windows s)
    | Windows => mkP (register_seven Windows (p_statics s)) (p_posix s) (build (p_windows s) (windows_ctor lo hi))
    | TestDouble => mkP (register_seven TestDouble (p_statics s)) (p_posix s) (p_windows s)
    | Itron => mkP (register_six Itron (p_statics s)) (p_posix s) (p_windows s)
    end.

  (** PosixThreadFactory.cpp:114-140, WindowsThreadFactory.cpp:108-134 *)
  Definition ranged (r : option (Z * Z)) (f : Z) (c : api) : Z :=
    match r with
    | None => other f c
    | Some (lo, hi) =>
        match c with
        | ThreadMax => max_priority lo hi
        | ThreadMin => min_priority lo hi
        | ThreadHighest => hi
        | ThreadLowest => lo
        | _ => other f c
        end
    end.
  (** what factory [f] answers *)
  Definition answer (s : pstate) (f : Z) (c : api) : Z :=
    if f =? home Posix KThread then ranged (p_posix s) f c
    else if f =? home Windows KThread then ranged (p_windows s) f c
    else if f =? home StdCpp KThread then
      match c with ThreadMax | ThreadMin | ThreadHighest | ThreadLowest => 0 | _ => other f c end       (* StdCppThreadFactory.cpp:240-258 *)
    else if f =? home TestDouble KThread then
      match c with ThreadMax | ThreadMin | ThreadHighest | ThreadLowest | ThreadCurrent | ThreadSleep _ | ThreadYield => 0 | _ => other f c end   (* TestDoubleThreadFactory.h:122-154 *)
    else if f =? home Itron KThread then
      match c with ThreadMax | ThreadLowest => tmax | ThreadMin | ThreadHighest => tmin | _ => other f c end   (* ItronThreadFactory.cpp:359-377 *)
    else other f c.

  Definition p_step (s : pstate) (a : action) : pstate * (res * list (Z * api)) :=
    match a with
    | Init p lo hi => (init_platform s p lo hi, (Value 0, []))
    | Use c => let '(s', out) := call (answer s) (p_statics s) c in (mkP s' (p_posix s) (p_windows s), out)
    end.
  Fixpoint p_run (s : pstate) (hist : list action) : pstate :=
    match hist with [] => s | a :: rest => p_run (fst (p_step s a)) rest end.
  (** what the call [c] gives after [hist]: its result, and the requests that reach factories *)
  Definition outcome (hist : list action) (c : api) : res * list (Z * api) := snd (p_step (p_run p_init hist) (Use c)).
End Platform.
