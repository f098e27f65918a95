(** C71: the platforms' init functions.  [home p k]: the address of platform [p]'s factory for class [k]; [other]: any behaviour of the
    factories; [hist]: any sequence of init calls and static method calls. *)
From Coq Require Import List ZArith Lia.
Import ListNotations.
From Verif Require Import Spec.FacadeSpec Spec.PlatformSpec OS.FacadeModel OS.PlatformModel OS.PlatformProofs.
Open Scope Z_scope.

(** after [init] of a platform, and until the class is given to somebody else, every request the arguments allow reaches that platform's
    factory, whatever happened before *)
Theorem c71_requests_reach_the_platform_partial :
  forall (home : platform -> kind -> Z) (other : Z -> api -> Z) (tmin tmax : Z) (sched_ok : bool)
         (p : platform) (lo hi : Z) (before after : list action) (c : api),
    (forall k, home p k <> 0) -> serves p (kind_of c) = true -> Forall (keeps (kind_of c)) after -> request c -> ~ refused c ->
    exists v, outcome home other tmin tmax sched_ok (before ++ Init p lo hi :: after) c = (Value v, [(home p (kind_of c), c)]).
Proof. exact after_init. Qed.
Print Assumptions c71_requests_reach_the_platform_partial.
Theorem c71_destructions_reach_the_platform_partial :
  forall (home : platform -> kind -> Z) (other : Z -> api -> Z) (tmin tmax : Z) (sched_ok : bool)
         (p : platform) (lo hi : Z) (before after : list action) (k : kind) (q : Z),
    (forall k, home p k <> 0) -> serves p k = true -> Forall (keeps k) after -> q <> 0 ->
    outcome home other tmin tmax sched_ok (before ++ Init p lo hi :: after) (Destroy k q) = (Value 0, [(home p k, Destroy k q)]).
Proof. exact after_init_destroy. Qed.
Print Assumptions c71_destructions_reach_the_platform_partial.
(** the exception: uITRON's init registers no one-shot timer factory *)
Theorem c71_itron_has_no_one_shot_timer_refuted :
  forall (home : platform -> kind -> Z) (other : Z -> api -> Z) (tmin tmax : Z) (sched_ok : bool)
         (lo hi : Z) (before after : list action) (r name : Z),
    in_charge home KOneShot before = 0 -> Forall (keeps KOneShot) after ->
    outcome home other tmin tmax sched_ok (before ++ Init Itron lo hi :: after) (OneShotCreate r name) = (AssertionFails, []).
Proof. exact itron_no_one_shot. Qed.
Print Assumptions c71_itron_has_no_one_shot_timer_refuted.
(** calling the same init again changes nothing, whatever its arguments *)
Theorem c71_init_again_changes_nothing :
  forall (home : platform -> kind -> Z) (other : Z -> api -> Z) (tmin tmax : Z) (sched_ok : bool) (p : platform) (lo hi lo' hi' : Z) (hist : list action),
    p_run home other tmin tmax sched_ok p_init (hist ++ [Init p lo hi; Init p lo' hi']) = p_run home other tmin tmax sched_ok p_init (hist ++ [Init p lo hi]).
Proof. exact init_again. Qed.
Print Assumptions c71_init_again_changes_nothing.
(** while Posix or Windows is in charge of threads, the priorities are those of that platform's first init *)
Theorem c71_priorities_are_those_of_the_first_init :
  forall (home : platform -> kind -> Z) (other : Z -> api -> Z) (tmin tmax : Z) (sched_ok : bool) (p : platform) (lo hi : Z) (hist : list action),
    (p = Posix /\ sched_ok = true) \/ p = Windows ->
    (forall k, home p k <> 0) -> (forall q, home q KThread = home p KThread -> q = p) ->
    first_range p hist = Some (lo, hi) -> in_charge home KThread hist = home p KThread ->
    outcome home other tmin tmax sched_ok hist ThreadHighest = (Value hi, [(home p KThread, ThreadHighest)]) /\
    outcome home other tmin tmax sched_ok hist ThreadLowest = (Value lo, [(home p KThread, ThreadLowest)]) /\
    outcome home other tmin tmax sched_ok hist ThreadMax = (Value (Z.max lo hi), [(home p KThread, ThreadMax)]) /\
    outcome home other tmin tmax sched_ok hist ThreadMin = (Value (Z.min lo hi), [(home p KThread, ThreadMin)]).
Proof. exact priorities. Qed.
Print Assumptions c71_priorities_are_those_of_the_first_init.
(** on Posix, if pthread_getschedparam fails, every priority is 0 while Posix is in charge of threads *)
Theorem c71_posix_range_is_lost :
  forall (home : platform -> kind -> Z) (other : Z -> api -> Z) (tmin tmax : Z) (lo hi : Z) (hist : list action),
    (forall k, home Posix k <> 0) -> (forall q, home q KThread = home Posix KThread -> q = Posix) ->
    first_range Posix hist = Some (lo, hi) -> in_charge home KThread hist = home Posix KThread ->
    forall c, In c [ThreadHighest; ThreadLowest; ThreadMax; ThreadMin] ->
    outcome home other tmin tmax false hist c = (Value 0, [(home Posix KThread, c)]).
Proof. exact (fun home other tmin tmax lo hi hist => priorities_lost home other tmin tmax false lo hi hist eq_refl). Qed.
Print Assumptions c71_posix_range_is_lost.
(** while one of the other platforms is in charge of threads: StdCpp and the test doubles know no priorities; uITRON's urgent priorities are
    the small numbers *)
Theorem c71_fixed_priorities :
  forall (home : platform -> kind -> Z) (other : Z -> api -> Z) (tmin tmax : Z) (sched_ok : bool) (p : platform) (hist : list action) (c : api) (v : Z),
    (forall k, home p k <> 0) -> (forall q, home q KThread = home p KThread -> q = p) -> in_charge home KThread hist = home p KThread ->
    In (c, v) (match p with
               | StdCpp | TestDouble => [(ThreadHighest, 0); (ThreadLowest, 0); (ThreadMax, 0); (ThreadMin, 0)]
               | Itron => [(ThreadHighest, tmin); (ThreadLowest, tmax); (ThreadMax, tmax); (ThreadMin, tmin)]
               | _ => []
               end) ->
    outcome home other tmin tmax sched_ok hist c = (Value v, [(home p KThread, c)]).
Proof. exact fixed_priorities. Qed.
Print Assumptions c71_fixed_priorities.
(** the double of the thread factory: no current thread, sleep and yield do nothing *)
Theorem c71_double_threads :
  forall (home : platform -> kind -> Z) (other : Z -> api -> Z) (tmin tmax : Z) (sched_ok : bool) (hist : list action) (c : api),
    (forall k, home TestDouble k <> 0) -> (forall q, home q KThread = home TestDouble KThread -> q = TestDouble) -> in_charge home KThread hist = home TestDouble KThread ->
    c = ThreadCurrent \/ (exists ms, c = ThreadSleep ms) \/ c = ThreadYield ->
    outcome home other tmin tmax sched_ok hist c = (Value 0, [(home TestDouble KThread, c)]).
Proof. exact double_threads. Qed.
Print Assumptions c71_double_threads.
(** an object is destroyed by the factory that created it as long as the class has not changed hands in between *)
Theorem c71_destroyed_by_its_maker_partial :
  forall (home : platform -> kind -> Z) (other : Z -> api -> Z) (tmin tmax : Z) (sched_ok : bool)
         (before after : list action) (c : api) (v f q : Z),
    request c -> ~ refused c -> outcome home other tmin tmax sched_ok before c = (Value v, [(f, c)]) -> q <> 0 -> Forall (keeps (kind_of c)) after ->
    outcome home other tmin tmax sched_ok (before ++ Use c :: after) (Destroy (kind_of c) q) = (Value 0, [(f, Destroy (kind_of c) q)]).
Proof. exact destroyed_by_its_maker. Qed.
Print Assumptions c71_destroyed_by_its_maker_partial.

Definition c71_home (p : platform) (k : kind) : Z :=
  10 * (match p with StdCpp => 1 | Posix => 2 | Windows => 3 | Itron => 4 | TestDouble => 5 end) +
  match k with KMutex => 0 | KEventFlag => 1 | KThread => 2 | KOneShot => 3 | KPeriodic => 4 | KFixed => 5 | KVariable => 6 end.
(** without that proviso it is false: after init of another platform the object is handed to a factory that did not make it *)
Theorem c71_destroyed_by_its_maker_refuted :
  let out := outcome c71_home (fun f _ => f + 1000) 1 16 true in
  exists before after c v f q, request c /\ ~ refused c /\ out before c = (Value v, [(f, c)]) /\ v <> 0 /\ q = v /\
    exists g, out (before ++ Use c :: after) (Destroy (kind_of c) q) = (Value 0, [(g, Destroy (kind_of c) q)]) /\ g <> f.
Proof.
  exists [Init StdCpp 0 0], [Init Itron 0 0], MutexCreate, 1010, 10, 1010. repeat split; try (cbn; tauto); try lia.
  exists 40. split; [reflexivity|lia].
Qed.
Print Assumptions c71_destroyed_by_its_maker_refuted.
(** and the range of a second init is silently ignored *)
Theorem c71_second_range_is_ignored_refuted :
  exists hist lo hi, outcome c71_home (fun _ _ => 0) 1 16 true (hist ++ [Init Posix lo hi]) ThreadHighest <> (Value hi, [(c71_home Posix KThread, ThreadHighest)]).
Proof. exists [Init Posix 1 9], 1, 99. discriminate. Qed.
Print Assumptions c71_second_range_is_ignored_refuted.
(** on Posix, if pthread_getschedparam fails in the first init, every priority is 0 for ever *)
Theorem c71_posix_range_lost_refuted :
  exists lo hi, outcome c71_home (fun _ _ => 7) 1 16 false [Init Posix lo hi] ThreadHighest <> (Value hi, [(c71_home Posix KThread, ThreadHighest)]).
Proof. exists 1, 9. discriminate. Qed.
Print Assumptions c71_posix_range_lost_refuted.
Example c71_case :
  let out := outcome c71_home (fun f _ => f + 1000) 1 16 true in
  let hist := [Init StdCpp 0 0; Use MutexCreate; Init Posix 9 1; Use (Register KFixed 77); Init Itron 0 0; Init Posix 3 4] in
  (forall k, c71_home Posix k <> 0) /\ (forall q, c71_home q KThread = c71_home Posix KThread -> q = Posix) /\
  first_range Posix hist = Some (9, 1) /\ in_charge c71_home KThread hist = 22 /\
  Forall (keeps KMutex) [Use (Register KFixed 77); Use MutexCreate] /\ in_charge c71_home KOneShot [Init Itron 0 0; Use MutexCreate] = 0 /\
  out hist ThreadHighest = (Value 1, [(22, ThreadHighest)]) /\ out hist ThreadMax = (Value 9, [(22, ThreadMax)]) /\
  out hist MutexCreate = (Value 1020, [(20, MutexCreate)]) /\ out (firstn 5 hist) MutexCreate = (Value 1040, [(40, MutexCreate)]) /\
  out (firstn 5 hist) (OneShotCreate 1 0) = (Value 1023, [(23, OneShotCreate 1 0)]) /\ out (firstn 4 hist) (FixedRequired 1 2) = (Value 1077, [(77, FixedRequired 1 2)]) /\
  out [Init Itron 0 0] (OneShotCreate 1 0) = (AssertionFails, []) /\ out [Init Itron 0 0] ThreadHighest = (Value 1, [(42, ThreadHighest)]) /\
  out [Init StdCpp 0 0] ThreadMax = (Value 0, [(12, ThreadMax)]) /\ out [Init Windows 1 9] ThreadMin = (Value 1, [(32, ThreadMin)]) /\
  out [Init Itron 0 0; Init TestDouble 0 0] ThreadCurrent = (Value 0, [(52, ThreadCurrent)]).
Proof.
  cbv zeta. split; [intros []; discriminate|]. split; [intros []; cbn; congruence|].
  repeat split; try reflexivity. repeat constructor; discriminate.
Qed.
