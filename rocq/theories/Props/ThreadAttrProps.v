(** C69: a thread's attributes (priority, priority at creation, name) on StdCpp, Posix and Windows.  Specification: Spec/ThreadAttrSpec.v;
    model: OS/ThreadAttrModel.v.  [ext]: the callers that are not threads of the library. *)
From Coq Require Import List ZArith Bool Arith.
Import ListNotations.
From Verif Require Import Spec.Linear Spec.ThreadAttrSpec Spec.PrioritySpec OS.Sched OS.PriorityModel OS.ThreadAttrModel OS.ThreadAttrProofs OS.ThreadAttrMore.
Local Open Scope nat_scope.
Notation aevents := (list (event acall ares)).

(** every history of creates, setPriority, getPriority, getInitialPriority, setName and getName is one of atomic attributes, provided that a
    thread that inherits its priority to others (INHERIT_PRIORITY) has its own priority set by itself only *)
Theorem c69_attributes_linearizable_partial :
  forall (pf : platform) (ext : nat -> bool) (ls : list alab) (s : ast) (es : aevents),
    exec (a_step pf ext) a_init ls = Some (s, es) -> own_master (pf_direct pf) (history es) ->
    linearizable (attr_spec (pf_direct pf) (pf_normal pf)) a_none (history es).
Proof. exact a_linearizable. Qed.
Print Assumptions c69_attributes_linearizable_partial.
(** without that proviso it is false: reading the caller's priority and setting it are two critical sections *)
Theorem c69_attributes_linearizable_refuted :
  ~ (forall (pf : platform) (ext : nat -> bool) (ls : list alab) (s : ast) (es : aevents),
       exec (a_step pf ext) a_init ls = Some (s, es) -> linearizable (attr_spec (pf_direct pf) (pf_normal pf)) a_none (history es)).
Proof. exact inherit_not_atomic. Qed.
Print Assumptions c69_attributes_linearizable_refuted.
(** without it everything but the inherited value is as specified *)
Theorem c69_attributes_linearizable_loose :
  forall (pf : platform) (ext : nat -> bool) (ls : list alab) (s : ast) (es : aevents),
    exec (a_step pf ext) a_init ls = Some (s, es) -> linearizable (attr_spec_loose (pf_direct pf) (pf_normal pf)) a_none (history es).
Proof. exact a_linearizable_loose. Qed.
Print Assumptions c69_attributes_linearizable_loose.
(** and the inherited value is the caller's priority at some time during the call (no call of [t] begins in [es3]) *)
Theorem c69_inherited_value_was_current :
  forall (pf : platform) (ext : nat -> bool) (ls : list alab) (s0 : ast) (es0 : aevents) (t : nat) (f : bool) (s1 : ast) (x : nat) (p : Z),
    exec (a_step pf ext) a_init ls = Some (s0, es0) -> a_step pf ext s0 (AStep t f) = Some (s1, [Eff t (ASet x p) RVoid]) -> pf_direct pf p = false ->
    exists ls1 ls2 s2 es2 es3 o,
      ls = ls1 ++ ls2 /\ exec (a_step pf ext) a_init ls1 = Some (s2, es2) /\ exec (a_step pf ext) s2 ls2 = Some (s0, es3) /\ (forall c, ~ In (Call t c) es3) /\
      given_out s1 x = Some o /\ at_prio o = own_priority (pf_normal pf) (given_out s2) t.
Proof. exact a_inherited_was_current. Qed.
Print Assumptions c69_inherited_value_was_current.
(** getInitialPriority always gives the same answer, and it is the priority given to create if one was given *)
Theorem c69_initial_priority_constant :
  forall (pf : platform) (ext : nat -> bool) (ls : list alab) (s : ast) (es : aevents) (t u x : nat) (r1 r2 : ares),
    exec (a_step pf ext) a_init ls = Some (s, es) -> In (t, AInit x, r1) (effects es) -> In (u, AInit x, r2) (effects es) -> r1 = r2.
Proof. exact a_initial_constant. Qed.
Print Assumptions c69_initial_priority_constant.
Theorem c69_initial_priority_as_given :
  forall (pf : platform) (ext : nat -> bool) (ls : list alab) (s : ast) (es : aevents) (t u x : nat) (p : Z) (n : nat) (r : ares),
    exec (a_step pf ext) a_init ls = Some (s, es) -> In (t, ACreate p n, RThread x) (effects es) -> In (u, AInit x, r) (effects es) ->
    pf_direct pf p = true -> r = RInt p.
Proof. exact a_initial_given. Qed.
Print Assumptions c69_initial_priority_as_given.
Theorem c69_create_gives_new_thread :
  forall (pf : platform) (ext : nat -> bool) (ls : list alab) (s : ast) (es : aevents) (x : nat) (l1 l2 : list (nat * acall * ares)) (t : nat) (p : Z) (n u : nat) (p' : Z) (n' : nat),
    exec (a_step pf ext) a_init ls = Some (s, es) -> effects es = l1 ++ (t, ACreate p n, RThread x) :: l2 -> ~ In (u, ACreate p' n', RThread x) l2.
Proof. exact a_created_once. Qed.
Print Assumptions c69_create_gives_new_thread.
(** Posix, Windows: getPriority always lies between getMinPriority and getMaxPriority, whatever setPriority and create were given *)
Theorem c69_priority_in_range :
  forall (pf : platform) (ext : nat -> bool) (lo hi : Z) (ls : list alab) (s : ast) (es : aevents) (t x : nat) (v : Z),
    is_range_platform pf lo hi -> exec (a_step pf ext) a_init ls = Some (s, es) -> In (t, AGet x, RInt v) (effects es) -> valid lo hi v.
Proof. exact a_get_in_range. Qed.
Print Assumptions c69_priority_in_range.
(** the table of native priorities has an entry for everything that is asked of it: setPriority never throws *)
Theorem c69_never_throws :
  forall (pf : platform) (ext : nat -> bool) (lo hi : Z) (ls : list alab) (s : ast) (es : aevents) (t x : nat),
    pf = std_platform \/ (exists dflt pmin pmax, (pmin <= pmax)%Z /\ pf = posix_platform dflt pmin pmax lo hi) \/ pf = windows_platform lo hi ->
    exec (a_step pf ext) a_init ls = Some (s, es) -> a_pc s t <> PThrown x.
Proof. exact platforms_never_throw. Qed.
Print Assumptions c69_never_throws.
(** if the operating system refuses nothing, the native priority is the table's entry for getPriority whenever nobody is changing it *)
Theorem c69_native_priority_partial :
  forall (pf : platform) (ext : nat -> bool) (ls : list alab) (s : ast) (es : aevents) (x : nat) (o : attr),
    fits pf -> exec (a_step_ok pf ext) a_init ls = Some (s, es) -> given_out s x = Some o -> a_lock s x = None -> pf_native pf (at_prio o) = Some (a_os s x).
Proof. exact a_native. Qed.
Print Assumptions c69_native_priority_partial.
(** the operating system may refuse (it does for a process without the right to SCHED_RR); then getPriority reports what is not so *)
Theorem c69_native_priority_refuted :
  ~ (forall (dflt pmin pmax lo hi : Z) (ext : nat -> bool) (ls : list alab) (s : ast) (es : aevents) (x : nat) (o : attr),
       (pmin <= pmax)%Z -> exec (a_step (posix_platform dflt pmin pmax lo hi) ext) a_init ls = Some (s, es) ->
       given_out s x = Some o -> a_lock s x = None -> pf_native (posix_platform dflt pmin pmax lo hi) (at_prio o) = Some (a_os s x)).
Proof. exact native_refused. Qed.
Print Assumptions c69_native_priority_refuted.
(** Posix, Windows: INHERIT_PRIORITY (-1) asks for the caller's priority exactly if it is not itself a priority of the range *)
Theorem c69_inherit_is_out_of_range :
  forall (pf : platform) (lo hi : Z), is_range_platform pf lo hi -> (pf_direct pf INHERIT = false <-> ~ valid lo hi INHERIT).
Proof. exact inherit_in_range. Qed.
Print Assumptions c69_inherit_is_out_of_range.
(** no two threads are ever about to access the fields of the same thread object *)
Theorem c69_no_data_race :
  forall (pf : platform) (ext : nat -> bool) (ls : list alab) (s : ast) (es : aevents) (t u x : nat),
    exec (a_step pf ext) a_init ls = Some (s, es) -> touches s t = Some x -> touches s u = Some x -> t = u.
Proof. exact a_race_free. Qed.
Print Assumptions c69_no_data_race.
(** nobody is blocked for ever: if nothing can move then no call is running; and [n] threads make at most 24 n steps *)
Theorem c69_no_deadlock :
  forall (pf : platform) (ext : nat -> bool) (ls : list alab) (s : ast) (es : aevents),
    fits pf -> exec (a_step pf ext) a_init ls = Some (s, es) -> a_stuck pf ext s -> forall t, a_idle s t.
Proof. exact a_progress. Qed.
Print Assumptions c69_no_deadlock.
(** and then every object that exists is one that create has given out: a failed create leaves nothing behind *)
Theorem c69_failed_create_leaves_nothing :
  forall (pf : platform) (ext : nat -> bool) (ls : list alab) (s : ast) (es : aevents),
    exec (a_step pf ext) a_init ls = Some (s, es) -> (forall t, a_idle s t) -> forall x, a_obj s x <> None -> a_pub s x = true.
Proof. exact a_nothing_leaks. Qed.
Print Assumptions c69_failed_create_leaves_nothing.
Theorem c69_bounded :
  forall (pf : platform) (ext : nat -> bool) (n : nat) (ls0 : list alab) (s : ast) (es0 : aevents) (ls : list alab) (s' : ast) (es : aevents),
    exec (a_step pf ext) a_init ls0 = Some (s, es0) -> (forall t, n <= t -> a_idle s t) -> (forall l, In l ls -> a_own_step l) ->
    exec (a_step pf ext) s ls = Some (s', es) -> length ls <= n * 24.
Proof. exact a_bounded. Qed.
Print Assumptions c69_bounded.

(** ** The hypotheses are met *)
(** main creates thread 1 with priority 3; thread 1 sets its own priority to 7 and creates thread 2 with its own; main reads *)
Definition attr_run : list alab :=
  make 0 1 3 10 ++ [ALCall 1 (ASet 1 7)] ++ steps 6 1 ++ [ALCall 1 (ACreate INHERIT 20); AStep 1 false; AAlloc 1 2] ++ steps 19 1 ++
  [ALCall 0 (AGet 2)] ++ steps 4 0 ++ [ALCall 0 (AInit 1)] ++ steps 4 0.
Example c69_run :
  match exec (a_step_ok (posix_platform 0 1 99 0 9) main_only) a_init attr_run with
  | Some (s, es) => effects es = [(0, ACreate 3 10, RThread 1); (1, ASet 1 7%Z, RVoid); (1, ACreate INHERIT 20, RThread 2); (0, AGet 2, RInt 7%Z); (0, AInit 1, RInt 3%Z)] /\
                    a_os s 2 = 3%Z /\ given_out s 2 = Some (mkAttr 7 7 20) /\ a_lock s 2 = None
  | None => False
  end.
Proof. vm_compute. repeat split. Qed.
(** in which thread 1 inherits and nobody else sets its priority *)
Example c69_own_master :
  match exec (a_step (posix_platform 0 1 99 0 9) main_only) a_init attr_run with
  | Some (s, es) => own_master (pf_direct (posix_platform 0 1 99 0 9)) (history es) /\ In (Call 1 (ACreate INHERIT 20)) (history es) /\ inherits (pf_direct (posix_platform 0 1 99 0 9)) (ACreate INHERIT 20)
  | None => False
  end.
Proof.
  assert (E : exists s es, exec (a_step (posix_platform 0 1 99 0 9) main_only) a_init attr_run = Some (s, es) /\
    history es = [Call 0 (ACreate 3 10); Ret 0 (RThread 1); Call 1 (ASet 1 7); Ret 1 RVoid; Call 1 (ACreate INHERIT 20); Ret 1 (RThread 2); Call 0 (AGet 2); Ret 0 (RInt 7); Call 0 (AInit 1); Ret 0 (RInt 3)]).
  { eexists. eexists. split; [vm_compute; reflexivity|reflexivity]. }
  destruct E as (s & es & -> & ->). split; [|split; [cbn; tauto|reflexivity]].
  intros t x p c H N _. repeat (destruct H as [H|H]; [try discriminate; injection H as <- <- <-; congruence|]). destruct H.
Qed.
(** the step of the inheriting setPriority in the run that refutes atomicity: the value is 3, thread 1's priority when it was read *)
Example c69_inherit_step :
  match exec (a_step std_platform main_only) a_init (firstn 55 inherit_run) with
  | Some (s0, _) => match a_step std_platform main_only s0 (AStep 1 false) with
                    | Some (s1, es) => es = [Eff 1 (ASet 2 INHERIT) RVoid] /\ option_map at_prio (given_out s1 2) = Some 3%Z /\ option_map at_prio (given_out s0 1) = Some 7%Z
                    | None => False
                    end
  | None => False
  end.
Proof. vm_compute. repeat split. Qed.
