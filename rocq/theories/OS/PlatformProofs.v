(** Proofs about the init functions. *)
From Coq Require Import List ZArith Bool Lia.
Import ListNotations.
From Verif Require Import Spec.FacadeSpec Spec.PlatformSpec Spec.PrioritySpec OS.FacadeModel OS.PriorityModel OS.PlatformModel OS.FacadeProofs.
Open Scope Z_scope.

Section P.
  Variable home : platform -> kind -> Z.
  Variable other : Z -> api -> Z.
  Variables tmin tmax : Z.
  Variable sched_ok : bool.
  Let step := p_step home other tmin tmax sched_ok.
  Let run := p_run home other tmin tmax sched_ok.
  Let out := outcome home other tmin tmax sched_ok.
  Let ans := answer home other tmin tmax.

  Lemma run_app s h1 h2 : run s (h1 ++ h2) = run (run s h1) h2.
  Proof. unfold run. revert s. induction h1 as [|a h1 IH]; intros s; [reflexivity|]. cbn [app p_run]. apply IH. Qed.

  Lemma step_statics s a k : s_of (p_statics (fst (step s a))) k =
    match a with
    | Init p _ _ => if serves p k then home p k else s_of (p_statics s) k
    | Use (Register k' f') => if kind_eqb k' k then f' else s_of (p_statics s) k
    | Use _ => s_of (p_statics s) k
    end.
  Proof.
    destruct a as [p lo hi|c].
    - now destruct p, k.
    - unfold step, p_step. pose proof (call_statics (answer home other tmin tmax s) (p_statics s) c k) as C.
      destruct (call _ _ c) as [s' o]. cbn [fst p_statics] in *. rewrite C. now destruct c.
  Qed.
  Lemma run_statics h k : s_of (p_statics (run p_init h)) k = in_charge home k h.
  Proof.
    unfold in_charge. assert (X : forall s, s_of (p_statics (run s h)) k =
      fold_left (fun f a => match a with Init p _ _ => if serves p k then home p k else f | Use (Register k' f') => if kind_eqb k' k then f' else f | Use _ => f end) h (s_of (p_statics s) k)).
    { induction h as [|a h IH]; intros s; [reflexivity|]. cbn [fold_left]. rewrite <- (step_statics s a k). apply IH. }
    rewrite X. now destruct k.
  Qed.
  Lemma in_charge_app k h1 h2 : in_charge home k (h1 ++ h2) =
    fold_left (fun f a => match a with Init p _ _ => if serves p k then home p k else f | Use (Register k' f') => if kind_eqb k' k then f' else f | Use _ => f end) h2 (in_charge home k h1).
  Proof. unfold in_charge. apply fold_left_app. Qed.
  Lemma kind_eqb_spec a b : Bool.reflect (a = b) (kind_eqb a b).
  Proof. destruct a, b; constructor; congruence. Qed.
  Lemma in_charge_keeps k h1 h2 : Forall (keeps k) h2 -> in_charge home k (h1 ++ h2) = in_charge home k h1.
  Proof.
    rewrite in_charge_app. generalize (in_charge home k h1). induction h2 as [|a h2 IH]; intros f F; [reflexivity|]. inversion F as [|? ? K F']; subst.
    cbn [fold_left]. destruct a as [p lo hi|c]; cbn in K; [rewrite K; now apply IH|]. destruct c as [k0 ?| | | | | | | | | | | | | | | | |]; try (now apply IH).
    destruct (kind_eqb_spec k0 k) as [|_]; [contradiction|now apply IH].
  Qed.
  Lemma in_charge_init k h1 p lo hi h2 : serves p k = true -> Forall (keeps k) h2 -> in_charge home k (h1 ++ Init p lo hi :: h2) = home p k.
  Proof.
    intros S F. change (Init p lo hi :: h2) with ([Init p lo hi] ++ h2). rewrite app_assoc, in_charge_keeps by exact F. rewrite in_charge_app. cbn [fold_left]. now rewrite S.
  Qed.

  (** every call, after every history *)
  Lemma out_request h c : request c -> ~ refused c ->
    out h c = if in_charge home (kind_of c) h =? 0 then (AssertionFails, []) else
      (Value (ans (run p_init h) (in_charge home (kind_of c) h) c), [(in_charge home (kind_of c) h, c)]).
  Proof.
    intros Q R. rewrite <- run_statics. unfold out, outcome, run. set (s := p_run home other tmin tmax sched_ok p_init h). clearbody s.
    destruct c as [| | | | |r pri ss sa name| | | | | | | |r name|r ms name| | |]; try contradiction; try reflexivity; cbn in R;
      unfold p_step, call, check_assert, forward; cbn [kind_of s_of snd].
    - destruct (s_thread (p_statics s) =? 0); [reflexivity|]. now destruct (Z.eqb_spec r 0).
    - destruct (s_oneshot (p_statics s) =? 0); [reflexivity|]. now destruct (Z.eqb_spec r 0).
    - destruct (s_periodic (p_statics s) =? 0); [reflexivity|]. destruct (Z.eqb_spec r 0) as [|]; [tauto|]. destruct (Z.eqb_spec ms 0); [tauto|reflexivity].
  Qed.
  Lemma out_destroy h k q : q <> 0 -> out h (Destroy k q) = (Value 0, if in_charge home k h =? 0 then [] else [(in_charge home k h, Destroy k q)]).
  Proof.
    intros Q. rewrite <- run_statics. unfold out, outcome, run. set (s := p_run home other tmin tmax sched_ok p_init h). clearbody s.
    destruct k; unfold p_step, call, destroy; cbn [s_of snd]; apply Z.eqb_neq in Q; rewrite Q;
      match goal with |- context [if ?b =? 0 then _ else _] => destruct (b =? 0) end; reflexivity.
  Qed.

  (** after a platform's init, every request reaches that platform's factory *)
  Theorem after_init p lo hi h1 h2 c : (forall k, home p k <> 0) -> serves p (kind_of c) = true -> Forall (keeps (kind_of c)) h2 -> request c -> ~ refused c ->
    exists v, out (h1 ++ Init p lo hi :: h2) c = (Value v, [(home p (kind_of c), c)]).
  Proof.
    intros N S F Q R. rewrite out_request by assumption. rewrite in_charge_init by assumption. rewrite (proj2 (Z.eqb_neq _ _) (N _)). eexists. reflexivity.
  Qed.
  Theorem after_init_destroy p lo hi h1 h2 k q : (forall k, home p k <> 0) -> serves p k = true -> Forall (keeps k) h2 -> q <> 0 ->
    out (h1 ++ Init p lo hi :: h2) (Destroy k q) = (Value 0, [(home p k, Destroy k q)]).
  Proof. intros N S F Q. rewrite out_destroy by exact Q. rewrite in_charge_init by assumption. now rewrite (proj2 (Z.eqb_neq _ _) (N _)). Qed.
  (** on uITRON alone a one-shot timer cannot be created *)
  Theorem itron_no_one_shot lo hi h1 h2 r name : in_charge home KOneShot h1 = 0 -> Forall (keeps KOneShot) h2 ->
    out (h1 ++ Init Itron lo hi :: h2) (OneShotCreate r name) = (AssertionFails, []).
  Proof.
    intros Z0 F. assert (C : in_charge home KOneShot (h1 ++ Init Itron lo hi :: h2) = 0).
    { rewrite in_charge_keeps; [exact Z0|]. constructor; [reflexivity|exact F]. }
    rewrite <- run_statics in C. unfold out, outcome, run in *. set (s := p_run home other tmin tmax sched_ok p_init _) in *. clearbody s.
    unfold p_step, call, check_assert. cbn [s_of] in C. rewrite C. reflexivity.
  Qed.
  (** the same init again, however often and whatever its arguments *)
  Lemma register_twice p s : register_seven home p (register_seven home p s) = register_seven home p s.
  Proof. reflexivity. Qed.
  Theorem init_again p lo hi lo' hi' h : run p_init (h ++ [Init p lo hi; Init p lo' hi']) = run p_init (h ++ [Init p lo hi]).
  Proof.
    rewrite !run_app. generalize (run p_init h). intros s. destruct s as [st po wi]. destruct p; cbn; try reflexivity.
    - now destruct po as [[? ?]|].
    - now destruct wi as [[? ?]|].
  Qed.
  (** the ranges *)
  Lemma run_posix h : p_posix (run p_init h) = match first_range Posix h with Some (lo, hi) => Some (posix_ctor sched_ok lo hi) | None => None end.
  Proof.
    assert (X : forall s, p_posix (run s h) = match p_posix s with Some r => Some r | None => match first_range Posix h with Some (lo, hi) => Some (posix_ctor sched_ok lo hi) | None => None end end).
    { induction h as [|a h IH]; intros s; [cbn; now destruct (p_posix s)|].
      change (run s (a :: h)) with (run (fst (step s a)) h). rewrite IH. destruct a as [p lo hi|c].
      - destruct p; cbn; try reflexivity. now destruct (p_posix s).
      - unfold step, p_step. destruct (call _ _ c) as [s' o]. reflexivity. }
    rewrite X. reflexivity.
  Qed.
  Lemma run_windows h : p_windows (run p_init h) = first_range Windows h.
  Proof.
    assert (X : forall s, p_windows (run s h) = match p_windows s with Some r => Some r | None => first_range Windows h end).
    { induction h as [|a h IH]; intros s; [cbn; now destruct (p_windows s)|].
      change (run s (a :: h)) with (run (fst (step s a)) h). rewrite IH. destruct a as [p lo hi|c].
      - destruct p; cbn; try reflexivity. now destruct (p_windows s).
      - unfold step, p_step. destruct (call _ _ c) as [s' o]. reflexivity. }
    rewrite X. reflexivity.
  Qed.
  Lemma mx lo hi : max_priority lo hi = Z.max lo hi.
  Proof. unfold max_priority. destruct (Z.ltb_spec lo hi); lia. Qed.
  Lemma mn lo hi : min_priority lo hi = Z.min lo hi.
  Proof. unfold min_priority. destruct (Z.ltb_spec lo hi); lia. Qed.
  Lemma answer_ranged p s f c : (p = Posix \/ p = Windows) -> (forall q, home q KThread = home p KThread -> q = p) -> f = home p KThread ->
    ans s f c = ranged other (match p with Posix => p_posix s | _ => p_windows s end) f c.
  Proof.
    intros PW I ->. unfold ans, answer. destruct PW as [-> | ->].
    - now rewrite Z.eqb_refl.
    - destruct (Z.eqb_spec (home Windows KThread) (home Posix KThread)) as [E|_]; [|now rewrite Z.eqb_refl]. discriminate (I Posix (eq_sym E)).
  Qed.
  Theorem priorities p lo hi h : (p = Posix /\ sched_ok = true) \/ p = Windows ->
    (forall k, home p k <> 0) -> (forall q, home q KThread = home p KThread -> q = p) ->
    first_range p h = Some (lo, hi) -> in_charge home KThread h = home p KThread ->
    out h ThreadHighest = (Value hi, [(home p KThread, ThreadHighest)]) /\ out h ThreadLowest = (Value lo, [(home p KThread, ThreadLowest)]) /\
    out h ThreadMax = (Value (Z.max lo hi), [(home p KThread, ThreadMax)]) /\ out h ThreadMin = (Value (Z.min lo hi), [(home p KThread, ThreadMin)]).
  Proof.
    intros PW N I FR C.
    assert (A : forall c, ans (run p_init h) (home p KThread) c = ranged other (Some (lo, hi)) (home p KThread) c).
    { intros c. rewrite (answer_ranged p) by (auto; tauto). destruct PW as [[-> SO] | ->].
      - rewrite run_posix, FR. unfold posix_ctor. now rewrite SO.
      - now rewrite run_windows, FR. }
    rewrite !out_request by (cbn; tauto). cbn [kind_of]. rewrite C, !A, (proj2 (Z.eqb_neq _ _) (N _)). cbn [ranged]. now rewrite mx, mn.
  Qed.
  (** the same when the first Posix init lost the range *)
  Theorem priorities_lost lo hi h : sched_ok = false ->
    (forall k, home Posix k <> 0) -> (forall q, home q KThread = home Posix KThread -> q = Posix) ->
    first_range Posix h = Some (lo, hi) -> in_charge home KThread h = home Posix KThread ->
    forall c, In c [ThreadHighest; ThreadLowest; ThreadMax; ThreadMin] -> out h c = (Value 0, [(home Posix KThread, c)]).
  Proof.
    intros SO N I FR C c IC.
    assert (A : forall c, ans (run p_init h) (home Posix KThread) c = ranged other (Some (0, 0)) (home Posix KThread) c).
    { intros d. rewrite (answer_ranged Posix) by auto. rewrite run_posix, FR. unfold posix_ctor. now rewrite SO. }
    cbn [In] in IC. decompose [or] IC; try tauto; subst c;
      rewrite !out_request by (cbn; tauto); cbn [kind_of]; rewrite C, !A, (proj2 (Z.eqb_neq _ _) (N _)); reflexivity.
  Qed.
  (** the platforms whose priorities are fixed *)
  Theorem fixed_priorities p h c v : (forall k, home p k <> 0) -> (forall q, home q KThread = home p KThread -> q = p) -> in_charge home KThread h = home p KThread ->
    In (c, v) (match p with
               | StdCpp | TestDouble => [(ThreadHighest, 0); (ThreadLowest, 0); (ThreadMax, 0); (ThreadMin, 0)]
               | Itron => [(ThreadHighest, tmin); (ThreadLowest, tmax); (ThreadMax, tmax); (ThreadMin, tmin)]
               | _ => []
               end) -> out h c = (Value v, [(home p KThread, c)]).
  Proof.
    intros N I C IC.
    assert (D : forall q, q <> p -> (home p KThread =? home q KThread) = false) by (intros q NE; apply Z.eqb_neq; intros E; apply NE, I; congruence).
    assert (K : kind_of c = KThread /\ request c) by (destruct p; cbn in IC; decompose [or] IC; try tauto; match goal with H : (_, _) = (_, _) |- _ => injection H as <- <- end; split; cbn; tauto).
    destruct K as (K & Q). assert (NR : ~ refused c) by (destruct c; cbn in K |- *; try discriminate K; auto; exfalso; destruct p; cbn in IC; decompose [or] IC; try tauto; discriminate).
    rewrite out_request by assumption. rewrite K, C, (proj2 (Z.eqb_neq _ _) (N _)).
    enough (ans (run p_init h) (home p KThread) c = v) as -> by reflexivity. unfold ans, answer.
    destruct p; cbn [In] in IC; try tauto; repeat (rewrite D by discriminate); rewrite Z.eqb_refl; decompose [or] IC; try tauto; match goal with H : (_, _) = (_, _) |- _ => injection H as <- <- end; reflexivity.
  Qed.
  Theorem double_threads h c : (forall k, home TestDouble k <> 0) -> (forall q, home q KThread = home TestDouble KThread -> q = TestDouble) -> in_charge home KThread h = home TestDouble KThread ->
    c = ThreadCurrent \/ (exists ms, c = ThreadSleep ms) \/ c = ThreadYield -> out h c = (Value 0, [(home TestDouble KThread, c)]).
  Proof.
    intros N I C IC.
    assert (D : forall q, q <> TestDouble -> (home TestDouble KThread =? home q KThread) = false) by (intros q NE; apply Z.eqb_neq; intros E; apply NE, I; congruence).
    assert (K : kind_of c = KThread /\ request c /\ ~ refused c) by (destruct IC as [-> |[(ms & ->)| ->]]; cbn; tauto). destruct K as (K & Q & NR).
    rewrite out_request by assumption. rewrite K, C, (proj2 (Z.eqb_neq _ _) (N _)).
    enough (ans (run p_init h) (home TestDouble KThread) c = 0) as -> by reflexivity. unfold ans, answer.
    repeat (rewrite D by discriminate). rewrite Z.eqb_refl. destruct IC as [-> |[(ms & ->)| ->]]; reflexivity.
  Qed.
  (** an object created through the facade is destroyed by the factory that made it, unless the class changed hands *)
  Theorem destroyed_by_its_maker h1 h2 c v f q : request c -> ~ refused c -> out h1 c = (Value v, [(f, c)]) -> q <> 0 ->
    Forall (keeps (kind_of c)) h2 -> out (h1 ++ Use c :: h2) (Destroy (kind_of c) q) = (Value 0, [(f, Destroy (kind_of c) q)]).
  Proof.
    intros Q R O N F. rewrite out_request in O by assumption. rewrite out_destroy by exact N.
    rewrite in_charge_keeps by (constructor; [destruct c; cbn in *; tauto|exact F]).
    destruct (in_charge home (kind_of c) h1 =? 0); [discriminate|]. now injection O as _ ->.
  Qed.
End P.
