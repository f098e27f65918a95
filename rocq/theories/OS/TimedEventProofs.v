(** How long the calls of StdCppEventFlag take. *)
From Coq Require Import List ZArith Bool Arith Lia.
Import ListNotations.
From Verif Require Import Spec.OSError Spec.Linear Spec.BitSpec Spec.EventFlagSpec Spec.TimedSpec Container.BitPatternModel OS.Sched OS.EventFlagModel OS.EventFlagProofs
  OS.TimedModel OS.TimedProofs.
Open Scope Z_scope.

Section EF.
  Variables (w : Z) (dbg ar : bool) (n : nat).
  Notation stp := (e_step w dbg ar).

  (** the prepared operation has the time limit of the call *)
  Definition op_time (c : ecall) (o : eop) : Prop :=
    match o with OWait _ _ _ tm => event_limit c = of_ms tm | _ => event_limit c = Some 0 end.
  Lemma ms_of k : match k with Forever => None | Polling => Some 0 | Within m => of_ms m end = of_ms (ms k).
  Proof. now destruct k. Qed.
  Lemma entry_time c o : ef_entry w dbg c = Go o -> op_time c o.
  Proof.
    intros E. assert (T : forall P m rel tm, timedWait_entry w dbg P m rel tm = Go o -> exists P' m' rel', o = OWait P' m' rel' tm).
    { intros P m rel tm X. unfold timedWait_entry in X. destruct m; try discriminate; destruct (b_step w dbg P BNone) as [[? []]| |]; try discriminate;
        match type of X with (if ?b then _ else _) = _ => destruct b | match ?b with true => _ | false => _ end = _ => destruct b | _ => idtac end; try discriminate;
        injection X as <-; eauto. }
    assert (W : forall r k, with_pat r k = Go o -> exists v, k v = Go o) by (intros [[v ?]| |] k X; [exists v; exact X|discriminate..]).
    destruct c as [k|pos k|P m rel k| |pos|P| |pos|P|]; cbn beta iota delta [ef_entry] in E;
      try (destruct (pat_size w dbg <=? pos); [discriminate|]);
      try (apply W in E; destruct E as (v & E));
      try (injection E as <-; reflexivity);
      destruct (T _ _ _ _ E) as (P' & m' & rel' & ->); cbn; apply ms_of.
  Qed.

  Lemma entry_reject c e : ef_entry w dbg c = Reject e -> e = InvalidParameter.
  Proof.
    intros E. assert (T : forall P m rel tm, timedWait_entry w dbg P m rel tm = Reject e -> e = InvalidParameter).
    { intros P m rel tm X. unfold timedWait_entry in X. destruct m; try (injection X as <-; reflexivity); destruct (b_step w dbg P BNone) as [[? []]| |]; try discriminate;
        match type of X with (if ?b then _ else _) = _ => destruct b | match ?b with true => _ | false => _ end = _ => destruct b | _ => idtac end; try discriminate;
        injection X as <-; reflexivity. }
    assert (W : forall r k, with_pat r k = Reject e -> exists v, k v = Reject e) by (intros [[v ?]| |] k X; [exists v; exact X|discriminate..]).
    destruct c as [k|pos k|P m rel k| |pos|P| |pos|P|]; cbn beta iota delta [ef_entry] in E;
      try (destruct (pat_size w dbg <=? pos); [injection E as <-; reflexivity|]);
      try (apply W in E; destruct E as (v & E)); try discriminate; exact (T _ _ _ _ E).
  Qed.

  Lemma ef_shape s l s' e : stp s l = Some (s', e) -> one_event (ef_who l) e.
  Proof.
    intros E. destruct l as [t c|t|t|t]; cbn beta iota delta [e_step ef_who wait_success] in E |- *; destruct (e_thr s t) as [|c'|c' o|c' o|c' o|c' o tmo|c' o tmo|r|r|r]; try discriminate;
    repeat match type of E with context [match ?x with _ => _ end] => destruct x; try discriminate end;
    injection E as <- <-; constructor.
  Qed.
  Lemma ef_other s l s' e u : stp s l = Some (s', e) -> u <> ef_who l -> e_thr s' u = e_thr s u \/ e_thr s' u = wake (e_thr s u).
  Proof.
    intros E N. destruct l as [t c|t|t|t]; cbn beta iota delta [e_step ef_who wait_success] in E, N; destruct (e_thr s t) as [|c'|c' o|c' o|c' o|c' o tmo|c' o tmo|r|r|r]; try discriminate;
    repeat match type of E with context [match ?x with _ => _ end] => destruct x; try discriminate end;
    injection E as <- <-; cbn [e_thr]; rewrite fupd_other by exact N; auto.
  Qed.
  Lemma ef_since_other (x : tst est) l u : u <> ef_who l -> (if ef_starts (t_st x) l then fupd (t_since x) (ef_who l) (t_now x) else t_since x) u = t_since x u.
  Proof. intros N. destruct (ef_starts (t_st x) l); [now rewrite fupd_other|reflexivity]. Qed.

  (** what a call in progress is about: the call and its limit, in every state of the thread before the effect *)
  Definition pc_time (c : ecall) (q : epc) : Prop :=
    match q with
    | EIdle => False
    | EEntry d => d = c
    | EAcq d o | EBody d o | EAsleep d o | EWoken d o _ | EEval d o _ => d = c /\ op_time c o
    | _ => True
    end.
  Lemma pc_time_wake c q : pc_time c q -> pc_time c (wake q).
  Proof. destruct q; cbn; auto. Qed.
  Lemma pc_time_own s l s' e c : stp s l = Some (s', e) -> pc_time c (e_thr s (ef_who l)) ->
    (forall y, In y e -> about (ef_who l) y = false) -> pc_time c (e_thr s' (ef_who l)).
  Proof.
    intros E P HR. destruct l as [t d|t|t|t]; cbn beta iota delta [e_step ef_who wait_success] in E, P, HR |- *; destruct (e_thr s t) as [|c'|c' o|c' o|c' o|c' o tmo|c' o tmo|r|r|r]; try discriminate; try contradiction;
    repeat match type of E with context [match ?x with _ => _ end] => destruct x eqn:?; try discriminate end;
    injection E as <- <-; cbn [e_thr]; rewrite fupd_same; try exact I; cbn in P |- *; subst; auto.
    - split; [reflexivity|]. now apply entry_time.
    - specialize (HR _ (or_introl eq_refl)). cbn in HR. rewrite Nat.eqb_refl in HR. discriminate.
  Qed.

  (** ** not early *)
  Definition passed (c : ecall) (t0 now : Z) : Prop := exists m, event_limit c = Some m /\ t0 + wait_ms m <= now.
  Definition eE (x : tst est) (t : nat) (t0 : Z) (c : ecall) : Prop :=
    t0 <= t_now x /\ pc_time c (e_thr (t_st x) t) /\
    match e_thr (t_st x) t with
    | EAsleep _ _ | EWoken _ _ false | EEval _ _ false => t0 <= t_since x t
    | EWoken _ _ true | EEval _ _ true => passed c t0 (t_now x)
    | ENotify r | EUnlock r | ERet r => event_timed_out r -> passed c t0 (t_now x)
    | _ => True
    end.
  Lemma not_out e v : e <> TimedOut -> ~ event_timed_out (ERes e v).
  Proof. intros N (y & Y). injection Y. congruence. Qed.
  Theorem ef_not_early may_tick ls x es : exec (ef_timed w dbg ar n may_tick) (t_init e_init) ls = Some (x, es) ->
    not_early event_limit event_timed_out es.
  Proof.
    intros E.
    destruct (timed_calls est elab ecall eres stp ef_who n ef_starts ef_expiry may_tick (fun _ => True) (fun _ => True) eE
      (fun t t0 c t1 r => event_timed_out r -> passed c t0 t1)) with (x0 := @t_init est e_init) (ls := ls) (x := x) (es := es) as (_ & H).
    - exact ef_shape.
    - intros y l y' t c _ _ S. apply t_act_inv in S. destruct S as (_ & _ & s' & e & S & EQ & ->).
      destruct e as [|e [|? ?]]; try discriminate. injection EQ as <-. unfold eE. cbn [t_st t_now t_since]. split; [lia|].
      destruct l as [u d|u|u|u].
      { cbn beta iota delta [e_step] in S. destruct (e_thr (t_st y) u) as [|c'|c' o|c' o|c' o|c' o tmo|c' o tmo|r|r|r]; try discriminate.
        injection S as <- -> ->. cbn [e_thr]. rewrite fupd_same. cbn. auto. }
      all: exfalso; pose proof (ef_shape _ _ _ _ S) as SH; cbn beta iota delta [e_step wait_success] in S; destruct (e_thr (t_st y) u) as [|c'|c' o|c' o|c' o|c' o tmo|c' o tmo|r|r|r]; try discriminate;
        repeat match type of S with context [match ?x with _ => _ end] => destruct x; try discriminate end.
    - intros y l y' es' t t0 c _ _ (T0 & Pt & K) S HR. apply t_act_inv in S. destruct S as (_ & X & s' & e & S & -> & ->).
      unfold eE. cbn [t_st t_now t_since]. split; [exact T0|].
      assert (HR' : forall y, In y e -> about t y = false) by (intros z Z; apply (HR (t_now y, z)); apply in_map_iff; eauto). clear HR.
      destruct (Nat.eq_dec t (ef_who l)) as [->|N].
      2:{ rewrite (ef_since_other y l t N). destruct (ef_other _ _ _ _ _ S N) as [-> | ->]; (split; [auto using pc_time_wake|]); [exact K|].
          destruct (e_thr (t_st y) t) as [| | | | |? ? []|? ? []| | |]; cbn; auto. }
      split; [eapply pc_time_own; eauto|].
      destruct l as [u d|u|u|u]; cbn beta iota delta [e_step ef_who ef_starts ef_expiry wait_success] in S, X, Pt, K, HR' |- *;
        destruct (e_thr (t_st y) u) as [|c'|c' o|c' o|c' o|c' o tmo|c' o tmo|r|r|r] eqn:Q; try discriminate; try contradiction;
      repeat match type of S with context [match ?x with _ => _ end] => destruct x eqn:?; try discriminate end; injection S as <- <-; cbn [e_thr]; rewrite fupd_same;
        try exact I; try exact K; try (intros TO; exfalso; revert TO; apply not_out; congruence); try (intros (z & Z); discriminate).
      all: try (rewrite fupd_same; exact T0).
      all: try (intros _; exact K).
      + rewrite (entry_reject _ _ Heqe0). intros (z & Z). discriminate.
      + destruct Pt as (-> & OT). cbn in OT. unfold of_ms in OT. change FOREVER with (-1) in Heqb. rewrite Heqb in OT. specialize (X tmout eq_refl).
        exists tmout. split; [exact OT|]. unfold wait_ms. lia.
    - intros y y' es' t t0 c _ (T0 & Pt & K) S. apply t_tick_inv in S. destruct S as (_ & _ & ->). unfold eE. cbn [t_st t_now t_since]. split; [lia|]. split; [exact Pt|].
      assert (PA : passed c t0 (t_now y) -> passed c t0 (t_now y + 1)) by (intros (m & A & B); exists m; split; [exact A|lia]).
      destruct (e_thr (t_st y) t) as [| | | | |? ? []|? ? []| | |]; auto.
    - intros y l y' t t0 c r _ _ (T0 & Pt & K) S. apply t_act_inv in S. destruct S as (_ & X & s' & e & S & EQ & ->).
      destruct e as [|e [|? ?]]; try discriminate. injection EQ as <-.
      destruct l as [u d|u|u|u]; cbn beta iota delta [e_step wait_success] in S; destruct (e_thr (t_st y) u) as [|c'|c' o|c' o|c' o|c' o tmo|c' o tmo|r'|r'|r'] eqn:Q; try discriminate;
      repeat match type of S with context [match ?x with _ => _ end] => destruct x; try discriminate end.
      injection S as _ -> ->. rewrite Q in K. exact K.
    - auto.
    - intros a b y e _ _. exact I.
    - exact E.
    - exact H.
  Qed.

  (** ** not late *)
  Hypothesis Hw : 0 < w.
  Notation ustep := (ef_timed w dbg ar n (ef_urgent w dbg ar n)).
  Notation x0 := (t_init e_init).
  Definition good (x : tst est) : Prop := (exists es, einv w ar (t_st x) es) /\ forall t, (n <= t)%nat -> e_idle (t_st x) t.
  Lemma ef_good ls x es : (forall l, In (TAct l) ls -> label_ok w l) -> exec ustep x0 ls = Some (x, es) -> good x.
  Proof.
    intros HL E. split.
    - exists (map snd es). apply (einv_reach w Hw dbg ar (acts elab ls)); [|exact (timed_exec _ _ _ _ _ _ _ _ _ _ _ _ _ _ E)].
      intros l Hl. unfold acts in Hl. apply in_flat_map in Hl. destruct Hl as ([m|] & Hm & K); [destruct K as [<-|[]]; now apply HL|destruct K].
    - revert E. apply (exec_inv_st _ _ _ ustep (fun x => forall t, (n <= t)%nat -> e_idle (t_st x) t)); [|intros t _; reflexivity].
      intros y l y' es' H S t Lt. unfold ef_timed in S. destruct l as [l|].
      + apply t_act_inv in S. destruct S as (W & _ & s' & e & S & _ & ->). unfold e_idle. cbn [t_st]. pose proof (H t Lt) as D. unfold e_idle in D.
        destruct (ef_other _ _ _ _ t S) as [-> | ->]; [lia|exact D|]. now rewrite D.
      + apply t_tick_inv in S. destruct S as (_ & _ & ->). exact (H t Lt).
  Qed.
  Lemma ef_tick_shape x : good x -> ef_urgent w dbg ar n x = true ->
    forall t, e_idle (t_st x) t \/ exists c P m rel tm, e_thr (t_st x) t = EAsleep c (OWait P m rel tm) /\ (tm <> -1 -> t_now x < t_since x t + tm).
  Proof.
    intros ((es & I) & ID) U. unfold ef_urgent, urgent in U. pose proof (forallb_seq _ _ U) as U'. cbn beta in U'. clear U.
    assert (ST : forall t, stp (t_st x) (LStep t) = None).
    { intros t. destruct (le_lt_dec n t) as [G|G]; [cbn; now rewrite (ID t G)|]. specialize (U' t G). destruct (stp (t_st x) (LStep t)); [discriminate|reflexivity]. }
    intros t. destruct (le_lt_dec n t) as [G|G]; [left; now apply ID|].
    destruct (ef_stuck_shape w Hw dbg ar (t_st x) es I ST t) as [B|(c & P & m & rel & tm & A & _ & _)]; [now left|right].
    exists c, P, m, rel, tm. split; [exact A|]. intros N.
    specialize (U' t G). rewrite ST in U'. cbn [andb e_step] in U'. rewrite A in U'. change FOREVER with (-1) in U'. destruct (Z.eqb_spec tm (-1)) as [|_]; [contradiction|].
    unfold due, ef_expiry in U'. rewrite A in U'. cbn [ef_who] in U'. apply negb_true_iff in U'. apply Z.leb_gt in U'. lia.
  Qed.

  Definition eL (x : tst est) (t : nat) (t0 : Z) (c : ecall) : Prop :=
    t0 <= t_now x /\ pc_time c (e_thr (t_st x) t) /\
    match e_thr (t_st x) t with
    | EEntry _ | EAcq _ _ | EBody _ _ => t_now x = t0
    | EAsleep _ _ | EWoken _ _ _ | EEval _ _ _ => t_since x t = t0
    | _ => True
    end /\ forall m, event_limit c = Some m -> t_now x <= t0 + wait_ms m.
  Theorem ef_not_late ls x es : (forall l, In (TAct l) ls -> label_ok w l) -> exec ustep x0 ls = Some (x, es) -> not_late event_limit 1 (t_now x) es.
  Proof.
    intros HL E.
    destruct (timed_calls est elab ecall eres stp ef_who n ef_starts ef_expiry (ef_urgent w dbg ar n) (label_ok w) good eL
      (fun t t0 c t1 r => forall m, event_limit c = Some m -> t0 <= t1 <= t0 + wait_ms m)) with (x0 := @t_init est e_init) (ls := ls) (x := x) (es := es) as (HP & H).
    - exact ef_shape.
    - intros y l y' t c _ _ S. apply t_act_inv in S. destruct S as (_ & _ & s' & e & S & EQ & ->).
      destruct e as [|e [|? ?]]; try discriminate. injection EQ as <-. unfold eL. cbn [t_st t_now t_since]. split; [lia|].
      destruct l as [u d|u|u|u].
      { cbn beta iota delta [e_step] in S. destruct (e_thr (t_st y) u) as [|c'|c' o|c' o|c' o|c' o tmo|c' o tmo|r|r|r]; try discriminate.
        injection S as <- -> ->. cbn [e_thr]. rewrite fupd_same. cbn. split; [reflexivity|]. split; [reflexivity|]. intros m _. unfold wait_ms. lia. }
      all: exfalso; cbn beta iota delta [e_step wait_success] in S; destruct (e_thr (t_st y) u) as [|c'|c' o|c' o|c' o|c' o tmo|c' o tmo|r|r|r]; try discriminate;
        repeat match type of S with context [match ?x with _ => _ end] => destruct x; try discriminate end.
    - intros y l y' es' t t0 c _ _ (T0 & Pt & K & Pl) S HR. apply t_act_inv in S. destruct S as (_ & X & s' & e & S & -> & ->).
      unfold eL. cbn [t_st t_now t_since]. split; [exact T0|].
      assert (HR' : forall y, In y e -> about t y = false) by (intros z Z; apply (HR (t_now y, z)); apply in_map_iff; eauto). clear HR.
      destruct (Nat.eq_dec t (ef_who l)) as [->|N].
      2:{ rewrite (ef_since_other y l t N). destruct (ef_other _ _ _ _ _ S N) as [-> | ->]; (split; [auto using pc_time_wake|]); (split; [|exact Pl]); [exact K|].
          destruct (e_thr (t_st y) t); cbn; auto. }
      split; [eapply pc_time_own; eauto|]. split; [|exact Pl].
      destruct l as [u d|u|u|u]; cbn beta iota delta [e_step ef_who ef_starts ef_expiry wait_success] in S, X, Pt, K, HR' |- *;
        destruct (e_thr (t_st y) u) as [|c'|c' o|c' o|c' o|c' o tmo|c' o tmo|r|r|r] eqn:Q; try discriminate; try contradiction;
      repeat match type of S with context [match ?x with _ => _ end] => destruct x eqn:?; try discriminate end; injection S as <- <-; cbn [e_thr]; rewrite fupd_same;
        try exact I; try exact K.
      all: rewrite fupd_same; exact K.
    - intros y y' es' t t0 c G (T0 & Pt & K & Pl) S. apply t_tick_inv in S. destruct S as (U & _ & ->). unfold eL. cbn [t_st t_now t_since]. split; [lia|]. split; [exact Pt|].
      destruct (ef_tick_shape y G U t) as [Y|(d & P & m & rel & tm & Y & B)]; [unfold e_idle in Y|]; rewrite Y in *; [contradiction|]. split; [exact K|].
      destruct Pt as (-> & OT). cbn in OT. intros k Lk. rewrite OT in Lk. unfold of_ms in Lk. destruct (Z.eqb_spec tm (-1)) as [|NE]; [discriminate|].
      injection Lk as <-. specialize (B NE). unfold wait_ms. lia.
    - intros y l y' t t0 c r _ _ (T0 & Pt & _ & Pl) _ m Lm. specialize (Pl m Lm). lia.
    - exact HL.
    - intros ls1 ls2 x1 e1 -> E1. apply (ef_good ls1 x1 e1); [|exact E1]. intros l Hl. apply HL. apply in_or_app. now left.
    - exact E.
    - split; [intros t t0 c m t1 r T Lm; specialize (H _ _ _ _ _ T m Lm); lia|].
      intros t t0 c m T Lm. destruct (HP _ _ _ T) as (A & _ & _ & B). specialize (B m Lm). lia.
  Qed.
  (** the clock never stops *)
  Theorem ef_time_goes_on ls0 x es0 : (forall l, In (TAct l) ls0 -> label_ok w l) -> exec ustep x0 ls0 = Some (x, es0) ->
    exists ls x1 es1, (length ls <= n * (8 + 2 * n))%nat /\ exec ustep x ls = Some (x1, es1) /\ t_now x1 = t_now x /\
      ustep x1 TTick = Some (mkT (t_st x1) (t_now x + 1) (t_since x1), []).
  Proof.
    intros HL E. destruct (ef_good ls0 x es0 HL E) as (_ & ID).
    apply (clock_advances est elab ecall eres stp ef_who n ef_starts ef_expiry LStep LTimeout (fun _ => eq_refl) (fun _ => eq_refl) (fun _ _ => eq_refl) (n * (8 + 2 * n)) x).
    intros ls s' es O X. apply (ef_terminates_bound w dbg ar n (t_st x) ls s' es); [exact ID| |exact X].
    intros l Hl. destruct (O l Hl) as (t & [-> | ->]); exact I.
  Qed.
End EF.
