(** How long the calls of ItronEventFlag take. *)
From Coq Require Import List ZArith Bool Arith Lia.
Import ListNotations.
From Verif Require Import Spec.OSError Spec.Linear Spec.BitSpec Spec.EventFlagSpec Spec.TimedSpec Container.BitPatternModel OS.Sched OS.EventFlagModel OS.EventFlagProofs
  OS.ItronEventFlagModel OS.ItronEventFlagProofs OS.TimedModel OS.TimedProofs OS.TimedEventProofs OS.TimedItronModel.
Open Scope Z_scope.

Section IF.
  Variables (w wf : Z) (dbg ar : bool) (n : nat).
  Notation stp := (f_step w wf dbg ar).

  Lemma release_events : forall q p thr p' thr' q' es', k_release w wf ar p thr q = (p', thr', q', es') ->
    (forall e, In e es' -> exists u c r, e = Eff u c r) /\
    forall u, thr' u = thr u \/ exists c o rel p1, thr u = FQueued c o /\ thr' u = FRet (f_ok w rel p1).
  Proof.
    induction q as [|t q IH]; intros p thr p' thr' q' es' E; cbn [k_release] in E.
    - injection E as <- <- <- <-. split; [intros e []|now left].
    - assert (KEEP : forall p2 thr2 q2 es2, k_release w wf ar p thr q = (p2, thr2, q2, es2) ->
        (forall e, In e es2 -> exists u c r, e = Eff u c r) /\ forall u, thr2 u = thr u \/ exists c o rel p1, thr u = FQueued c o /\ thr2 u = FRet (f_ok w rel p1)).
      { intros p2 thr2 q2 es2 E2. exact (IH _ _ _ _ _ _ E2). }
      destruct (thr t) as [|d|d o|d o|r] eqn:Ht; [| | |destruct o as [P m rel tm| | |]; [destruct (k_cond (flgptn wf P) m p)| | |]|];
        try (destruct (k_release w wf ar p thr q) as [[[p2 thr2] q2] es2] eqn:E2; injection E as <- <- <- <-; now apply KEEP with (1 := eq_refl)).
      destruct (k_release w wf ar (k_clear ar p) (fupd thr t (FRet (f_ok w rel p))) q) as [[[p2 thr2] q2] es2] eqn:E2. injection E as <- <- <- <-.
      destruct (IH _ _ _ _ _ _ E2) as (A & B). split.
      + intros e [<-|H]; [eauto|auto].
      + intros u. pose proof (B u) as B1. clear B. rename B1 into B. rewrite fupd_eq in B. destruct (Nat.eqb_spec u t) as [EU|]; [|exact B].
        right. destruct B as [B|(c & o & rel' & p1 & X & _)]; [|discriminate]. rewrite EU, Ht; rewrite EU in B; rewrite B. repeat eexists.
  Qed.
  Lemma if_shape s l s' e : stp s l = Some (s', e) -> one_event (if_who l) e.
  Proof.
    intros E. destruct l as [t c|t k|t]; cbn beta iota delta [f_step if_who f_done] in E |- *; destruct (f_thr s t) as [|d|d o|d o|r]; try discriminate;
    try (destruct o as [P m rel tm|P|P|]; try discriminate);
    try (destruct (k_release w wf ar (Z.lor (f_ptn s) (flgptn wf P)) (f_thr s) (f_queue s)) as [[[p' thr'] q'] es1] eqn:ER; injection E as <- <-;
         apply oe_effs; intros e [<-|H]; [eauto|exact (proj1 (release_events _ _ _ _ _ _ _ ER) e H)]);
    repeat match type of E with context [match ?x with _ => _ end] => destruct x; try discriminate end;
    injection E as <- <-; constructor.
  Qed.
  Lemma if_other s l s' e u : stp s l = Some (s', e) -> u <> if_who l ->
    f_thr s' u = f_thr s u \/ exists c o rel p, f_thr s u = FQueued c o /\ f_thr s' u = FRet (f_ok w rel p).
  Proof.
    intros E N. destruct l as [t c|t k|t]; cbn beta iota delta [f_step if_who f_done] in E, N; destruct (f_thr s t) as [|d|d o|d o|r]; try discriminate;
    try (destruct o as [P m rel tm|P|P|]; try discriminate);
    try (destruct (k_release w wf ar (Z.lor (f_ptn s) (flgptn wf P)) (f_thr s) (f_queue s)) as [[[p' thr'] q'] es1] eqn:ER; injection E as <- <-;
         cbn [f_thr]; rewrite fupd_other by exact N; exact (proj2 (release_events _ _ _ _ _ _ _ ER) u));
    repeat match type of E with context [match ?x with _ => _ end] => destruct x; try discriminate end;
    injection E as <- <-; cbn; rewrite fupd_other by exact N; auto.
  Qed.
  Lemma if_since_other (x : tst ifst) l u : u <> if_who l -> (if if_starts (t_st x) l then fupd (t_since x) (if_who l) (t_now x) else t_since x) u = t_since x u.
  Proof. intros N. destruct (if_starts (t_st x) l); [now rewrite fupd_other|reflexivity]. Qed.
  Lemma if_call s l s' t c : stp s l = Some (s', [Call t c]) -> l = FCall t c.
  Proof.
    intros E. destruct l as [u d|u k|u]; cbn beta iota delta [f_step f_done] in E; destruct (f_thr s u) as [|d'|d' o|d' o|r]; try discriminate;
    try (destruct o as [P m rel tm|P|P|]; try discriminate);
    try (destruct (k_release w wf ar (Z.lor (f_ptn s) (flgptn wf P)) (f_thr s) (f_queue s)) as [[[p' thr'] q'] es1]; discriminate);
    repeat match type of E with context [match ?x with _ => _ end] => destruct x; try discriminate end.
    all: now injection E as _ -> ->.
  Qed.
  Lemma if_ret s l s' t r : stp s l = Some (s', [Ret t r]) -> f_thr s t = FRet r.
  Proof.
    intros E. destruct l as [u d|u k|u]; cbn beta iota delta [f_step f_done] in E; destruct (f_thr s u) as [|d'|d' o|d' o|r'] eqn:Q; try discriminate;
    try (destruct o as [P m rel tm|P|P|]; try discriminate);
    try (destruct (k_release w wf ar (Z.lor (f_ptn s) (flgptn wf P)) (f_thr s) (f_queue s)) as [[[p' thr'] q'] es1]; discriminate);
    repeat match type of E with context [match ?x with _ => _ end] => destruct x; try discriminate end.
    all: injection E as _ <- <-; exact Q.
  Qed.

  Definition fpc_time (c : ecall) (q : ifpc) : Prop :=
    match q with
    | FIdle => False
    | FEntry d => d = c
    | FKern d o | FQueued d o => d = c /\ op_time c o
    | FRet _ => True
    end.
  Lemma fpc_time_own s l s' e c : stp s l = Some (s', e) -> fpc_time c (f_thr s (if_who l)) ->
    (forall y, In y e -> about (if_who l) y = false) -> fpc_time c (f_thr s' (if_who l)).
  Proof.
    intros E P HR. destruct l as [t d|t k|t]; cbn beta iota delta [f_step if_who f_done] in E, P, HR |- *; destruct (f_thr s t) as [|d'|d' o|d' o|r]; try discriminate; try contradiction;
    try (destruct o as [Q m rel tm|Q|Q|]; try discriminate);
    try (destruct (k_release w wf ar (Z.lor (f_ptn s) (flgptn wf Q)) (f_thr s) (f_queue s)) as [[[p' thr'] q'] es1]; injection E as <- <-; cbn [f_thr]; rewrite fupd_same; exact I);
    repeat match type of E with context [match ?x with _ => _ end] => destruct x eqn:?; try discriminate end;
    injection E as <- <-; cbn [f_go f_thr]; rewrite fupd_same; try exact I; cbn in P |- *; subst; auto.
    - split; [reflexivity|]. now apply (entry_time w dbg).
    - specialize (HR _ (or_introl eq_refl)). cbn in HR. rewrite Nat.eqb_refl in HR. discriminate.
  Qed.

  (** ** not early *)
  Definition fE (x : tst ifst) (t : nat) (t0 : Z) (c : ecall) : Prop :=
    t0 <= t_now x /\ fpc_time c (f_thr (t_st x) t) /\
    match f_thr (t_st x) t with
    | FQueued _ _ => t0 <= t_since x t
    | FRet r => event_timed_out r -> passed c t0 (t_now x)
    | _ => True
    end.
  Lemma ok_not_out rel p : ~ event_timed_out (f_ok w rel p).
  Proof. intros (v & V). discriminate. Qed.
  Theorem if_not_early may_tick ls x es : exec (if_timed w wf dbg ar n may_tick) (t_init f_init) ls = Some (x, es) ->
    not_early event_limit event_timed_out es.
  Proof.
    intros E.
    destruct (timed_calls ifst iflab ecall eres stp if_who n if_starts if_expiry may_tick (fun _ => True) (fun _ => True) fE
      (fun t t0 c t1 r => event_timed_out r -> passed c t0 t1)) with (x0 := @t_init ifst f_init) (ls := ls) (x := x) (es := es) as (_ & H).
    - exact if_shape.
    - intros y l y' t c _ _ S. apply t_act_inv in S. destruct S as (_ & _ & s' & e & S & EQ & ->).
      destruct e as [|e [|? ?]]; try discriminate. injection EQ as <-. unfold fE. cbn [t_st t_now t_since]. split; [lia|].
      pose proof (if_call _ _ _ _ _ S) as ->. cbn beta iota delta [f_step] in S. destruct (f_thr (t_st y) t); try discriminate.
      injection S as <-. cbn [f_go f_thr]. rewrite fupd_same. cbn. auto.
    - intros y l y' es' t t0 c _ _ (T0 & Pt & K) S HR. apply t_act_inv in S. destruct S as (_ & X & s' & e & S & -> & ->).
      unfold fE. cbn [t_st t_now t_since]. split; [exact T0|].
      assert (HR' : forall y, In y e -> about t y = false) by (intros z Z; apply (HR (t_now y, z)); apply in_map_iff; eauto). clear HR.
      destruct (Nat.eq_dec t (if_who l)) as [->|N].
      2:{ rewrite (if_since_other y l t N). destruct (if_other _ _ _ _ _ S N) as [-> |(d & o & rel & p & _ & ->)]; [split; [exact Pt|exact K]|].
          split; [exact I|]. intros TO. elim (ok_not_out _ _ TO). }
      split; [eapply fpc_time_own; eauto|].
      destruct l as [u d|u k|u]; cbn beta iota delta [f_step if_who if_starts if_expiry f_done] in S, X, Pt, K, HR' |- *;
        destruct (f_thr (t_st y) u) as [|d'|d' o|d' o|r] eqn:Q; try discriminate; try contradiction;
      try (destruct o as [P m rel tm|P|P|]; try discriminate);
      try (destruct (k_release w wf ar (Z.lor (f_ptn (t_st y)) (flgptn wf P)) (f_thr (t_st y)) (f_queue (t_st y))) as [[[p' thr'] q'] es1]; injection S as <- <-;
           cbn [f_thr]; rewrite fupd_same; intros TO; exfalso; revert TO; apply not_out; congruence);
      repeat match type of S with context [match ?x with _ => _ end] => destruct x eqn:?; try discriminate end; injection S as <- <-; cbn [f_go f_thr]; rewrite fupd_same;
        try exact I; try exact K; try (intros TO; exfalso; revert TO; first [apply not_out; congruence|apply ok_not_out|intros (z & Z); discriminate]).
      + match goal with h : if_entry _ _ _ = Reject _ |- _ => rewrite if_entry_eq in h; rewrite (entry_reject w dbg _ _ h) end. intros (z & Z). discriminate.
      + intros _. destruct Pt as (-> & OT). cbn in OT. match goal with h : (tm =? 0) = true |- _ => apply Z.eqb_eq in h; subst tm end.
        exists 0. split; [exact OT|]. unfold wait_ms. lia.
      + rewrite fupd_same. exact T0.
      + intros _. destruct Pt as (-> & OT). cbn in OT. unfold of_ms in OT. match goal with h : (tm =? -1) = false |- _ => rewrite h in OT end. specialize (X tm eq_refl).
        exists tm. split; [exact OT|]. unfold wait_ms. lia.
    - intros y y' es' t t0 c _ (T0 & Pt & K) S. apply t_tick_inv in S. destruct S as (_ & _ & ->). unfold fE. cbn [t_st t_now t_since]. split; [lia|]. split; [exact Pt|].
      assert (PA : passed c t0 (t_now y) -> passed c t0 (t_now y + 1)) by (intros (m & A & B); exists m; split; [exact A|lia]).
      destruct (f_thr (t_st y) t); auto.
    - intros y l y' t t0 c r _ _ (T0 & Pt & K) S. apply t_act_inv in S. destruct S as (_ & X & s' & e & S & EQ & ->).
      destruct e as [|e [|? ?]]; try discriminate. injection EQ as <-. rewrite (if_ret _ _ _ _ _ S) in K. exact K.
    - auto.
    - intros a b y e _ _. exact I.
    - exact E.
    - exact H.
  Qed.

  (** ** not late *)
  Hypothesis Hw : 0 < w.
  Hypothesis Hwf : w <= wf.
  Notation ustep := (if_timed w wf dbg ar n (if_urgent w wf dbg ar n)).
  Notation x0 := (t_init f_init).
  Definition if_good (x : tst ifst) : Prop := (exists es, finv w ar (t_st x) es) /\ forall t, (n <= t)%nat -> f_idle (t_st x) t.
  Lemma if_good_reach ls x es : (forall l, In (TAct l) ls -> f_label_ok w l) -> exec ustep x0 ls = Some (x, es) -> if_good x.
  Proof.
    intros HL E. split.
    - exists (map snd es). apply (finv_reach w wf Hw Hwf dbg ar (acts iflab ls)); [|exact (timed_exec _ _ _ _ _ _ _ _ _ _ _ _ _ _ E)].
      intros l Hl. unfold acts in Hl. apply in_flat_map in Hl. destruct Hl as ([m|] & Hm & K); [destruct K as [<-|[]]; now apply HL|destruct K].
    - revert E. apply (exec_inv_st _ _ _ ustep (fun x => forall t, (n <= t)%nat -> f_idle (t_st x) t)); [|intros t _; reflexivity].
      intros y l y' es' H S t Lt. unfold if_timed in S. destruct l as [l|].
      + apply t_act_inv in S. destruct S as (W & _ & s' & e & S & _ & ->). unfold f_idle. cbn [t_st]. pose proof (H t Lt) as D. unfold f_idle in D.
        destruct (if_other _ _ _ _ t S) as [-> |(c & o & rel & p & X & _)]; [lia|exact D|]. rewrite D in X. discriminate.
      + apply t_tick_inv in S. destruct S as (_ & _ & ->). exact (H t Lt).
  Qed.
  Lemma if_stuck s es t k : finv w ar s es -> stp s (FStep t k) = None ->
    f_idle s t \/ exists c P m rel tm, f_thr s t = FQueued c (OWait P m rel tm).
  Proof.
    intros [_ _ _ I4 _] ST. pose proof (I4 t) as K. unfold f_idle. cbn [f_step] in ST. unfold f_done in ST. destruct (f_thr s t) as [|c|c o|c o|r] eqn:Ht.
    - now left.
    - exfalso. rewrite if_entry_eq in ST. pose proof (entry_ok w Hw dbg ar c (proj1 K)). destruct (ef_entry w dbg c); [discriminate|discriminate|contradiction].
    - exfalso. destruct o as [P m rel tm|P|P|]; try discriminate.
      + destruct (flgptn wf P =? 0); [discriminate|]. destruct (k_cond (flgptn wf P) m (f_ptn s)); [discriminate|]. destruct (tm =? 0); discriminate.
      + destruct (k_release w wf ar (Z.lor (f_ptn s) (flgptn wf P)) (f_thr s) (f_queue s)) as [[[? ?] ?] ?]. discriminate.
    - right. destruct K as (c' & P & m & rel & tm & EQ & _). injection EQ as -> ->. now exists c', P, m, rel, tm.
    - discriminate.
  Qed.
  Lemma if_tick_shape x : if_good x -> if_urgent w wf dbg ar n x = true ->
    forall t, f_idle (t_st x) t \/ exists c P m rel tm, f_thr (t_st x) t = FQueued c (OWait P m rel tm) /\ (tm <> -1 -> t_now x < t_since x t + tm).
  Proof.
    intros ((es & I) & ID) U. unfold if_urgent, urgent in U. pose proof (forallb_seq _ _ U) as U'. cbn beta in U'. clear U.
    intros t. destruct (le_lt_dec n t) as [G|G]; [left; now apply ID|]. specialize (U' t G).
    destruct (stp (t_st x) (FStep t 0)) eqn:ST; [discriminate|]. destruct (if_stuck _ _ _ _ I ST) as [B|(c & P & m & rel & tm & A)]; [now left|right].
    exists c, P, m, rel, tm. split; [exact A|]. intros N.
    cbn [andb f_step] in U'. rewrite A in U'. destruct (Z.eqb_spec tm (-1)) as [|_]; [contradiction|].
    unfold due, if_expiry in U'. rewrite A in U'. cbn [if_who] in U'. apply negb_true_iff in U'. apply Z.leb_gt in U'. lia.
  Qed.

  Definition fL (x : tst ifst) (t : nat) (t0 : Z) (c : ecall) : Prop :=
    t0 <= t_now x /\ fpc_time c (f_thr (t_st x) t) /\
    match f_thr (t_st x) t with
    | FEntry _ | FKern _ _ => t_now x = t0
    | FQueued _ _ => t_since x t = t0
    | _ => True
    end /\ forall m, event_limit c = Some m -> t_now x <= t0 + wait_ms m.
  Theorem if_not_late ls x es : (forall l, In (TAct l) ls -> f_label_ok w l) -> exec ustep x0 ls = Some (x, es) -> not_late event_limit 1 (t_now x) es.
  Proof.
    intros HL E.
    destruct (timed_calls ifst iflab ecall eres stp if_who n if_starts if_expiry (if_urgent w wf dbg ar n) (f_label_ok w) if_good fL
      (fun t t0 c t1 r => forall m, event_limit c = Some m -> t0 <= t1 <= t0 + wait_ms m)) with (x0 := @t_init ifst f_init) (ls := ls) (x := x) (es := es) as (HP & H).
    - exact if_shape.
    - intros y l y' t c _ _ S. apply t_act_inv in S. destruct S as (_ & _ & s' & e & S & EQ & ->).
      destruct e as [|e [|? ?]]; try discriminate. injection EQ as <-. unfold fL. cbn [t_st t_now t_since]. split; [lia|].
      pose proof (if_call _ _ _ _ _ S) as ->. cbn beta iota delta [f_step] in S. destruct (f_thr (t_st y) t); try discriminate.
      injection S as <-. cbn [f_go f_thr]. rewrite fupd_same. cbn. split; [reflexivity|]. split; [reflexivity|]. intros m _. unfold wait_ms. lia.
    - intros y l y' es' t t0 c _ _ (T0 & Pt & K & Pl) S HR. apply t_act_inv in S. destruct S as (_ & X & s' & e & S & -> & ->).
      unfold fL. cbn [t_st t_now t_since]. split; [exact T0|].
      assert (HR' : forall y, In y e -> about t y = false) by (intros z Z; apply (HR (t_now y, z)); apply in_map_iff; eauto). clear HR.
      destruct (Nat.eq_dec t (if_who l)) as [->|N].
      2:{ rewrite (if_since_other y l t N). destruct (if_other _ _ _ _ _ S N) as [-> |(d & o & rel & p & _ & ->)]; [split; [exact Pt|split; [exact K|exact Pl]]|].
          split; [exact I|]. split; [exact I|exact Pl]. }
      split; [eapply fpc_time_own; eauto|]. split; [|exact Pl].
      destruct l as [u d|u k|u]; cbn beta iota delta [f_step if_who if_starts if_expiry f_done] in S, X, Pt, K, HR' |- *;
        destruct (f_thr (t_st y) u) as [|d'|d' o|d' o|r] eqn:Q; try discriminate; try contradiction;
      try (destruct o as [P m rel tm|P|P|]; try discriminate);
      try (destruct (k_release w wf ar (Z.lor (f_ptn (t_st y)) (flgptn wf P)) (f_thr (t_st y)) (f_queue (t_st y))) as [[[p' thr'] q'] es1]; injection S as <- <-;
           cbn [f_thr]; rewrite fupd_same; exact I);
      repeat match type of S with context [match ?x with _ => _ end] => destruct x eqn:?; try discriminate end; injection S as <- <-; cbn [f_go f_thr]; rewrite fupd_same;
        try exact I; try exact K.
      all: rewrite fupd_same; exact K.
    - intros y y' es' t t0 c G (T0 & Pt & K & Pl) S. apply t_tick_inv in S. destruct S as (U & _ & ->). unfold fL. cbn [t_st t_now t_since]. split; [lia|]. split; [exact Pt|].
      destruct (if_tick_shape y G U t) as [Y|(d & P & m & rel & tm & Y & B)]; [unfold f_idle in Y|]; rewrite Y in *; [contradiction|]. split; [exact K|].
      destruct Pt as (-> & OT). cbn in OT. intros k Lk. rewrite OT in Lk. unfold of_ms in Lk. destruct (Z.eqb_spec tm (-1)) as [|NE]; [discriminate|].
      injection Lk as <-. specialize (B NE). unfold wait_ms. lia.
    - intros y l y' t t0 c r _ _ (T0 & Pt & _ & Pl) _ m Lm. specialize (Pl m Lm). lia.
    - exact HL.
    - intros ls1 ls2 x1 e1 -> E1. apply (if_good_reach ls1 x1 e1); [|exact E1]. intros l Hl. apply HL. apply in_or_app. now left.
    - exact E.
    - split; [intros t t0 c m t1 r T Lm; specialize (H _ _ _ _ _ T m Lm); lia|].
      intros t t0 c m T Lm. destruct (HP _ _ _ T) as (A & _ & _ & B). specialize (B m Lm). lia.
  Qed.
  (** the clock never stops *)
  Theorem if_time_goes_on ls0 x es0 : (forall l, In (TAct l) ls0 -> f_label_ok w l) -> exec ustep x0 ls0 = Some (x, es0) ->
    exists ls x1 es1, (length ls <= 4 * n)%nat /\ exec ustep x ls = Some (x1, es1) /\ t_now x1 = t_now x /\
      ustep x1 TTick = Some (mkT (t_st x1) (t_now x + 1) (t_since x1), []).
  Proof.
    intros HL E. destruct (if_good_reach ls0 x es0 HL E) as (_ & ID).
    apply (clock_advances ifst iflab ecall eres stp if_who n if_starts if_expiry (fun t => FStep t 0) FTimeout (fun _ => eq_refl) (fun _ => eq_refl) (fun _ _ => eq_refl) (4 * n) x).
    intros ls s' es O X. apply (itron_ef_calls_end w wf dbg ar n (t_st x) ls s' es); [exact ID| |exact X].
    intros l Hl. destruct (O l Hl) as (t & [-> | ->]); exact I.
  Qed.
End IF.
