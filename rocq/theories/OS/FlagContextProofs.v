From Coq Require Import List ZArith Bool Lia.
Import ListNotations.
From Verif Require Import Spec.OSError Spec.Linear Spec.BitSpec Spec.EventFlagSpec Spec.FlagContextSpec Container.BitPatternModel OS.Sched
  OS.EventFlagModel OS.EventFlagProofs OS.ItronEventFlagModel OS.ItronEventFlagProofs OS.FlagContextModel.
Open Scope Z_scope.

Section P.
  Variables w wf : Z.
  Hypothesis Hw : 0 < w.
  Hypothesis Hwf : w <= wf.
  Variables dbg ar : bool.
  Variable nt : nat -> bool.
  Variable lenient : bool.
  Notation ev := (event ecall eres).
  Notation stt := (@status ecall eres).
  Notation mix := (fspec w ar nt lenient).

  (** calls of handlers that are as a task's *)
  Definition fine (c : ecall) : Prop := bad_args w c = true \/ (lenient = true /\ is_wait c = false).
  Lemma fine_spec p t c r p' : fine c -> espec w ar p t c r p' -> hspec w ar lenient p t c r p'.
  Proof.
    intros F E. unfold hspec. destruct (bad_args w c) eqn:B.
    - destruct E as (_ & E). destruct c as [k|pos k|P m rel k| |pos|P| |pos|P|]; cbn in B, E; try discriminate.
      + destruct (Z.ltb_spec pos w); [apply Z.leb_le in B; lia|exact E].
      + destruct (P =? 0); [exact E|]. destruct m; try discriminate. exact E.
      + destruct (Z.ltb_spec pos w); [apply Z.leb_le in B; lia|exact E].
      + destruct (Z.ltb_spec pos w); [apply Z.leb_le in B; lia|exact E].
    - destruct F as [F|(-> & W)]; [congruence|]. now rewrite W.
  Qed.
  (** [woven f es esT]: [es] is [esT] with refused calls put in where their caller is outside *)
  Definition upd (f : nat -> stt) (e : ev) : nat -> stt :=
    match e with Call t c => set_st f t (Pending c) | Eff t c r => set_st f t (Done r) | Ret t r => set_st f t Out end.
  Definition call_fine (e : ev) : Prop := match e with Call t c => nt t = true -> fine c | _ => True end.
  Inductive woven : (nat -> stt) -> list ev -> list ev -> Prop :=
  | w_nil f : woven f [] []
  | w_same f e es esT : call_fine e -> woven (upd f e) es esT -> woven f (e :: es) (e :: esT)
  | w_ins f h c r es esT : nt h = true -> f h = Out -> (forall p, hspec w ar lenient p h c r p) -> woven f es esT ->
      woven f (Call h c :: Eff h c r :: Ret h r :: es) esT.
  Lemma woven_app f es esT : woven f es esT -> forall es2 esT2, woven (fold_left upd esT f) es2 esT2 -> woven f (es ++ es2) (esT ++ esT2).
  Proof. induction 1; intros es2 esT2 HW; cbn in *; [exact HW|constructor; auto|constructor; auto]. Qed.
  Lemma lin_fold sp f (s : Z) es f' s' : lin_run sp f s es f' s' -> f' = fold_left upd es f.
  Proof. induction 1; cbn; auto. Qed.
  Definition pend_fine (f : nat -> stt) : Prop := forall t c, nt t = true -> f t = Pending c -> fine c.
  Lemma set_ext (f g : nat -> stt) t x : (forall u, f u = g u) -> forall u, set_st f t x u = set_st g t x u.
  Proof. intros H u. unfold set_st. destruct (Nat.eqb u t); auto. Qed.
  Lemma merge f es esT : woven f es esT -> forall F s f' s', (forall u, F u = f u) -> pend_fine f ->
    lin_run (espec w ar) f s esT f' s' -> exists F', lin_run mix F s es F' s'.
  Proof.
    induction 1 as [f|f e es esT C W IH|f h c r es esT N O A W IH]; intros F s f' s' X PF L.
    - inversion L; subst. exists F. constructor.
    - destruct e as [t c|t c r|t r]; inversion L; subst; cbn [upd] in *.
      + edestruct (IH (set_st F t (Pending c))) as (F' & L'); [now apply set_ext| |eassumption|exists F'; constructor; [now rewrite X|exact L']].
        intros u d NU. unfold set_st. destruct (Nat.eqb_spec u t) as [->|]; [intros Y; injection Y as <-; now apply C|now apply PF].
      + edestruct (IH (set_st F t (Done r))) as (F' & L'); [now apply set_ext| |eassumption|].
        * intros u d NU. unfold set_st. destruct (Nat.eqb_spec u t) as [->|]; [discriminate|now apply PF].
        * exists F'. eapply lr_eff; [rewrite X; eassumption| |exact L']. unfold fspec.
          assert (PC : nt t = true \/ nt t = false) by (destruct (nt t); auto). destruct PC as [P|P]; rewrite P; [|assumption].
          apply fine_spec; [eapply PF; eassumption|assumption].
      + edestruct (IH (set_st F t Out)) as (F' & L'); [now apply set_ext| |eassumption|exists F'; constructor; [now rewrite X|exact L']].
        intros u d NU. unfold set_st. destruct (Nat.eqb_spec u t) as [->|]; [discriminate|now apply PF].
    - edestruct (IH (set_st (set_st (set_st F h (Pending c)) h (Done r)) h Out)) as (F' & L'); [|exact PF|eassumption|].
      + intros u. unfold set_st. destruct (Nat.eqb_spec u h) as [->|]; [now rewrite O|apply X].
      + exists F'. constructor; [now rewrite X|]. eapply lr_eff; [unfold set_st; now rewrite Nat.eqb_refl| |constructor; [unfold set_st; now rewrite Nat.eqb_refl|exact L']].
        unfold fspec. rewrite N. apply A.
  Qed.

  Lemma entry_class c : ecall_ok w c ->
    match if_entry w dbg c with
    | Reject _ => bad_args w c = true
    | Go o => bad_args w c = false /\
        match o with OWait _ _ _ _ => is_wait c = true | OGet => c = EGet | _ => is_wait c = false /\ c <> EGet end
    | Broken => False
    end.
  Proof.
    intros OKc. rewrite if_entry_eq.
    assert (TW : forall P m rel tm, timedWait_entry w dbg P m rel tm =
       if (P =? 0) || match m with ModeInvalid => true | _ => false end then Reject InvalidParameter else Go (OWait P m rel tm)).
    { intros P m rel tm. unfold timedWait_entry. cbn [b_step]. destruct m; destruct (P =? 0); reflexivity. }
    assert (ONE : forall pos, 0 <= pos < w -> exists v, b_step w dbg b_init (BSet pos) = @BOk (Z * bout) (v, OUnitB) /\ v <> 0).
    { intros pos Hp. destruct (set_one_ok w Hw dbg pos Hp) as (v & EV & Hv & B). exists v. split; [exact EV|].
      intros ->. specialize (B pos ltac:(lia)). rewrite Z.bits_0, Z.eqb_refl in B. discriminate. }
    destruct c as [k|pos k|P m rel k| |pos|P| |pos|P|]; cbn [ef_entry bad_args is_wait];
      try (change (b_step w dbg b_init BSetAll) with (@BOk (Z * bout) (all_ones w, OUnitB)); cbn [with_pat]);
      try (change (pat_size w dbg) with w; cbn in OKc; destruct (Z.leb_spec w pos); [reflexivity|];
           destruct (ONE pos ltac:(lia)) as (v & EV & NZ); rewrite EV; cbn [with_pat]);
      try rewrite TW; try (repeat split; easy).
    - destruct (Z.eqb_spec (all_ones w) 0) as [Y|_]; [now apply all_ones_nz in Y|]. split; reflexivity.
    - destruct (Z.eqb_spec v 0); [contradiction|]. split; reflexivity.
    - destruct ((P =? 0) || match m with ModeInvalid => true | _ => false end) eqn:B; [reflexivity|]. split; reflexivity.
  Qed.
  Lemma refused_none c : ecall_ok w c -> refused_call w dbg lenient c = None -> fine c.
  Proof.
    intros K R. pose proof (entry_class c K) as X. unfold refused_call in R. destruct (if_entry w dbg c) as [o|e|]; [|now left|contradiction].
    destruct X as (_ & X). right. destruct o; cbn in R; [discriminate|..]; destruct lenient eqn:L; try discriminate; (split; [reflexivity|]); subst; try easy; apply X.
  Qed.
  Lemma refused_some c r : ecall_ok w c -> refused_call w dbg lenient c = Some r -> forall p h, hspec w ar lenient p h c r p.
  Proof.
    intros K R p h. pose proof (entry_class c K) as X. unfold refused_call in R. unfold hspec.
    destruct (if_entry w dbg c) as [o|e|]; [|discriminate|discriminate].
    destruct X as (-> & X). destruct o; cbn in R; try destruct lenient eqn:L; try discriminate; injection R as <-.
    - rewrite X. now split.
    - rewrite X. now split.
    - destruct X as (-> & N). split; [reflexivity|]. destruct c; try reflexivity. contradiction.
    - destruct X as (-> & N). split; [reflexivity|]. destruct c; try reflexivity. contradiction.
    - subst c. now split.
  Qed.

  Lemma release_no_call : forall q p thr p' thr' q' es, k_release w wf ar p thr q = (p', thr', q', es) -> forall t c, ~ In (Call t c) es.
  Proof.
    induction q as [|u q IH]; intros p thr p' thr' q' es E t c H; cbn [k_release] in E; [injection E as <- <- <- <-; exact H|].
    assert (G : forall p thr, match k_release w wf ar p thr q with (a, b, d, e) => (a, b, u :: d, e) end = (p', thr', q', es) -> False).
    { intros p0 thr0 E0. destruct (k_release w wf ar p0 thr0 q) as [[[a b] d] e] eqn:ER. injection E0 as <- <- <- <-. exact (IH _ _ _ _ _ _ ER t c H). }
    destruct (thr u) as [|?|?|c0 o|?]; try exact (G _ _ E). destruct o as [P m rel tm|P|P|]; try exact (G _ _ E).
    destruct (k_cond (flgptn wf P) m p); [|exact (G _ _ E)].
    destruct (k_release w wf ar (k_clear ar p) (fupd thr u (FRet (f_ok w rel p))) q) as [[[a b] d] e] eqn:ER. injection E as <- <- <- <-.
    destruct H as [H|H]; [discriminate|]. exact (IH _ _ _ _ _ _ ER t c H).
  Qed.
  Lemma call_label s l s' es t c : f_step w wf dbg ar s l = Some (s', es) -> In (Call t c) es -> l = FCall t c.
  Proof.
    intros E H. destruct l as [u d|u k|u]; cbn in E.
    - destruct (f_thr s u); try discriminate. injection E as <- <-. destruct H as [H|[]]. injection H as -> ->. reflexivity.
    - exfalso. unfold f_done in E.
      destruct (f_thr s u) as [|d|d o|d o|r]; try discriminate.
      + destruct (if_entry w dbg d); try discriminate; injection E as <- <-; cbn in H; (contradiction || (destruct H as [H|[]]; discriminate)).
      + destruct o as [P m rel tm|P|P|].
        * repeat match type of E with context[if ?x then _ else _] => destruct x end; injection E as <- <-; cbn in H; (contradiction || (destruct H as [H|[]]; discriminate)).
        * destruct (k_release w wf ar (Z.lor (f_ptn s) (flgptn wf P)) (f_thr s) (f_queue s)) as [[[a b] q] e] eqn:ER. injection E as <- <-.
          destruct H as [H|H]; [discriminate|]. exact (release_no_call _ _ _ _ _ _ _ ER _ _ H).
        * injection E as <- <-. destruct H as [H|[]]; discriminate.
        * injection E as <- <-. destruct H as [H|[]]; discriminate.
      + injection E as <- <-. destruct H as [H|[]]; discriminate.
    - exfalso. destruct (f_thr s u) as [|d|d o|d o|r]; try discriminate. destruct o as [P m rel tm|P|P|]; try discriminate.
      destruct (tm =? -1); [discriminate|]. injection E as <- <-. destruct H as [H|[]]; discriminate.
  Qed.
  Lemma woven_same : forall e f, (forall x, In x e -> call_fine x) -> woven f e e.
  Proof. induction e as [|x e IH]; intros f H; [constructor|]. constructor; [apply H; now left|]. apply IH. intros y Y. apply H. now right. Qed.

  Definition steps_of (ls : list glab) : list iflab := flat_map (fun l => match l with GStep l => [l] | _ => [] end) ls.
  Lemma g_split : forall ls s esT s' es, (forall l, In l ls -> g_label_ok w l) -> finv w ar s esT ->
    exec (g_step w wf dbg ar nt lenient) s ls = Some (s', es) ->
    exists es2, exec (f_step w wf dbg ar) s (steps_of ls) = Some (s', es2) /\ woven (fold_left upd esT (fun _ => Out)) es es2.
  Proof.
    induction ls as [|l ls IH]; intros s esT s' es HL I E; cbn [exec] in E.
    - injection E as <- <-. exists []. split; [reflexivity|constructor].
    - destruct (g_step w wf dbg ar nt lenient s l) as [[s1 e1]|] eqn:E1; [|discriminate].
      destruct (exec (g_step w wf dbg ar nt lenient) s1 ls) as [[s2 e2]|] eqn:E2; [|discriminate]. injection E as <- <-.
      pose proof (HL l (or_introl eq_refl)) as LO. assert (HL' : forall l, In l ls -> g_label_ok w l) by (intros; apply HL; now right).
      destruct l as [l|h c]; cbn in LO.
      + assert (E0 : f_step w wf dbg ar s l = Some (s1, e1) /\ forall x, In x e1 -> call_fine x).
        { cbn [g_step] in E1. destruct l as [t c|t k|t].
          - assert (PC : nt t = true \/ nt t = false) by (destruct (nt t); auto). destruct PC as [P|P]; rewrite P in E1.
            + destruct (refused_call w dbg lenient c) eqn:R; [discriminate|]. split; [exact E1|]. intros x HX. destruct x as [u d|?|?]; cbn; trivial.
              pose proof (call_label _ _ _ _ _ _ E1 HX) as Y. injection Y as <- <-. intros _. apply refused_none; [apply LO|exact R].
            + split; [exact E1|]. intros x HX. destruct x as [u d|?|?]; cbn; trivial.
              pose proof (call_label _ _ _ _ _ _ E1 HX) as Y. injection Y as <- <-. congruence.
          - split; [exact E1|]. intros x HX. destruct x as [u d|?|?]; cbn; trivial. pose proof (call_label _ _ _ _ _ _ E1 HX). discriminate.
          - split; [exact E1|]. intros x HX. destruct x as [u d|?|?]; cbn; trivial. pose proof (call_label _ _ _ _ _ _ E1 HX). discriminate. }
        destruct E0 as (E0 & CF). pose proof (finv_step w wf Hw Hwf dbg ar s esT l s1 e1 I LO E0) as I1.
        destruct (IH _ _ _ _ HL' I1 E2) as (es2 & X & W). exists (e1 ++ es2). cbn [steps_of flat_map app exec]. rewrite E0. unfold steps_of in X. rewrite X.
        split; [reflexivity|]. apply woven_app; [now apply woven_same|]. rewrite fold_left_app in W. exact W.
      + cbn in E1. assert (PC : nt h = true \/ nt h = false) by (destruct (nt h); auto). destruct PC as [P|P]; rewrite P in E1; [|discriminate].
        destruct (f_thr s h) eqn:EH; try discriminate. destruct (refused_call w dbg lenient c) as [r|] eqn:R; [|discriminate]. injection E1 as <- <-.
        destruct (IH _ _ _ _ HL' I E2) as (es2 & X & W). exists es2. split; [exact X|]. cbn [app]. constructor; [exact P| |intros p; now apply refused_some|exact W].
        destruct (fi_lin _ _ _ _ I) as (f & L & FX). pose proof (lin_fold _ _ _ _ _ _ L) as Y. rewrite <- Y, FX, EH. reflexivity.
  Qed.
  Theorem flag_ctx_linearizable ls s es : (forall l, In l ls -> g_label_ok w l) ->
    exec (g_step w wf dbg ar nt lenient) f_init ls = Some (s, es) -> linearizable mix 0 (history es).
  Proof.
    intros HL E. pose proof (finv_init w Hw ar) as I0. destruct (g_split ls _ [] _ _ HL I0 E) as (es2 & X & W).
    pose proof (finv_exec w wf Hw Hwf dbg ar (steps_of ls)) as FE.
    assert (HS : forall l, In l (steps_of ls) -> f_label_ok w l).
    { intros l H. unfold steps_of in H. apply in_flat_map in H. destruct H as ([l'|h c] & A & B); [|contradiction]. destruct B as [<-|[]]. exact (HL _ A). }
    destruct (fi_lin _ _ _ _ (FE HS _ [] _ _ I0 X)) as (f & L & _). cbn [app] in L.
    destruct (merge _ _ _ W (fun _ => Out) 0 f (f_ptn s)) as (F & LF); [reflexivity|intros t c _ H; discriminate|exact L|].
    exists es, F, (f_ptn s). split; [reflexivity|exact LF].
  Qed.
  (** the flag and the tasks' progress are those of an execution in which the refused calls are left out *)
  Theorem flag_ctx_invisible ls s es : (forall l, In l ls -> g_label_ok w l) ->
    exec (g_step w wf dbg ar nt lenient) f_init ls = Some (s, es) ->
    exists ls' es', (forall l, In l ls' -> In (GStep l) ls) /\ exec (f_step w wf dbg ar) f_init ls' = Some (s, es').
  Proof.
    intros HL E. destruct (g_split ls _ [] _ _ HL (finv_init w Hw ar) E) as (es2 & X & _). exists (steps_of ls), es2. split; [|exact X].
    intros l H. unfold steps_of in H. apply in_flat_map in H. destruct H as ([l'|h c] & A & B); [|contradiction]. destruct B as [<-|[]]. exact A.
  Qed.
  (** a handler outside a call can always make one, and a refused one is over at once *)
  Theorem flag_ctx_never_waits s h c : nt h = true -> f_idle s h -> ecall_ok w c ->
    (exists r, g_step w wf dbg ar nt lenient s (GRefused h c) = Some (s, [Call h c; Eff h c r; Ret h r])) \/
    (exists s1 e1, g_step w wf dbg ar nt lenient s (GStep (FCall h c)) = Some (s1, e1) /\ (is_wait c = true -> bad_args w c = true)).
  Proof.
    intros P D K. unfold f_idle in D. cbn. rewrite P, D. destruct (refused_call w dbg lenient c) as [r|] eqn:R; [left; eauto|right].
    do 2 eexists. split; [reflexivity|]. intros W. destruct (refused_none c K R) as [F|(_ & F)]; [exact F|congruence].
  Qed.
End P.
Lemma flag_ctx_strict w wf dbg ar nt h : 0 < w -> nt h = true ->
  exists s es, exec (g_step w wf dbg ar nt false) f_init [GRefused h ESetAll] = Some (s, es) /\
    ~ linearizable (fspec w ar nt true) 0 (history es).
Proof.
  intros Hw P. exists f_init, [Call h ESetAll; Eff h ESetAll (ERes OtherError None); Ret h (ERes OtherError None)]. split.
  - cbn [exec g_step]. rewrite P. reflexivity.
  - cbn [history filter visible]. intros (es & f & s & H & L).
    destruct (lin_first_call _ _ _ _ _ _ _ _ _ _ (fun _ => eq_refl) L H) as (p1 & g1 & es2 & S1 & _).
    unfold fspec, hspec in S1. rewrite P in S1. cbn in S1. destruct S1 as (_ & S1 & _). discriminate.
Qed.
