(** The field-by-field model of StdCppThread is simulated by OS/ThreadModel. *)
From Coq Require Import List ZArith Bool Arith Lia.
Import ListNotations.
From Verif Require Import Spec.OSError Spec.Linear Spec.ThreadSpec OS.Sched OS.Monitor OS.ThreadModel OS.ThreadProofs OS.ThreadFineModel.
Open Scope Z_scope.

Notation x_bstep := (b_step xfld_eqb x_section x_wake x_actor x_peer x_test x_outer).
Notation x_same := (same xfld bool xcnd xpc xev xfld_eqb x_section x_wake 4).

Lemma x_ok : monitor_ok xfld bool xcnd xpc xlab xev xfld_eqb x_section x_wake x_test x_outer 4.
Proof.
  unfold monitor_ok. split; [|split; [|split; [|split; [|split; [|split]]]]].
  - intros d p. destruct d, p as [n|t q|t ms]; cbn; try (now left).
    + destruct n; cbn; try (now left); right; discriminate.
    + destruct q as [|c|c| | |r]; cbn; try (now left). destruct c; cbn; try (right; discriminate); now left.
  - intros d p. destruct d, p as [n|t q|t ms]; cbn; try reflexivity.
    + destruct n; cbn; try reflexivity. intros N. now elim N.
    + destruct q as [|c|c| | |r]; cbn; try reflexivity. intros N. now elim N.
  - intros l p b. destruct p as [n|t q|t ms]; [destruct n|destruct q as [|c|c| | |r]|]; cbn; intros N; try (now elim N); destruct l; reflexivity.
  - intros l p. destruct p as [n|t q|t ms]; [destruct n|destruct q as [|c|c| | |r]|]; cbn; intros N; try (now elim N); reflexivity.
  - intros l d p. destruct d, p as [n|t q|t ms]; [destruct n|..]; try reflexivity. destruct q as [|c|c| | |r]; try reflexivity. now destruct c.
  - intros l d p b p' es. destruct l, p as [n|t' q|t' ms]; cbn; try discriminate;
      try (destruct q as [|c'|c'| | |r]); try (destruct n); try discriminate.
    + destruct (client_call c && negb (t =? 0)%nat); [|discriminate]. intros E; injection E as <- <-. now destruct d.
    + destruct c'; try discriminate. destruct (ms =? -1); [discriminate|]. intros E; injection E as <- <-. now destruct d.
    + intros E; injection E as <- <-. now destruct d.
    + destruct b; [|discriminate]. intros E; injection E as <- <-. now destruct d.
    + intros E; injection E as <- <-. now destruct d.
    + intros E; injection E as <- <-. now destruct d.
    + intros E; injection E as <- <-. now destruct d.
  - intros m p c. destruct p as [n|t q|t ms]; [destruct n|destruct q as [|d|d| | |r]; try destruct d|]; cbn; intros E; try discriminate; injection E as <-;
      cbn [clen]; try lia; destruct (m FActive); cbn [clen]; try lia; destruct (m FEnd); cbn [clen]; lia.
Qed.

(** only wait, timedWait and destroy sleep; a client that has timed out here may, in OS/ThreadModel, still be asleep or have been notified *)
Definition okq (q : tpc) : Prop := match q with TAsleep (TWait _) | TAsleep TDestroy => True | TAsleep _ => False | _ => True end.
Definition cl (q : tpc) (t : nat) (p : xpc) : Prop :=
  (p = XC t q /\ okq q) \/ exists ms, p = XTmo t ms /\ (ms =? -1) = false /\ (q = TAsleep (TWait ms) \/ q = TAt (TWait ms)).
Definition xrel (b : bstate xfld bool xpc) (s : tst) : Prop :=
  b_fld b FActive = t_active s /\ b_fld b FEnd = t_end s /\ b_pc b 0%nat = XN (t_nat s) /\ forall t, cl (t_thr s t) t (b_pc b (S t)).
Lemma cl_wake q t p : cl q t p -> cl (t_wake q) t (x_wake CFinished p).
Proof.
  intros [(-> & O)|(ms & -> & M & Q)].
  - left. destruct q as [|c|c| | |r]; try (now split). destruct c; cbn in O; try contradiction; split; reflexivity.
  - right. exists ms. split; [reflexivity|]. split; [exact M|]. right. destruct Q as [->| ->]; reflexivity.
Qed.
Definition tm (b : bstate xfld bool xpc) (t : nat) : nat := match b_pc b (S t) with XTmo _ _ => 1%nat | _ => 0%nat end.
Definition x_bown (l : blab xlab) : Prop := match l with BOuter l => x_own_step (FOuter l) | BSec _ => True end.
Definition bquiet (n : nat) (b : bstate xfld bool xpc) : Prop := forall t, (n <= t)%nat -> b_pc b (S t) = XC t TIdle.
(** a step of the block model is matched by steps of OS/ThreadModel *)
Definition matched (own : Prop) (b : bstate xfld bool xpc) (s : tst) (b' : bstate xfld bool xpc) (es : list xev) : Prop :=
  exists ls s', exec t_step s ls = Some (s', es) /\ xrel b' s' /\ (own -> forall x, In x ls -> t_own_step x) /\
    (own -> forall n, bquiet n b -> bquiet n b' /\ (1 + sumn (tm b) n <= 2 * length ls + sumn (tm b') n)%nat).

(** a step of client t *)
Lemma client_one (own : Prop) b s t ds m' p' q' es ls s' :
  xrel b s -> (own -> b_pc b (S t) <> XC t TIdle) -> cl q' t p' -> (ds = [] \/ ds = [CStarted]) ->
  m' FActive = t_active s' -> m' FEnd = t_end s' -> t_nat s' = (match ds with [] => t_nat s | _ => n_wake (t_nat s) end) ->
  t_thr s' t = q' -> (forall u, u <> t -> t_thr s' u = t_thr s u) ->
  exec t_step s ls = Some (s', es) -> (own -> forall x, In x ls -> t_own_step x) ->
  (1 + tm b t <= 2 * length ls + match p' with XTmo _ _ => 1 | _ => 0 end)%nat ->
  matched own b s (mkB m' (fupd (fun u => wakes xcnd xpc x_wake ds (b_pc b u)) (S t) p')) es.
Proof.
  intros (A & D & N & Q) G C DS A' D' N' T' U' E OW LN. exists ls, s'. split; [exact E|]. split; [|split; [exact OW|]].
  - unfold xrel. cbn [b_fld b_pc]. split; [exact A'|]. split; [exact D'|]. split.
    + rewrite fupd_other by discriminate. rewrite N, N'. destruct DS as [->| ->]; reflexivity.
    + intros u. rewrite fupd_eq. destruct (Nat.eqb_spec (S u) (S t)) as [X|X].
      * injection X as ->. now rewrite T'.
      * rewrite U' by congruence. specialize (Q u). destruct DS as [->| ->]; cbn [wakes fold_left]; [exact Q|].
        destruct Q as [(R & O)|(ms & R & M)]; rewrite R; [now left|right; exists ms; now split].
  - intros O n B. specialize (G O). specialize (OW O). split.
    + intros u L. cbn [b_pc]. rewrite fupd_other.
      * rewrite (B u L). destruct DS as [->| ->]; reflexivity.
      * intros X. injection X as ->. apply G. now apply B.
    + assert (X : (sumn (tm (mkB m' (fupd (fun u => wakes xcnd xpc x_wake ds (b_pc b u)) (S t) p'))) n + tm b t = sumn (tm b) n + match p' with XTmo _ _ => 1 | _ => 0 end)%nat).
      { rewrite (sumn_change n (tm b) _ t).
        - f_equal. unfold tm. cbn [b_pc]. now rewrite fupd_same.
        - destruct (Nat.lt_ge_cases t n) as [|H]; [assumption|]. elim G. now apply B.
        - intros u V. unfold tm. cbn [b_pc]. rewrite fupd_other by congruence. destruct DS as [->| ->]; cbn [wakes fold_left]; [reflexivity|].
          destruct (b_pc b (S u)); reflexivity. }
      lia.
Qed.
(** a step of the native thread *)
Lemma native_one (own : Prop) b s ds m' n' es l s' :
  xrel b s -> (ds = [] \/ ds = [CFinished]) -> m' FActive = t_active s' -> m' FEnd = t_end s' -> t_nat s' = n' ->
  t_thr s' = (match ds with [] => t_thr s | _ => fun u => t_wake (t_thr s u) end) -> t_step s l = Some (s', es) -> (own -> t_own_step l) ->
  matched own b s (mkB m' (fupd (fun u => wakes xcnd xpc x_wake ds (b_pc b u)) 0%nat (XN n'))) es.
Proof.
  intros (A & D & N & Q) DS A' D' N' T' E OW. exists [l], s'. split; [cbn [exec]; rewrite E; now rewrite app_nil_r|]. split; [|split].
  - unfold xrel. cbn [b_fld b_pc]. split; [exact A'|]. split; [exact D'|]. split; [now rewrite fupd_same, N'|].
    intros u. rewrite fupd_other by discriminate. rewrite T'. destruct DS as [->| ->]; cbn [wakes fold_left]; [apply Q|now apply cl_wake].
  - intros O x [<-|[]]. now apply OW.
  - intros O n B. split.
    + intros u L. cbn [b_pc]. rewrite fupd_other by discriminate. rewrite (B u L). destruct DS as [->| ->]; reflexivity.
    + match goal with |- (_ <= _ + sumn ?w n)%nat => assert (X : sumn w n = sumn (tm b) n); [|rewrite X; cbn; lia] end.
      apply sumn_ext. intros u _. unfold tm. cbn [b_pc]. rewrite fupd_other by discriminate.
      destruct DS as [->| ->]; cbn [wakes fold_left]; [reflexivity|]. destruct (b_pc b (S u)) as [|? q|]; try reflexivity.
      destruct q as [|c|c| | |r]; try reflexivity. now destruct c.
Qed.

Lemma xrel_step b s l b' es : xrel b s -> x_bstep b l = Some (b', es) -> matched (x_bown l) b s b' es.
Proof.
  intros H E. assert (H0 := H). destruct H0 as (A & D & N & Q).
  destruct l as [[|t]|l]; cbn [b_step] in E.
  - (* the native thread's sections *)
    rewrite N in E. destruct (t_nat s) eqn:NS; cbn [x_section] in E; try discriminate; cbn [whole] in E.
    + destruct (b_fld b FActive) eqn:FA; cbn [whole] in E; [destruct (b_fld b FEnd) eqn:FE|]; cbn [whole] in E; injection E as <- <-.
      * apply (native_one _ b s [] _ NDone _ NStep (mkT (t_active s) (t_end s) NDone (t_thr s))); try easy; try (now left); try (now cbn; congruence).
        cbn [t_step]. now rewrite NS, <- A, <- D.
      * apply (native_one _ b s [] _ NRun _ NStep (mkT (t_active s) (t_end s) NRun (t_thr s))); try easy; try (now left); try (now cbn; congruence).
        cbn [t_step]. now rewrite NS, <- A, <- D.
      * apply (native_one _ b s [] _ NAsleep _ NStep (mkT (t_active s) (t_end s) NAsleep (t_thr s))); try easy; try (now left); try (now cbn; congruence).
        cbn [t_step]. now rewrite NS, <- A.
    + injection E as <- <-.
      apply (native_one _ b s [CFinished] _ NCheck _ NStep (mkT false (t_end s) NCheck (fun u => t_wake (t_thr s u)))); try easy; try (now right).
      cbn [t_step]. now rewrite NS.
  - (* a client's sections *)
    destruct (Q t) as [(P & O)|(ms & P & M & W)]; rewrite P in E.
    + assert (T0 : tm b t = 0%nat) by (unfold tm; now rewrite P).
      destruct (t_thr s t) as [|c|c| | |r] eqn:TS; cbn [x_section] in E; try discriminate.
      * assert (G : b_pc b (S t) <> XC t TIdle) by (rewrite P; discriminate).
        assert (ONE : forall q' ds m' s' es', okq q' -> (ds = [] \/ ds = [CStarted]) ->
            m' FActive = t_active s' -> m' FEnd = t_end s' -> t_nat s' = (match ds with [] => t_nat s | _ => n_wake (t_nat s) end) ->
            t_thr s' = fupd (t_thr s) t q' -> t_step s (TStep t) = Some (s', es') ->
            matched (x_bown (BSec (S t))) b s (mkB m' (fupd (fun u => wakes xcnd xpc x_wake ds (b_pc b u)) (S t) (XC t q'))) es').
        { intros q' ds m' s' es' OK DS A' D' N' T' E'. apply (client_one _ b s t ds m' (XC t q') q' es' [TStep t] s'); auto.
          - now left.
          - now rewrite T', fupd_same.
          - intros u V. now rewrite T', fupd_other.
          - cbn [exec]. rewrite E'. now rewrite app_nil_r.
          - intros _ x [<-|[]]. exact I.
          - cbn. lia. }
        destruct c as [|ms| | | |]; try discriminate; cbn [whole] in E.
        -- destruct (b_fld b FActive) eqn:FA; cbn [whole] in E; injection E as <- <-.
           ++ apply (ONE (TRet RVoid) [] (b_fld b) (t_go s t (TRet RVoid))); try easy; try (now left); try (now cbn; congruence).
              cbn [t_step]. now rewrite TS, <- A.
           ++ apply (ONE (TRet RVoid) [CStarted] _ (mkT true (t_end s) (n_wake (t_nat s)) (fupd (t_thr s) t (TRet RVoid)))); try easy; try (now right).
              cbn [t_step]. now rewrite TS, <- A.
        -- destruct (b_fld b FActive) eqn:FA; cbn [whole] in E; injection E as <- <-.
           ++ apply (ONE (TAsleep (TWait ms)) [] (b_fld b) (t_go s t (TAsleep (TWait ms)))); try easy; try (now left); try (now cbn; congruence).
              cbn [t_step]. now rewrite TS, <- A.
           ++ apply (ONE (TRet (RErr OK)) [] (b_fld b) (t_go s t (TRet (RErr OK)))); try easy; try (now left); try (now cbn; congruence).
              cbn [t_step]. now rewrite TS, <- A.
        -- injection E as <- <-. rewrite A.
           apply (ONE (TRet (RBool (negb (t_active s)))) [] (b_fld b) (t_go s t (TRet (RBool (negb (t_active s)))))); try easy; try (now left).
           cbn [t_step]. now rewrite TS.
        -- destruct (b_fld b FActive) eqn:FA; cbn [whole] in E; injection E as <- <-.
           ++ apply (ONE (TAsleep TDestroy) [] (b_fld b) (t_go s t (TAsleep TDestroy))); try easy; try (now left); try (now cbn; congruence).
              cbn [t_step]. now rewrite TS, <- A.
           ++ apply (ONE TReq [] (b_fld b) (t_go s t TReq)); try easy; try (now left); try (now cbn; congruence).
              cbn [t_step]. now rewrite TS, <- A.
      * cbn [whole] in E. injection E as <- <-.
        apply (client_one _ b s t [CStarted] _ (XC t TJoin) TJoin _ [TStep t] (mkT true true (n_wake (t_nat s)) (fupd (t_thr s) t TJoin))); auto; try easy.
        -- intros _. rewrite P. discriminate.
        -- now left.
        -- cbn. apply fupd_same.
        -- intros u V. cbn. now rewrite fupd_other.
        -- cbn [exec t_step]. now rewrite TS.
        -- intros _ x [<-|[]]. exact I.
        -- cbn. lia.
    + (* after a time-out *)
      assert (T1 : tm b t = 1%nat) by (unfold tm; now rewrite P).
      assert (GO : forall q' ls s' es', okq q' -> exec t_step s ls = Some (s', es') -> ls <> [] -> (forall x, In x ls -> t_own_step x) ->
                t_active s' = t_active s -> t_end s' = t_end s -> t_nat s' = t_nat s -> t_thr s' t = q' -> (forall u, u <> t -> t_thr s' u = t_thr s u) ->
                matched (x_bown (BSec (S t))) b s (mkB (b_fld b) (fupd (fun u => wakes xcnd xpc x_wake [] (b_pc b u)) (S t) (XC t q'))) es').
      { intros q' ls s' es' OK E' NE OW A' D' N' T' U'. apply (client_one _ b s t [] _ (XC t q') q' es' ls s'); auto; try congruence.
        - now left.
        - destruct ls; [now elim NE|]. cbn [length]. lia. }
      cbn [x_section whole] in E. destruct (b_fld b FActive) eqn:FA; cbn [whole] in E; injection E as <- <-.
      * destruct W as [W|W].
        -- apply (GO _ [TTimeout t] (t_go s t (TRet (RErr TimedOut)))); try easy.
           ++ cbn [exec t_step]. now rewrite W, M, <- A.
           ++ intros x [<-|[]]. exact I.
           ++ cbn. apply fupd_same.
           ++ intros u V. cbn. now rewrite fupd_other.
        -- apply (GO _ [TStep t; TTimeout t] (t_go (t_go s t (TAsleep (TWait ms))) t (TRet (RErr TimedOut)))); try easy.
           ++ cbn [exec t_step]. rewrite W, <- A. cbn [exec t_step t_go t_thr t_active]. rewrite fupd_same, M, <- A. reflexivity.
           ++ intros x [<-|[<-|[]]]; exact I.
           ++ cbn. apply fupd_same.
           ++ intros u V. cbn. now rewrite !fupd_other.
      * destruct W as [W|W].
        -- apply (GO _ [TTimeout t] (t_go s t (TRet (RErr OK)))); try easy.
           ++ cbn [exec t_step]. now rewrite W, M, <- A.
           ++ intros x [<-|[]]. exact I.
           ++ cbn. apply fupd_same.
           ++ intros u V. cbn. now rewrite fupd_other.
        -- apply (GO _ [TStep t] (t_go s t (TRet (RErr OK)))); try easy.
           ++ cbn [exec t_step]. now rewrite W, <- A.
           ++ intros x [<-|[]]. exact I.
           ++ cbn. apply fupd_same.
           ++ intros u V. cbn. now rewrite fupd_other.
  - (* outside of the mutex *)
    destruct (x_outer l (b_pc b (x_actor l)) (x_test l (b_pc b (x_peer l)))) as [[p' es']|] eqn:X; [|discriminate]. injection E as <- <-.
    assert (CLI : forall t (own : Prop) q' p' es' lb s', (own -> b_pc b (S t) <> XC t TIdle) -> cl q' t p' -> (tm b t = 0)%nat ->
              t_step s lb = Some (s', es') -> (own -> t_own_step lb) -> s' = t_go s t q' ->
              matched own b s (mkB (b_fld b) (fupd (b_pc b) (S t) p')) es').
    { intros t own q' p0 es0 lb s' G C T0 E OW ->. change (b_pc b) with (fun u => wakes xcnd xpc x_wake [] (b_pc b u)) at 1.
      apply (client_one own b s t [] (b_fld b) p0 q' es0 [lb] (t_go s t q')); auto; try easy.
      - cbn. apply fupd_same.
      - intros u V. cbn. now rewrite fupd_other.
      - cbn [exec]. rewrite E. now rewrite app_nil_r.
      - intros O x [<-|[]]. now apply OW.
      - rewrite T0. cbn. lia. }
    destruct l as [t c|t|t|t|t| |]; cbn [x_actor x_peer x_outer] in X |- *.
    + destruct (Q t) as [(P & O)|(ms & P & M & W)]; rewrite P in X; [|discriminate].
      destruct (t_thr s t) as [|c'|c'| | |r] eqn:TS; try discriminate. destruct (client_call c && negb (t =? 0)%nat) eqn:CC; [|discriminate].
      injection X as <- <-. apply (CLI t _ (TAt c) _ _ (TCall t c) (t_go s t (TAt c))).
      * intros [].
      * now left.
      * unfold tm. now rewrite P.
      * cbn [t_step]. now rewrite TS, CC.
      * intros [].
      * reflexivity.
    + destruct (Q t) as [(P & O)|(ms & P & M & W)]; rewrite P in X; [|discriminate].
      destruct (t_thr s t) as [|c'|c'| | |r] eqn:TS; try discriminate. destruct c'; try discriminate.
      destruct (ms =? -1) eqn:MS; [discriminate|]. injection X as <- <-.
      change (b_pc b) with (fun u => wakes xcnd xpc x_wake [] (b_pc b u)) at 1.
      apply (client_one _ b s t [] (b_fld b) (XTmo t ms) (TAsleep (TWait ms)) [] [] s); auto; try easy.
      * intros _ Y. rewrite P in Y. discriminate.
      * right. exists ms. split; [reflexivity|]. split; [exact MS|now left].
      * unfold tm. rewrite P. cbn. lia.
    + destruct (Q t) as [(P & O)|(ms & P & M & W)]; rewrite P in X; [|discriminate].
      destruct (t_thr s t) as [|c'|c'| | |r] eqn:TS; try discriminate. injection X as <- <-.
      apply (CLI t _ (TAt c') _ _ (TSpurious t) (t_go s t (TAt c'))).
      * intros [].
      * now left.
      * unfold tm. now rewrite P.
      * cbn [t_step]. now rewrite TS.
      * intros [].
      * reflexivity.
    + destruct (Q t) as [(P & O)|(ms & P & M & W)]; rewrite P in X; [|discriminate].
      destruct (t_thr s t) as [|c'|c'| | |r] eqn:TS; try discriminate. cbn [x_outer] in X. unfold x_peer in X. rewrite N in X. destruct (t_nat s) eqn:NS; try discriminate. injection X as <- <-.
      apply (CLI t _ (TRet RVoid) _ _ (TStep t) (t_go s t (TRet RVoid))).
      * intros _. rewrite P. discriminate.
      * now left.
      * unfold tm. now rewrite P.
      * cbn [t_step]. now rewrite TS, NS.
      * intros _. exact I.
      * reflexivity.
    + destruct (Q t) as [(P & O)|(ms & P & M & W)]; rewrite P in X; [|discriminate].
      destruct (t_thr s t) as [|c'|c'| | |r] eqn:TS; try discriminate. injection X as <- <-.
      apply (CLI t _ TIdle _ _ (TStep t) (t_go s t TIdle)).
      * intros _. rewrite P. discriminate.
      * now left.
      * unfold tm. now rewrite P.
      * cbn [t_step]. now rewrite TS.
      * intros _. exact I.
      * reflexivity.
    + rewrite N in X. destruct (t_nat s) eqn:NS; try discriminate. injection X as <- <-.
      change (b_pc b) with (fun u => wakes xcnd xpc x_wake [] (b_pc b u)) at 1.
      apply (native_one _ b s [] (b_fld b) NClear _ NStep (mkT (t_active s) (t_end s) NClear (t_thr s))); try easy; try (now left).
      cbn [t_step]. now rewrite NS.
    + rewrite N in X. destruct (t_nat s) eqn:NS; try discriminate. injection X as <- <-.
      change (b_pc b) with (fun u => wakes xcnd xpc x_wake [] (b_pc b u)) at 1.
      apply (native_one _ b s [] (b_fld b) NCheck _ NSpurious (mkT (t_active s) (t_end s) NCheck (t_thr s))); try easy; try (now left).
      cbn [t_step]. now rewrite NS.
Qed.

Lemma xrel_exec : forall ls b s b' es, xrel b s -> exec x_bstep b ls = Some (b', es) ->
  exists ls' s', exec t_step s ls' = Some (s', es) /\ xrel b' s' /\
    ((forall l, In l ls -> x_bown l) -> (forall l, In l ls' -> t_own_step l) /\
       forall n, bquiet n b -> bquiet n b' /\ (length ls + sumn (tm b) n <= 2 * length ls' + sumn (tm b') n)%nat).
Proof.
  induction ls as [|l ls IH]; intros b s b' es H E; cbn [exec] in E.
  - injection E as <- <-. exists [], s. split; [reflexivity|]. split; [exact H|]. intros _. split; [intros ? []|]. intros n B. split; [exact B|]. cbn. lia.
  - destruct (x_bstep b l) as [[b1 e1]|] eqn:E1; [|discriminate]. destruct (exec x_bstep b1 ls) as [[b2 e2]|] eqn:E2; [|discriminate].
    injection E as <- <-. destruct (xrel_step _ _ _ _ _ H E1) as (l1 & s1 & X1 & H1 & O1 & N1).
    destruct (IH _ _ _ _ H1 E2) as (l2 & s2 & X2 & H2 & R). exists (l1 ++ l2), s2. split; [rewrite exec_app, X1, X2; reflexivity|]. split; [exact H2|].
    intros OW. assert (OL := OW l (or_introl eq_refl)). destruct (R (fun x h => OW x (or_intror h))) as (O2 & N2). split.
    + intros x I. apply in_app_or in I. destruct I as [I|I]; [now apply (O1 OL)|now apply O2].
    + intros n B. destruct (N1 OL n B) as (B1 & C1). destruct (N2 n B1) as (B2 & C2). split; [exact B2|]. rewrite app_length. cbn [length]. lia.
Qed.
Lemma x_init_rel : xrel (mkB (fun _ => false) x_pc0) t_init.
Proof. unfold xrel. cbn. repeat split. intros t. now left. Qed.

(** every run, field by field, shows what a run of OS/ThreadModel shows; the two are then at the same point when the mutex is free and nobody has
    just timed out *)
Definition xlink (f : fstate xfld bool xcnd xpc xev) (s : tst) : Prop := exists b, x_same f b /\ xrel b s.
Theorem fine_thread ls f es : exec x_step x_init ls = Some (f, es) -> exists ls' s, exec t_step t_init ls' = Some (s, es) /\ xlink f s.
Proof.
  intros E. destruct (monitor_atomic x_ok _ _ _ _ _ (same_init _ _) E) as (l1 & b & X1 & H1 & _).
  destruct (xrel_exec _ _ _ _ _ x_init_rel X1) as (l2 & s & X2 & H2 & _). exists l2, s. split; [exact X2|]. exists b. now split.
Qed.
(** the same from any state on, for calls in progress *)
Theorem fine_thread_from f s ls f' es n : xlink f s -> exec x_step f ls = Some (f', es) -> (forall l, In l ls -> x_own_step l) ->
  (forall t, (n <= t)%nat -> x_idle f t) ->
  exists ls' s', exec t_step s ls' = Some (s', es) /\ xlink f' s' /\ (forall l, In l ls' -> t_own_step l) /\ (length ls <= 10 * length ls' + 5 * n + 5)%nat.
Proof.
  intros (b & H & R) E O QU. destruct (monitor_atomic x_ok _ _ _ _ _ H E) as (l1 & b1 & X1 & H1 & F1 & N1).
  destruct (xrel_exec _ _ _ _ _ R X1) as (l2 & s2 & X2 & H2 & W2). exists l2, s2. split; [exact X2|]. split; [exists b1; now split|].
  assert (OB : forall l, In l l1 -> x_bown l) by (intros [t|l] I; [exact Logic.I|apply (O (FOuter l)); now apply F1]).
  destruct (W2 OB) as (O2 & C2). split; [exact O2|].
  assert (B : bquiet n b).
  { intros t L. specialize (QU t L). unfold x_idle in QU. unfold same in H. destruct (f_own f) as [o|].
    - destruct H as (c0 & c & ds & SC & P & _ & _ & Q). destruct (Nat.eq_dec (S t) o) as [<-|NE]; [rewrite P in QU; discriminate|].
      rewrite (Q _ NE) in QU. injection QU as QU. assert (Z : x_section (wakes xcnd xpc x_wake ds (b_pc b (S t))) = None) by (rewrite QU; reflexivity).
      apply (wakes_none x_ok) in Z. congruence.
    - destruct H as (_ & Q). rewrite Q in QU. now injection QU. }
  destruct (C2 n B) as (_ & C3). assert (M1 := made_le xfld_eqb 4 f'). unfold made in *.
  assert (SB : (sumn (tm b1) n <= n * 1)%nat) by (apply sumn_bound; intros k _; unfold tm; destruct (b_pc b1 (S k)); lia).
  lia.
Qed.
(** the mutex is not held and nobody is in front of it *)
Theorem fine_thread_stuck f s : xlink f s -> x_stuck f ->
  (forall t, t_step s (TStep t) = None) /\ t_step s NStep = None /\ (forall t, t_idle s t <-> x_idle f t) /\ f_pc f 0%nat = FOut (XN (t_nat s)).
Proof.
  intros (b & H & (A & D & N & Q)) ST.
  assert (MV : forall t, x_step f (FMove t) = None) by (intros t; apply ST; [exact I|discriminate]).
  assert (AC : forall t, x_step f (FAcq t) = None) by (intros t; apply ST; [exact I|discriminate]).
  destruct (stuck_same f b H MV) as (O & F & P).
  assert (NS := stuck_sections f b H MV AC).
  assert (CL : forall t, b_pc b (S t) = XC t (t_thr s t)).
  { intros t. destruct (Q t) as [(X & _)|(ms & X & _)]; [exact X|]. specialize (NS (S t)). rewrite X in NS. discriminate. }
  assert (OUT : forall l, x_own_step (FOuter l) -> (forall t, l <> OTimeout t) -> x_outer l (b_pc b (x_actor l)) (x_test l (b_pc b 0%nat)) = None).
  { intros l OW NT. assert (Y : x_step f (FOuter l) = None) by (apply ST; [exact OW|intros t Z; injection Z as Z; now apply (NT t)]).
    unfold x_step in Y. cbn [f_step] in Y. unfold x_peer in Y. rewrite !P in Y. cbn [f_test] in Y.
    destruct (x_outer l (b_pc b (x_actor l)) (x_test l (b_pc b 0%nat))) as [[? ?]|]; [discriminate|reflexivity]. }
  split; [|split; [|split]].
  - intros t. cbn [t_step]. assert (NT := NS (S t)). rewrite CL in NT.
    destruct (t_thr s t) as [|c|c| | |r] eqn:TS; try reflexivity.
    + destruct c; try reflexivity; discriminate.
    + discriminate.
    + assert (Y := OUT (OJoin t) I ltac:(discriminate)). cbn [x_actor x_outer] in Y. rewrite CL, TS, N in Y. cbn [x_test] in Y.
      destruct (t_nat s); try reflexivity. discriminate.
    + assert (Y := OUT (ORet t) I ltac:(discriminate)). cbn [x_actor x_outer] in Y. rewrite CL, TS in Y. discriminate.
  - cbn [t_step]. assert (NN := NS 0%nat). rewrite N in NN. destruct (t_nat s) eqn:TN; try reflexivity; try discriminate.
    assert (Y := OUT ORunEnd I ltac:(discriminate)). cbn [x_actor x_outer] in Y. rewrite N in Y. discriminate.
  - intros t. unfold t_idle, x_idle. rewrite P, CL. split; [now intros ->|]. intros X. now injection X.
  - now rewrite P, N.
Qed.
