(** The field-by-field model of the StdCpp timers is simulated by OS/TimerModel. *)
From Coq Require Import List Bool Arith Lia.
Import ListNotations.
From Verif Require Import Spec.Linear Spec.TimerSpec OS.Sched OS.Monitor OS.TimerModel OS.TimerFineModel.

Section Timer.
  Variable periodic : bool.
  Notation v_bstep := (b_step vfld_eqb (v_section periodic) v_wake v_actor v_peer v_test (v_outer periodic)).
  Notation v_same := (same vfld bool vcnd vpc vev vfld_eqb (v_section periodic) v_wake 8).
  Notation mstep := (m_step periodic).

  Lemma v_ok : monitor_ok vfld bool vcnd vpc vlab vev vfld_eqb (v_section periodic) v_wake v_test (v_outer periodic) 8.
  Proof.
    unfold monitor_ok. split; [|split; [|split; [|split; [|split; [|split]]]]].
    - intros d p. destruct d, p as [n| |t q]; cbn; try (now left).
      + destruct n; cbn; try (now left); right; discriminate.
      + destruct q as [|c|c|c| |r]; cbn; try (now left). destruct c; cbn; try (now left); right; discriminate.
      + destruct q as [|c|c|c| |r]; cbn; try (now left). destruct c; cbn; try (now left); right; discriminate.
    - intros d p. destruct d, p as [n| |t q]; cbn; try reflexivity.
      + destruct n; cbn; try reflexivity; intros N; now elim N.
      + destruct q as [|c|c|c| |r]; cbn; try reflexivity. intros N; now elim N.
      + destruct q as [|c|c|c| |r]; cbn; try reflexivity. intros N; now elim N.
    - intros l p b. destruct p as [n| |t q]; [destruct n| |destruct q as [|c|c|c| |r]]; cbn; intros N; try (now elim N); destruct l; reflexivity.
    - intros l p. destruct p as [n| |t q]; [destruct n| |destruct q as [|c|c|c| |r]]; cbn; intros N; try (now elim N); destruct l; reflexivity.
    - intros l d p. destruct d, p as [n| |t q]; [destruct n| |destruct q as [|c|c|c| |r]|destruct n| |destruct q as [|c|c|c| |r]|destruct n| |destruct q as [|c|c|c| |r]];
        try (destruct l; reflexivity); destruct c; destruct l; reflexivity.
    - intros l d p b p' es. destruct l, p as [n| |t' q]; cbn; try discriminate; try (destruct q as [|c'|c'|c'| |r]); try (destruct n); try discriminate.
      + destruct (v_callable t b c); [|discriminate]. intros E; injection E as <- <-. now destruct d.
      + destruct c'; try discriminate; intros E; injection E as <- <-; now destruct d.
      + destruct b; [|discriminate]. intros E; injection E as <- <-. now destruct d.
      + intros E; injection E as <- <-. now destruct d.
      + intros E; injection E as <- <-. now destruct d.
      + intros E; injection E as <- <-. now destruct d.
      + destruct b, periodic; try discriminate; intros E; injection E as <- <-; now destruct d.
      + intros E; injection E as <- <-. now destruct d.
      + intros E; injection E as <- <-. now destruct d.
    - intros m p c. destruct p as [n| |t q]; [destruct n| |destruct q as [|d|d|d| |r]; try destruct d]; cbn [v_section]; intros E; try discriminate; injection E as <-;
        unfold v_pred, v_leave, v_start, v_stop; cbn;
        destruct (m VActive) eqn:MA, (m VEnd) eqn:ME, (m VStarted) eqn:MS, (m VStopped) eqn:MT, periodic; cbn; repeat (first [rewrite MA|rewrite ME|rewrite MS|rewrite MT]; cbn); lia.
  Qed.

  (** a timer thread that has timed out here may, in OS/TimerModel, still be asleep or have been notified *)
  Definition nrel (n : lpc) (p : vpc) : Prop := p = VN n \/ (p = VTmo /\ (n = LTimed \/ n = LTCheck)).
  Definition vrel (b : bstate vfld bool vpc) (s : mst) : Prop :=
    (b_fld b VActive = m_active s /\ b_fld b VStarted = m_started s /\ b_fld b VStopped = m_stopped s /\ b_fld b VEnd = m_end s) /\
    nrel (m_nat s) (b_pc b 0) /\ forall t, b_pc b (S t) = VC t (m_thr s t).
  Definition tmn (b : bstate vfld bool vpc) : nat := match b_pc b 0 with VTmo => 1 | _ => 0 end.
  Definition v_bown (l : blab vlab) : Prop := match l with BOuter l => v_own_step (FOuter l) | BSec _ => True end.
  Definition vmatched (own : Prop) (b : bstate vfld bool vpc) (s : mst) (b' : bstate vfld bool vpc) (es : list vev) : Prop :=
    exists ls s', exec mstep s ls = Some (s', es) /\ vrel b' s' /\ (own -> forall x, In x ls -> m_own_step x) /\
      (own -> 1 + tmn b <= 2 * length ls + tmn b').
  Lemma nrel_wake n p : nrel n p -> nrel (wake_active n) (v_wake NActive p).
  Proof. intros [->|(-> & [->| ->])]; [now left|right..]; (split; [reflexivity|]); right; reflexivity. Qed.

  (** a step of client t *)
  Lemma vclient_one (own : Prop) b s t ds m' q' es l s' :
    vrel b s -> (ds = [] \/ ds = [NActive]) ->
    (m' VActive = m_active s' /\ m' VStarted = m_started s' /\ m' VStopped = m_stopped s' /\ m' VEnd = m_end s') ->
    m_nat s' = (match ds with [] => m_nat s | _ => wake_active (m_nat s) end) -> m_thr s' = fupd (m_thr s) t q' ->
    mstep s l = Some (s', es) -> (own -> m_own_step l) ->
    vmatched own b s (mkB m' (fupd (fun u => wakes vcnd vpc v_wake ds (b_pc b u)) (S t) (VC t q'))) es.
  Proof.
    intros (F & N & Q) DS F' N' T' E OW. exists [l], s'. split; [cbn [exec]; rewrite E; now rewrite app_nil_r|]. split; [|split].
    - unfold vrel. cbn [b_fld b_pc]. split; [exact F'|]. split.
      + rewrite fupd_other by discriminate. rewrite N'. destruct DS as [->| ->]; cbn [wakes fold_left]; [exact N|now apply nrel_wake].
      + intros u. rewrite T', !fupd_eq. destruct (Nat.eqb_spec (S u) (S t)) as [X|X], (Nat.eqb_spec u t) as [Y|Y]; try lia; [now rewrite Y|].
        rewrite Q. destruct DS as [->| ->]; reflexivity.
    - intros O x [<-|[]]. now apply OW.
    - intros O. unfold tmn. cbn [b_pc length]. rewrite fupd_other by discriminate. destruct DS as [->| ->]; cbn [wakes fold_left]; [lia|].
      destruct (b_pc b 0); cbn; lia.
  Qed.
  (** a step of the timer thread *)
  Lemma vnative_one (own : Prop) b s ds m' p' es ls s' :
    vrel b s -> (ds = [] \/ ds = [NStarted] \/ ds = [NStopped]) ->
    (m' VActive = m_active s' /\ m' VStarted = m_started s' /\ m' VStopped = m_stopped s' /\ m' VEnd = m_end s') ->
    nrel (m_nat s') p' -> m_thr s' = (match ds with [] => m_thr s | [NStarted] => fun u => wake_started (m_thr s u) | _ => fun u => wake_stopped (m_thr s u) end) ->
    exec mstep s ls = Some (s', es) -> (forall x, In x ls -> own -> m_own_step x) -> 1 + tmn b <= 2 * length ls + match p' with VTmo => 1 | _ => 0 end ->
    vmatched own b s (mkB m' (fupd (fun u => wakes vcnd vpc v_wake ds (b_pc b u)) 0 p')) es.
  Proof.
    intros (F & N & Q) DS F' N' T' E OW LN. exists ls, s'. split; [exact E|]. split; [|split].
    - unfold vrel. cbn [b_fld b_pc]. split; [exact F'|]. split; [now rewrite fupd_same|].
      intros u. rewrite fupd_other by discriminate. rewrite T', Q. destruct DS as [->|[->| ->]]; reflexivity.
    - intros O x I. now apply OW.
    - intros O. unfold tmn at 2. cbn [b_pc]. now rewrite fupd_same.
  Qed.

  Lemma vrel_step b s l b' es : vrel b s -> v_bstep b l = Some (b', es) -> vmatched (v_bown l) b s b' es.
  Proof.
    intros H E. assert (H0 := H). destruct H0 as ((A & B & C & D) & N & Q).
    assert (NAT : forall ds m' n' es' lb s', (ds = [] \/ ds = [NStarted] \/ ds = [NStopped]) ->
              (m' VActive = m_active s' /\ m' VStarted = m_started s' /\ m' VStopped = m_stopped s' /\ m' VEnd = m_end s') -> m_nat s' = n' ->
              m_thr s' = (match ds with [] => m_thr s | [NStarted] => fun u => wake_started (m_thr s u) | _ => fun u => wake_stopped (m_thr s u) end) ->
              mstep s lb = Some (s', es') -> (v_bown l -> m_own_step lb) ->
              vmatched (v_bown l) b s (mkB m' (fupd (fun u => wakes vcnd vpc v_wake ds (b_pc b u)) 0 (VN n'))) es').
    { intros ds m' n' es' lb s' DS F' N' T' E' OW. apply (vnative_one _ b s ds m' (VN n') es' [lb] s'); auto.
      - left. now rewrite N'.
      - cbn [exec]. rewrite E'. now rewrite app_nil_r.
      - intros x [<-|[]]. exact OW.
      - cbn. unfold tmn. destruct (b_pc b 0); lia. }
    destruct l as [[|t]|l]; cbn [b_step] in E.
    - (* the timer thread's sections *)
      destruct N as [N|(N & NT)]; rewrite N in E.
      + destruct (m_nat s) eqn:NS; cbn [v_section] in E; try discriminate; cbn [whole] in E.
        * (* LCheck *)
          assert (S1 : mstep s XNat = (if m_active s || m_end s then
                   Some (mkM (m_active s) true (m_stopped s) (m_end s) (if m_end s then LDone else if periodic then LTCheck else LTimed) (fun u => wake_started (m_thr s u)), [])
                   else Some (m_nto s LSleep, []))) by (cbn [m_step]; rewrite NS; reflexivity).
          destruct (b_fld b VActive) eqn:FA; [|cbn [whole] in E; destruct (b_fld b VEnd) eqn:FE].
          -- cbn [whole set_fld vfld_eqb] in E. destruct (b_fld b VEnd) eqn:FE.
             ++ cbn [whole] in E. injection E as <- <-. eapply (NAT [NStarted]); [now right; left| | | |rewrite S1, <- A; reflexivity|intros _; exact I]; cbn; rewrite <- ?D; auto; try (repeat split; congruence).
             ++ destruct periodic eqn:PE.
                ** cbn [whole] in E. injection E as <- <-. eapply (NAT [NStarted]); [now right; left| | | |rewrite S1, <- A; reflexivity|intros _; exact I]; cbn; rewrite <- ?D; auto; try (repeat split; congruence).
                ** unfold v_pred in E. cbn [whole set_fld vfld_eqb] in E. rewrite FA in E. cbn [whole set_fld vfld_eqb] in E. rewrite FE in E. cbn [whole] in E. injection E as <- <-.
                   eapply (NAT [NStarted]); [now right; left| | | |rewrite S1, <- A; reflexivity|intros _; exact I]; cbn; rewrite <- ?D; auto; try (repeat split; congruence).
          -- cbn [whole set_fld vfld_eqb] in E. rewrite FE in E. cbn [whole] in E. injection E as <- <-.
             eapply (NAT [NStarted]); [now right; left| | | |rewrite S1, <- A, <- D; reflexivity|intros _; exact I]; cbn; auto; try (repeat split; congruence).
          -- cbn [whole] in E. injection E as <- <-. eapply (NAT []); [now left| | | |rewrite S1, <- A, <- D; reflexivity|intros _; exact I]; cbn; auto; try (repeat split; congruence).
        * (* LTCheck *)
          assert (S1 : mstep s XNat = if negb (m_active s) || m_end s then Some (leave_wait s, []) else Some (m_nto s LTimed, [])) by (cbn [m_step]; now rewrite NS).
          unfold v_pred, v_leave in E. cbn [whole] in E. destruct (b_fld b VActive) eqn:FA; cbn [whole] in E; [destruct (b_fld b VEnd) eqn:FE|].
          -- cbn [whole set_fld vfld_eqb] in E. rewrite FE in E. cbn [whole] in E. injection E as <- <-.
             eapply (NAT [NStopped]); [now right; right| | | |rewrite S1, <- A, <- D; reflexivity|intros _; exact I]; unfold leave_wait; cbn; rewrite <- ?D; auto; try (repeat split; congruence).
          -- cbn [whole] in E. injection E as <- <-. eapply (NAT []); [now left| | | |rewrite S1, <- A, <- D; reflexivity|intros _; exact I]; cbn; auto; try (repeat split; congruence).
          -- cbn [whole set_fld vfld_eqb] in E. rewrite D in E. destruct (m_end s) eqn:ME; cbn [whole] in E; injection E as <- <-;
               (eapply (NAT [NStopped]); [now right; right| | | |rewrite S1, <- A; reflexivity|intros _; exact I]; unfold leave_wait; cbn; rewrite ?ME; auto; try (repeat split; congruence)).
        * (* LClear *)
          injection E as <- <-. eapply (NAT [] _ _ _ XNat); [now left| | | |cbn [m_step]; rewrite NS; reflexivity|intros _; exact I]; cbn; auto; try (repeat split; congruence).
      + (* after a time-out *)
        assert (T1 : tmn b = 1) by (unfold tmn; now rewrite N). cbn [v_section] in E. unfold v_pred, v_leave in E. cbn [whole] in E.
        assert (LV : negb (m_active s) || m_end s = true -> exists lb, m_own_step lb /\ mstep s lb = Some (leave_wait s, [])).
        { intros Z. destruct NT as [NS|NS]; [exists XTimeout|exists XNat]; (split; [exact I|]); cbn [m_step]; rewrite NS, Z; reflexivity. }
        assert (GO : negb (m_active s) || m_end s = true -> vmatched (v_bown (BSec 0)) b s
                  (mkB (set_fld vfld bool vfld_eqb (b_fld b) VStopped true) (fupd (fun u => wakes vcnd vpc v_wake [NStopped] (b_pc b u)) 0 (VN (if m_end s then LDone else LCheck)))) []).
        { intros Z. destruct (LV Z) as (lb & OW & ST). eapply (NAT [NStopped]); [now right; right| | | |exact ST|intros _; exact OW]; unfold leave_wait; cbn; auto; try (repeat split; congruence). }
        destruct (b_fld b VActive) eqn:FA; cbn [whole] in E; [destruct (b_fld b VEnd) eqn:FE|].
        * cbn [whole set_fld vfld_eqb] in E. rewrite FE in E. cbn [whole] in E. injection E as <- <-. rewrite <- A, <- D in GO. now apply GO.
        * cbn [whole] in E. injection E as <- <-. destruct NT as [NS|NS].
          -- eapply (NAT [] _ _ _ XTimeout); [now left| | | |cbn [m_step]; rewrite NS, <- A, <- D; reflexivity|intros _; exact I]; cbn; auto; try (repeat split; congruence).
          -- apply (vnative_one _ b s [] _ _ _ [XNat; XTimeout] (m_nto (m_nto s LTimed) LFire)); auto.
             ++ cbn. repeat split; congruence.
             ++ now left.
             ++ cbn [exec m_step]. rewrite NS, <- A, <- D. cbn [negb orb m_step m_nto m_nat m_active m_end]. rewrite <- A, <- D. reflexivity.
             ++ intros x [<-|[<-|[]]] _; exact I.
             ++ rewrite T1. cbn. lia.
        * cbn [whole set_fld vfld_eqb] in E. rewrite D in E. rewrite <- A in GO. destruct (m_end s); cbn [whole] in E; injection E as <- <-; now apply GO.
    - (* a client's sections *)
      rewrite Q in E. destruct (m_thr s t) as [|c|c|c| |r] eqn:TS; cbn [v_section] in E; try discriminate.
      + assert (CLI : forall ds m' q' es' s', (ds = [] \/ ds = [NActive]) ->
              (m' VActive = m_active s' /\ m' VStarted = m_started s' /\ m' VStopped = m_stopped s' /\ m' VEnd = m_end s') ->
              m_nat s' = (match ds with [] => m_nat s | _ => wake_active (m_nat s) end) -> m_thr s' = fupd (m_thr s) t q' ->
              mstep s (XStep t) = Some (s', es') ->
              vmatched (v_bown (BSec (S t))) b s (mkB m' (fupd (fun u => wakes vcnd vpc v_wake ds (b_pc b u)) (S t) (VC t q'))) es').
        { intros ds m' q' es' s' DS F' N' T' E'. apply (vclient_one _ b s t ds m' q' es' (XStep t) s'); auto; try exact I. }
        destruct c; try discriminate; cbn [whole] in E.
        * destruct (b_fld b VActive) eqn:FA; cbn [whole] in E.
          -- injection E as <- <-. eapply (CLI []); [now left| | | |cbn [m_step]; rewrite TS, <- A; reflexivity]; cbn; auto; try (repeat split; congruence).
          -- unfold v_start in E. cbn [whole] in E. destruct (b_fld b VStopped) eqn:FS; cbn [whole] in E; injection E as <- <-.
             ++ eapply (CLI [NActive]); [now right| | | |cbn [m_step]; rewrite TS, <- A; unfold start_body; rewrite <- C; reflexivity]; cbn; auto; try (repeat split; congruence).
             ++ eapply (CLI []); [now left| | | |cbn [m_step]; rewrite TS, <- A; unfold start_body; rewrite <- C; reflexivity]; cbn; auto; try (repeat split; congruence).
        * destruct (b_fld b VActive) eqn:FA; cbn [whole] in E.
          -- unfold v_stop in E. cbn [whole] in E. destruct (b_fld b VStarted) eqn:FS; cbn [whole] in E; injection E as <- <-.
             ++ eapply (CLI [NActive]); [now right| | | |cbn [m_step]; rewrite TS, <- A; unfold stop_body; rewrite <- B; reflexivity]; cbn; auto; try (repeat split; congruence).
             ++ eapply (CLI []); [now left| | | |cbn [m_step]; rewrite TS, <- A; unfold stop_body; rewrite <- B; reflexivity]; cbn; auto; try (repeat split; congruence).
          -- injection E as <- <-. eapply (CLI []); [now left| | | |cbn [m_step]; rewrite TS, <- A; reflexivity]; cbn; auto; try (repeat split; congruence).
        * injection E as <- <-. rewrite A. eapply (CLI []); [now left| | | |cbn [m_step]; rewrite TS; reflexivity]; cbn; auto; try (repeat split; congruence).
        * injection E as <- <-. eapply (CLI [NActive]); [now right| | | |cbn [m_step]; rewrite TS; reflexivity]; cbn; auto; try (repeat split; congruence).
      + assert (CLI : forall ds m' q' es' s', (ds = [] \/ ds = [NActive]) ->
              (m' VActive = m_active s' /\ m' VStarted = m_started s' /\ m' VStopped = m_stopped s' /\ m' VEnd = m_end s') ->
              m_nat s' = (match ds with [] => m_nat s | _ => wake_active (m_nat s) end) -> m_thr s' = fupd (m_thr s) t q' ->
              mstep s (XStep t) = Some (s', es') ->
              vmatched (v_bown (BSec (S t))) b s (mkB m' (fupd (fun u => wakes vcnd vpc v_wake ds (b_pc b u)) (S t) (VC t q'))) es').
        { intros ds m' q' es' s' DS F' N' T' E'. apply (vclient_one _ b s t ds m' q' es' (XStep t) s'); auto; try exact I. }
        destruct c; try discriminate.
        * unfold v_start in E. cbn [whole] in E. destruct (b_fld b VStopped) eqn:FS; cbn [whole] in E; injection E as <- <-.
          -- eapply (CLI [NActive]); [now right| | | |cbn [m_step]; rewrite TS; unfold start_body; rewrite <- C; reflexivity]; cbn; auto; try (repeat split; congruence).
          -- eapply (CLI []); [now left| | | |cbn [m_step]; rewrite TS; unfold start_body; rewrite <- C; reflexivity]; cbn; auto; try (repeat split; congruence).
        * unfold v_stop in E. cbn [whole] in E. destruct (b_fld b VStarted) eqn:FS; cbn [whole] in E; injection E as <- <-.
          -- eapply (CLI [NActive]); [now right| | | |cbn [m_step]; rewrite TS; unfold stop_body; rewrite <- B; reflexivity]; cbn; auto; try (repeat split; congruence).
          -- eapply (CLI []); [now left| | | |cbn [m_step]; rewrite TS; unfold stop_body; rewrite <- B; reflexivity]; cbn; auto; try (repeat split; congruence).
    - (* outside of the mutex *)
      destruct (v_outer periodic l (b_pc b (v_actor l)) (v_test l (b_pc b (v_peer l)))) as [[p' es']|] eqn:X; [|discriminate]. injection E as <- <-.
      assert (CLI : forall t q' es' lb, mstep s lb = Some (m_go s t q', es') -> (v_bown (BOuter l) -> m_own_step lb) ->
                vmatched (v_bown (BOuter l)) b s (mkB (b_fld b) (fupd (b_pc b) (S t) (VC t q'))) es').
      { intros t q' es0 lb E OW. change (b_pc b) with (fun u => wakes vcnd vpc v_wake [] (b_pc b u)) at 1.
        apply (vclient_one _ b s t [] (b_fld b) q' es0 lb (m_go s t q')); auto; now repeat split. }
      assert (NA1 : forall n' es' lb, mstep s lb = Some (m_nto s n', es') -> (v_bown (BOuter l) -> m_own_step lb) ->
                vmatched (v_bown (BOuter l)) b s (mkB (b_fld b) (fupd (b_pc b) 0 (VN n'))) es').
      { intros n' es0 lb E OW. change (b_pc b) with (fun u => wakes vcnd vpc v_wake [] (b_pc b u)) at 1.
        apply (NAT [] (b_fld b) n' es0 lb (m_nto s n')); auto; now repeat split. }
      destruct l as [t c|t|t|t| | | |]; cbn [v_actor v_outer v_peer] in X |- *.
      + rewrite Q in X. destruct (m_thr s t) as [|c'|c'|c'| |r] eqn:TS; try discriminate.
        assert (CB : v_callable t (v_test (VCall t c) (b_pc b 0)) c = callable t (m_nat s) c).
        { destruct N as [N|(N & NT)]; rewrite N; [destruct (m_nat s); destruct c; reflexivity|]. destruct NT as [NS|NS]; rewrite NS; destruct c; reflexivity. }
        rewrite CB in X. destruct (callable t (m_nat s) c) eqn:CC; [|discriminate]. injection X as <- <-.
        apply (CLI t (MAt c) _ (XCall t c)); [cbn [m_step]; now rewrite TS, CC|intros []].
      + rewrite Q in X. destruct (m_thr s t) as [|c'|c'|c'| |r] eqn:TS; try discriminate. destruct c'; try discriminate; injection X as <- <-;
          (apply (CLI t _ _ (XSpurious t)); [cbn [m_step]; now rewrite TS|intros []]).
      + rewrite Q in X. destruct (m_thr s t) as [|c'|c'|c'| |r] eqn:TS; try discriminate.
        destruct N as [N|(N & NT)]; rewrite N in X; [|discriminate]. destruct (m_nat s) eqn:NS; try discriminate. injection X as <- <-.
        apply (CLI t _ _ (XStep t)); [cbn [m_step]; now rewrite TS, NS|intros _; exact I].
      + rewrite Q in X. destruct (m_thr s t) as [|c'|c'|c'| |r] eqn:TS; try discriminate. injection X as <- <-.
        apply (CLI t _ _ (XStep t)); [cbn [m_step]; now rewrite TS|intros _; exact I].
      + destruct N as [N|(N & NT)]; rewrite N in X; [|discriminate]. destruct (m_nat s) eqn:NS; try discriminate. injection X as <- <-.
        change (b_pc b) with (fun u => wakes vcnd vpc v_wake [] (b_pc b u)) at 1.
        apply (vnative_one _ b s [] (b_fld b) VTmo [] [] s); auto.
        * right. split; [reflexivity|now left].
        * intros x [].
        * unfold tmn. rewrite N. cbn. lia.
      + destruct N as [N|(N & NT)]; rewrite N in X; [|discriminate]. destruct (m_nat s) eqn:NS; try discriminate. injection X as <- <-.
        apply (NA1 _ _ XNat); [cbn [m_step]; now rewrite NS|intros _; exact I].
      + destruct N as [N|(N & NT)]; rewrite N in X; [|discriminate]. destruct (m_nat s) eqn:NS; try discriminate.
        rewrite Q in X. cbn [v_test] in X. destruct (m_thr s 0) eqn:T0; try discriminate.
        destruct periodic eqn:PE; injection X as <- <-; (apply (NA1 _ _ XNat); [cbn [m_step]; now rewrite NS, T0|intros _; exact I]).
      + destruct N as [N|(N & NT)]; rewrite N in X; [|discriminate]. destruct (m_nat s) eqn:NS; try discriminate; injection X as <- <-;
          (apply (NA1 _ _ XNatSpurious); [cbn [m_step]; now rewrite NS|intros []]).
  Qed.

  Lemma vrel_exec : forall ls b s b' es, vrel b s -> exec v_bstep b ls = Some (b', es) ->
    exists ls' s', exec mstep s ls' = Some (s', es) /\ vrel b' s' /\
      ((forall l, In l ls -> v_bown l) -> (forall l, In l ls' -> m_own_step l) /\ length ls + tmn b <= 2 * length ls' + tmn b').
  Proof.
    induction ls as [|l ls IH]; intros b s b' es H E; cbn [exec] in E.
    - injection E as <- <-. exists [], s. split; [reflexivity|]. split; [exact H|]. intros _. split; [intros ? []|]. cbn. lia.
    - destruct (v_bstep b l) as [[b1 e1]|] eqn:E1; [|discriminate]. destruct (exec v_bstep b1 ls) as [[b2 e2]|] eqn:E2; [|discriminate].
      injection E as <- <-. destruct (vrel_step _ _ _ _ _ H E1) as (l1 & s1 & X1 & H1 & O1 & N1).
      destruct (IH _ _ _ _ H1 E2) as (l2 & s2 & X2 & H2 & R). exists (l1 ++ l2), s2. split; [rewrite exec_app, X1, X2; reflexivity|]. split; [exact H2|].
      intros OW. assert (OL := OW l (or_introl eq_refl)). destruct (R (fun x h => OW x (or_intror h))) as (O2 & N2). split.
      + intros x I. apply in_app_or in I. destruct I as [I|I]; [now apply (O1 OL)|now apply O2].
      + specialize (N1 OL). rewrite app_length. cbn [length]. lia.
  Qed.
  Lemma v_init_rel : vrel (mkB v_fld0 v_pc0) m_init.
  Proof. unfold vrel. cbn. repeat split. now left. Qed.

  Definition vlink (f : fstate vfld bool vcnd vpc vev) (s : mst) : Prop := exists b, v_same f b /\ vrel b s.
  Theorem fine_timer ls f es : exec (v_step periodic) v_init ls = Some (f, es) -> exists ls' s, exec mstep m_init ls' = Some (s, es) /\ vlink f s.
  Proof.
    intros E. destruct (monitor_atomic v_ok _ _ _ _ _ (same_init _ _) E) as (l1 & b & X1 & H1 & _).
    destruct (vrel_exec _ _ _ _ _ v_init_rel X1) as (l2 & s & X2 & H2 & _). exists l2, s. split; [exact X2|]. exists b. now split.
  Qed.
  Theorem fine_timer_from f s ls f' es : vlink f s -> exec (v_step periodic) f ls = Some (f', es) ->
    exists ls' s', exec mstep s ls' = Some (s', es) /\ vlink f' s' /\
      ((forall l, In l ls -> v_own_step l) -> (forall l, In l ls' -> m_own_step l) /\ length ls <= 18 * length ls' + 18).
  Proof.
    intros (b & H & R) E. destruct (monitor_atomic v_ok _ _ _ _ _ H E) as (l1 & b1 & X1 & H1 & F1 & N1).
    destruct (vrel_exec _ _ _ _ _ R X1) as (l2 & s2 & X2 & H2 & W2). exists l2, s2. split; [exact X2|]. split; [exists b1; now split|].
    intros O. assert (OB : forall l, In l l1 -> v_bown l) by (intros [t|l] I; [exact Logic.I|apply (O (FOuter l)); now apply F1]).
    destruct (W2 OB) as (O2 & C2). split; [exact O2|]. assert (M1 := made_le vfld_eqb 8 f').
    assert (T1 : tmn b1 <= 1) by (unfold tmn; destruct (b_pc b1 0); lia). lia.
  Qed.
  Lemma wakes_idle t ds : wakes vcnd vpc v_wake ds (VC t MIdle) = VC t MIdle.
  Proof. induction ds as [|d ds IH]; [reflexivity|]. destruct d; exact IH. Qed.
  (** a caller that is idle here is idle there *)
  Lemma vlink_idle f s t : vlink f s -> (m_idle s t <-> v_idle f t).
  Proof.
    intros (b & H & (_ & _ & Q)). unfold m_idle, v_idle. unfold same in H. destruct (f_own f) as [o|].
    - destruct H as (c0 & c & ds & SC & P & _ & _ & QF). destruct (Nat.eq_dec (S t) o) as [<-|NE].
      + rewrite P. split; [|discriminate]. intros Z. rewrite Q, Z in SC. discriminate.
      + rewrite (QF _ NE), Q. split.
        * intros ->. now rewrite wakes_idle.
        * intros X. injection X as X. assert (Z : v_section periodic (wakes vcnd vpc v_wake ds (VC t (m_thr s t))) = None) by (rewrite X; reflexivity).
          apply (wakes_none v_ok) in Z. rewrite X in Z. now injection Z.
    - destruct H as (_ & P). rewrite P, Q. split; [now intros ->|]. intros X. now injection X.
  Qed.
  Theorem fine_timer_stuck f s : vlink f s -> v_stuck periodic f -> m_stuck periodic s.
  Proof.
    intros (b & H & (F & N & Q)) ST.
    assert (MV : forall t, v_step periodic f (FMove t) = None) by (intros t; apply ST; exact I).
    assert (AC : forall t, v_step periodic f (FAcq t) = None) by (intros t; apply ST; exact I).
    destruct (stuck_same f b H MV) as (O & FF & P).
    assert (NS := stuck_sections f b H MV AC).
    assert (OUT : forall l, v_own_step (FOuter l) -> v_outer periodic l (b_pc b (v_actor l)) (v_test l (b_pc b (v_peer l))) = None).
    { intros l OW. assert (Y : v_step periodic f (FOuter l) = None) by (apply ST; exact OW).
      unfold v_step in Y. cbn [f_step] in Y. rewrite !P in Y. cbn [f_test] in Y.
      destruct (v_outer periodic l (b_pc b (v_actor l)) (v_test l (b_pc b (v_peer l)))) as [[? ?]|]; [discriminate|reflexivity]. }
    assert (NN : b_pc b 0 = VN (m_nat s)).
    { destruct N as [N|(N & _)]; [exact N|]. specialize (NS 0). rewrite N in NS. discriminate. }
    assert (NT : m_nat s <> LTimed).
    { intros Z. assert (Y := OUT VTimeout I). cbn [v_actor v_outer] in Y. rewrite NN, Z in Y. discriminate. }
    split; [|split].
    - intros t. cbn [m_step]. assert (NC := NS (S t)). rewrite Q in NC. destruct (m_thr s t) as [|c|c|c| |r] eqn:TS; try reflexivity.
      + destruct c; try reflexivity; discriminate.
      + destruct c; try reflexivity; discriminate.
      + assert (Y := OUT (VJoin t) I). cbn [v_actor v_outer v_peer] in Y. rewrite Q, TS, NN in Y. cbn [v_test] in Y.
        destruct (m_nat s); try reflexivity. discriminate.
      + assert (Y := OUT (VRet t) I). cbn [v_actor v_outer] in Y. rewrite Q, TS in Y. discriminate.
    - cbn [m_step]. assert (N0 := NS 0). rewrite NN in N0. destruct (m_nat s) eqn:NA; try reflexivity; try discriminate.
      + assert (Y := OUT VFire I). cbn [v_actor v_outer] in Y. rewrite NN in Y. discriminate.
      + assert (Y := OUT VRunEnd I). cbn [v_actor v_outer v_peer] in Y. rewrite NN, Q in Y. cbn [v_test] in Y. destruct (m_thr s 0); try reflexivity. discriminate.
    - cbn [m_step]. destruct (m_nat s) eqn:NA; try reflexivity. now elim NT.
  Qed.
  (** the fields, when the mutex is free *)
  Lemma vlink_fields f s : vlink f s -> f_own f = None -> f_fld f VActive = m_active s.
  Proof. intros (b & H & ((A & _) & _)) O. unfold same in H. rewrite O in H. destruct H as (-> & _). exact A. Qed.
End Timer.
