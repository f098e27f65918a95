(** Proofs about the Windows timer model. *)
From Coq Require Import List Bool Lia Arith.
Import ListNotations.
From Verif Require Import Spec.Linear Spec.WinTimerSpec OS.Sched OS.WinTimerModel.

(** * registered timers *)
Lemma mem_in i l : w_mem i l = true <-> In i l.
Proof.
  unfold w_mem. rewrite existsb_exists. split.
  - intros (x & H & E). apply Nat.eqb_eq in E. now subst.
  - intros H. exists i. split; [exact H|apply Nat.eqb_refl].
Qed.
Lemma mem_not i l : w_mem i l = false <-> ~ In i l.
Proof. rewrite <- mem_in. destruct (w_mem i l); split; congruence. Qed.
Lemma del_in i j l : In j (w_del i l) <-> In j l /\ j <> i.
Proof. unfold w_del. rewrite filter_In, negb_true_iff, Nat.eqb_neq. split; intros [A B]; split; auto. Qed.
Lemma del_nodup i l : NoDup l -> NoDup (w_del i l).
Proof. apply NoDup_filter. Qed.
Lemma del_out i l : ~ In i l -> w_del i l = l.
Proof.
  induction l as [|j l IH]; cbn; intros H; [reflexivity|]. destruct (Nat.eqb_spec i j) as [->|N].
  - elim H. now left.
  - cbn. f_equal. apply IH. tauto.
Qed.
Lemma del_len i l : NoDup l -> In i l -> S (length (w_del i l)) = length l.
Proof.
  induction l as [|j l IH]; cbn; intros N H; [destruct H|]. inversion N; subst.
  destruct (Nat.eqb_spec i j) as [->|M]; cbn.
  - f_equal. fold (w_del j l). rewrite del_out by assumption. reflexivity.
  - f_equal. apply IH; [assumption|]. destruct H; [congruence|assumption].
Qed.

(** * state invariant *)
Definition flying (k : wpc) : option nat := match k with KDisp i | KReset i | KRun i | KTail i => Some i | _ => None end.
Definition ev_of (k : wpc) : bool := match k with KReset _ | KRun _ | KTail _ => false | _ => true end.
Definition wok (t : nat) (q : cpc) : Prop :=
  match q with
  | CIdle | CRet _ => True
  | CAt c => c = WStart \/ c = WStop \/ c = WIsStarted
  | CAtD | CWait | CFree => t <> 0
  end.
Record winv (p : bool) (s : wst) : Prop := {
  wi_zero : w_thr s 0 <> CIdle -> exists i, w_wk s = KRun i;
  wi_thr : forall t, wok t (w_thr s t);
  wi_ev : w_ev s = ev_of (w_wk s);
  wi_nd : NoDup (w_armed s);
  wi_lt : forall i, In i (w_armed s) -> i < w_next s;
  wi_fl : forall i, flying (w_wk s) = Some i -> i < w_next s /\ (p = false -> ~ In i (w_armed s));
  wi_on : p = false -> w_on s = true -> In (w_id s) (w_armed s) \/ flying (w_wk s) = Some (w_id s);
  wi_per : p = true -> w_armed s = (if w_on s then [w_id s] else []) /\ w_wk s <> KUnlock
}.
Lemma winv_init p : winv p w_init.
Proof. constructor; cbn; try congruence; try tauto; try constructor; auto; try discriminate. Qed.

(** a caller moves, the rest of the object is the same *)
Lemma winv_go p s t q : winv p s -> (q <> CIdle -> t = 0 -> exists i, w_wk s = KRun i) -> wok t q -> winv p (w_go s t q).
Proof.
  intros [Z T EV ND LT FL ON PE] Q K. constructor; cbn; auto.
  - intros H. unfold fupd in H. destruct (Nat.eqb_spec 0 t) as [<-|]; [now apply Q|now apply Z].
  - intros u. rewrite fupd_eq. destruct (Nat.eqb_spec u t) as [->|]; [exact K|apply T].
Qed.
Lemma winv_start p s ok s1 r : winv p s -> w_start s ok = (s1, r) -> winv p s1.
Proof.
  intros I E. unfold w_start in E. destruct (w_on s) eqn:ON0; [|destruct ok]; injection E as <- <-; auto.
  destruct I as [Z T EV ND LT FL ON PE]. constructor; cbn; auto.
  - constructor; [|exact ND]. intros H. specialize (LT _ H). lia.
  - intros i [<-|H]; [lia|]. specialize (LT _ H). lia.
  - intros i F. destruct (FL i F) as (A & B). split; [lia|]. intros P [H|H]; [lia|]. now apply (B P).
  - intros P. destruct (PE P) as (A & B). rewrite ON0 in A. now rewrite A.
Qed.
Lemma winv_stop p s ok s1 r : winv p s -> w_stop s ok = (s1, r) -> winv p s1.
Proof.
  intros I E. unfold w_stop in E. destruct (w_on s) eqn:ON0; cbn in E.
  - destruct (w_mem (w_id s) (w_armed s)) eqn:M; [|destruct ok]; injection E as <- <-; auto.
    + destruct I as [Z T EV ND LT FL ON PE]. constructor; cbn; auto.
      * now apply del_nodup.
      * intros i H. apply del_in in H. now apply LT.
      * intros i F. destruct (FL i F) as (A & B). split; [exact A|]. intros P H. apply del_in in H. now apply B.
      * discriminate.
      * intros P. destruct (PE P) as (A & B). rewrite ON0 in A. rewrite A. cbn. rewrite Nat.eqb_refl. cbn. auto.
    + destruct I as [Z T EV ND LT FL ON PE]. constructor; cbn; auto; try discriminate.
      intros P. destruct (PE P) as (A & B). rewrite ON0 in A. rewrite A in M. cbn in M. rewrite Nat.eqb_refl in M. discriminate.
  - injection E as <- <-. exact I.
Qed.
Lemma start_thr s ok s1 r : w_start s ok = (s1, r) -> w_thr s1 = w_thr s /\ w_wk s1 = w_wk s /\ w_freed s1 = w_freed s /\ w_ev s1 = w_ev s.
Proof. unfold w_start. destruct (w_on s); [|destruct ok]; intros [= <- <-]; cbn; auto. Qed.
Lemma stop_thr s ok s1 r : w_stop s ok = (s1, r) -> w_thr s1 = w_thr s /\ w_wk s1 = w_wk s /\ w_freed s1 = w_freed s /\ w_ev s1 = w_ev s.
Proof. unfold w_stop. destruct (w_on s); cbn; [destruct (w_mem _ _); [|destruct ok]|]; intros [= <- <-]; cbn; auto. Qed.

Lemma winv_step p s l s' e : winv p s -> w_step p s l = Some (s', e) -> winv p s'.
Proof.
  intros I E. pose proof I as [Z T EV ND LT FL ON PE]. destruct l as [t c|t ok|i|]; cbn in E.
  - destruct (w_thr s t) eqn:ET; try discriminate. destruct (w_callable t (w_wk s) c) eqn:CC; [|discriminate].
    destruct (w_freed s); [discriminate|]. cbn in E.
    assert (T0 : t = 0 -> exists i, w_wk s = KRun i).
    { intros ->. destruct c; cbn in CC; try discriminate; destruct (w_wk s); try discriminate; eauto. }
    destruct c; cbn in CC; try discriminate; injection E as <- <-; apply winv_go; cbn; auto.
    destruct (Nat.eqb_spec t 0); [discriminate|assumption].
  - assert (T0 : t = 0 -> w_thr s t <> CIdle -> exists i, w_wk s = KRun i) by (intros -> H; now apply Z).
    pose proof (T t) as MT. destruct (w_thr s t) as [|c| | | |r] eqn:ET; try discriminate.
    + destruct (w_freed s); [discriminate|]. destruct MT as [-> |[-> | ->]].
      * destruct (w_locked s); [discriminate|]. destruct (w_start s ok) as [s1 r] eqn:E1. injection E as <- <-.
        destruct (start_thr _ _ _ _ E1) as (A & B & _). apply winv_go; [exact (winv_start _ _ _ _ _ I E1)| |exact Logic.I].
        rewrite B. intros _ X. apply T0; [exact X|congruence].
      * destruct (w_locked s); [discriminate|]. destruct (w_stop s ok) as [s1 r] eqn:E1. injection E as <- <-.
        destruct (stop_thr _ _ _ _ E1) as (A & B & _). apply winv_go; [exact (winv_stop _ _ _ _ _ I E1)| |exact Logic.I].
        rewrite B. intros _ X. apply T0; [exact X|congruence].
      * destruct (w_locked s); [discriminate|]. injection E as <- <-. apply winv_go; [exact I| |exact Logic.I].
        intros _ X. apply T0; [exact X|congruence].
    + destruct (w_freed s); [discriminate|]. destruct (w_locked s); [discriminate|]. destruct (w_stop s ok) as [s1 r] eqn:E1. injection E as <- <-.
      destruct (stop_thr _ _ _ _ E1) as (A & B & _). apply winv_go; [exact (winv_stop _ _ _ _ _ I E1)| |exact MT].
      intros _ X. elim MT. exact X.
    + destruct (w_freed s); [discriminate|]. destruct (w_ev s); [|discriminate]. injection E as <- <-. apply winv_go; [exact I| |exact MT].
      intros _ X. elim MT. exact X.
    + destruct (w_freed s); [discriminate|]. injection E as <- <-. constructor; cbn; auto.
      * intros H. unfold fupd in H. destruct (Nat.eqb_spec 0 t) as [<-|]; [now elim MT|now apply Z].
      * intros u. rewrite fupd_eq. destruct (Nat.eqb_spec u t) as [->|]; [exact Logic.I|apply T].
    + injection E as <- <-. apply winv_go; [exact I| |exact Logic.I]. congruence.
  - destruct (w_wk s) eqn:EK; try discriminate. destruct (w_mem i (w_armed s)) eqn:M; [|discriminate]. destruct (w_freed s); [discriminate|]. cbn in E. injection E as <- <-.
    apply mem_in in M. constructor; cbn; auto.
    + intros H. destruct (Z H) as (x & X). discriminate X.
    + destruct p; [exact ND|now apply del_nodup].
    + intros j H. apply LT. destruct p; [exact H|now apply del_in in H].
    + intros j [= ->]. split; [now apply LT|]. intros ->. rewrite del_in. tauto.
    + intros -> O. destruct (ON eq_refl O) as [H|H]; [|discriminate H].
      destruct (Nat.eq_dec (w_id s) i) as [->|N]; [now right|]. left. now apply del_in.
    + intros ->. destruct (PE eq_refl) as (A & B). split; [exact A|discriminate].
  - destruct (w_freed s); [discriminate|]. destruct (w_wk s) as [|i|i|i|i|] eqn:EK; try discriminate.
    + injection E as <- <-. constructor; cbn; auto.
      * intros H. destruct (Z H) as (x & X). discriminate X.
      * intros P. split; [now apply PE|discriminate].
    + injection E as <- <-. constructor; cbn; auto.
      * intros H. destruct (Z H) as (x & X). discriminate X.
      * intros P. split; [now apply PE|discriminate].
    + destruct (w_thr s 0) eqn:E0; try discriminate.
      destruct p; injection E as <- <-; (constructor; cbn; auto; try congruence). intros _. split; [now apply PE|discriminate].
    + destruct p; injection E as <- <-; (constructor; cbn; auto; try congruence).
      * intros H. destruct (Z H) as (x & X). discriminate X.
      * intros _. split; [now apply PE|discriminate].
      * intros H. destruct (Z H) as (x & X). discriminate X.
    + injection E as <- <-. constructor; cbn; auto; try discriminate.
      * intros H. destruct (Z H) as (x & X). discriminate X.
      * intros P. split; [now apply PE|discriminate].
Qed.
Lemma winv_exec p ls s es : exec (w_step p) w_init ls = Some (s, es) -> winv p s.
Proof. exact (exec_inv_st _ _ _ (w_step p) (winv p) (fun s l s' e => winv_step p s l s' e) ls w_init s es (winv_init p)). Qed.
Lemma winv_run p ls s0 s es : winv p s0 -> exec (w_step p) s0 ls = Some (s, es) -> winv p s.
Proof. exact (exec_inv_st _ _ _ (w_step p) (winv p) (fun s l s' e => winv_step p s l s' e) ls s0 s es). Qed.

(** * linearizability *)
Definition st_of (q : cpc) : status wcall wres :=
  match q with CIdle => Out | CAt c => Pending c | CAtD => Pending WStop | CWait | CFree => Pending WDestroy | CRet r => Done r end.
Definition stof (p : bool) (s : wst) (t : nat) : status wcall wres :=
  if Nat.eqb t 0 then match w_wk s with KTail _ => if p then st_of (w_thr s 0) else Pending WEnd | _ => st_of (w_thr s 0) end else st_of (w_thr s t).
Definition fl_of (p : bool) (k : wpc) : wflight :=
  match k with KDisp _ | KReset _ => FDue | KRun _ => FRunning | KTail _ => if p then FRest else FRunning | KFree | KUnlock => FRest end.
Definition cur (s : wst) : bool := w_on s && w_mem (w_id s) (w_armed s).
Definition abs (p : bool) (s : wst) : wstate :=
  mkWS (w_on s) (cur s) (length (w_armed s) - (if cur s then 1 else 0)) (fl_of p (w_wk s)) (w_freed s).
Definition linto (p : bool) (s : wst) (es : wout) : Prop :=
  exists f, lin_run (wspec p) (fun _ => Out) w_new es f (abs p s) /\ forall t, f t = stof p s t.

Lemma linto_nil p s es s' : linto p s es -> abs p s' = abs p s -> (forall u, stof p s' u = stof p s u) -> linto p s' (es ++ []).
Proof. intros (f & L & F) A E. exists f. rewrite app_nil_r, A. split; [exact L|]. intros t. now rewrite F, E. Qed.
Lemma linto_call p s es s' t c : linto p s es -> abs p s' = abs p s -> stof p s t = Out ->
  (forall u, stof p s' u = if Nat.eqb u t then Pending c else stof p s u) -> linto p s' (es ++ [Call t c]).
Proof.
  intros (f & L & F) A O E. exists (set_st f t (Pending c)). split.
  - eapply lin_run_app; [exact L|]. rewrite A. apply lr_call; [now rewrite F|constructor].
  - intros u. unfold set_st. rewrite E. destruct (Nat.eqb u t); [reflexivity|apply F].
Qed.
Lemma linto_eff p s es s' t c r : linto p s es -> stof p s t = Pending c -> wspec p (abs p s) t c r (abs p s') ->
  (forall u, stof p s' u = if Nat.eqb u t then Done r else stof p s u) -> linto p s' (es ++ [Eff t c r]).
Proof.
  intros (f & L & F) O P E. exists (set_st f t (Done r)). split.
  - eapply lin_run_app; [exact L|]. eapply lr_eff; [now rewrite F|exact P|constructor].
  - intros u. unfold set_st. rewrite E. destruct (Nat.eqb u t); [reflexivity|apply F].
Qed.
Lemma linto_ret p s es s' t r : linto p s es -> abs p s' = abs p s -> stof p s t = Done r ->
  (forall u, stof p s' u = if Nat.eqb u t then Out else stof p s u) -> linto p s' (es ++ [Ret t r]).
Proof.
  intros (f & L & F) A O E. exists (set_st f t Out). split.
  - eapply lin_run_app; [exact L|]. rewrite A. eapply lr_ret; [now rewrite F|constructor].
  - intros u. unfold set_st. rewrite E. destruct (Nat.eqb u t); [reflexivity|apply F].
Qed.
(** the stop of the destructor, which then goes on to wait *)
Lemma linto_stop_destroy p s es s' t r : linto p s es -> stof p s t = Pending WStop -> wspec p (abs p s) t WStop r (abs p s') ->
  (forall u, stof p s' u = if Nat.eqb u t then Pending WDestroy else stof p s u) -> linto p s' (es ++ [Eff t WStop r; Ret t r; Call t WDestroy]).
Proof.
  intros (f & L & F) O P E. exists (set_st (set_st (set_st f t (Done r)) t Out) t (Pending WDestroy)). split.
  - eapply lin_run_app; [exact L|]. eapply lr_eff; [now rewrite F|exact P|]. apply lr_ret; [unfold set_st; now rewrite Nat.eqb_refl|].
    apply lr_call; [unfold set_st; now rewrite Nat.eqb_refl|constructor].
  - intros u. unfold set_st. rewrite E. destruct (Nat.eqb u t); [reflexivity|apply F].
Qed.
(** a complete action of the timer *)
Lemma linto_act p s es s' c r : linto p s es -> stof p s 0 = Out -> wspec p (abs p s) 0 c r (abs p s') ->
  (forall u, stof p s' u = stof p s u) -> linto p s' (es ++ w_act c r).
Proof.
  intros (f & L & F) O P E. exists (set_st (set_st (set_st f 0 (Pending c)) 0 (Done r)) 0 Out). split.
  - eapply lin_run_app; [exact L|]. apply lr_call; [now rewrite F|]. eapply lr_eff; [reflexivity|exact P|]. apply lr_ret; [reflexivity|constructor].
  - intros u. unfold set_st. rewrite E. destruct (Nat.eqb_spec u 0) as [->|]; [now rewrite O|apply F].
Qed.
Lemma linto_fin p s es s' c r : linto p s es -> stof p s 0 = Pending c -> wspec p (abs p s) 0 c r (abs p s') ->
  (forall u, stof p s' u = if Nat.eqb u 0 then Out else stof p s u) -> linto p s' (es ++ [Eff 0 c r; Ret 0 r]).
Proof.
  intros (f & L & F) O P E. exists (set_st (set_st f 0 (Done r)) 0 Out). split.
  - eapply lin_run_app; [exact L|]. eapply lr_eff; [now rewrite F|exact P|]. apply lr_ret; [reflexivity|constructor].
  - intros u. unfold set_st. rewrite E. destruct (Nat.eqb u 0); [reflexivity|apply F].
Qed.

(** statuses after a caller's step *)
Lemma stof_busy p s t : winv p s -> w_thr s t <> CIdle -> stof p s t = st_of (w_thr s t).
Proof.
  intros I H. unfold stof. destruct (Nat.eqb_spec t 0) as [->|]; [|reflexivity]. destruct (wi_zero _ _ I H) as (i & ->). reflexivity.
Qed.
Lemma stof_caller p s s' t q : (t = 0 -> exists i, w_wk s = KRun i) -> w_wk s' = w_wk s -> w_thr s' = fupd (w_thr s) t q ->
  forall u, stof p s' u = if Nat.eqb u t then st_of q else stof p s u.
Proof.
  intros T0 K TH u. unfold stof. rewrite K, TH. destruct (Nat.eqb_spec u 0) as [->|N].
  - destruct (Nat.eqb_spec 0 t) as [<-|M].
    + destruct (T0 eq_refl) as (i & ->). now rewrite fupd_same.
    + rewrite fupd_other by congruence. reflexivity.
  - rewrite fupd_eq. destruct (Nat.eqb u t); reflexivity.
Qed.
Lemma stof_caller_x p s s' t q x : st_of q = x -> (t = 0 -> exists i, w_wk s = KRun i) -> w_wk s' = w_wk s -> w_thr s' = fupd (w_thr s) t q ->
  forall u, stof p s' u = if Nat.eqb u t then x else stof p s u.
Proof. intros <-. apply stof_caller. Qed.
Lemma abs_go p s t q : abs p (w_go s t q) = abs p s.
Proof. reflexivity. Qed.

Lemma start_spec p s ok s1 r t : winv p s -> w_start s ok = (s1, r) -> wspec p (abs p s) t WStart r (abs p s1).
Proof.
  intros I E. unfold w_start in E. destruct (w_on s) eqn:ON; [|destruct ok]; injection E as <- <-; cbn; auto.
  split; [exact ON|]. unfold abs, cur. cbn. rewrite ON, Nat.eqb_refl. cbn. f_equal; try lia.
Qed.
Lemma stop_spec p s ok s1 r t : winv p s -> w_stop s ok = (s1, r) -> wspec p (abs p s) t WStop r (abs p s1).
Proof.
  intros I E. unfold w_stop in E. destruct (w_on s) eqn:ON; cbn in E.
  - destruct (w_mem (w_id s) (w_armed s)) eqn:M.
    + injection E as <- <-. cbn. split; [exact ON|]. unfold cur. rewrite ON, M. split; [reflexivity|]. unfold abs, cur, w_off. cbn [w_on w_id w_armed w_wk w_freed andb].
      apply mem_in in M. pose proof (del_len _ _ (wi_nd _ _ I) M). f_equal. lia.
    + assert (P : p = false).
      { destruct p; [|reflexivity]. destruct (wi_per _ _ I eq_refl) as (A & _). rewrite ON in A. rewrite A in M. cbn in M. rewrite Nat.eqb_refl in M. discriminate. }
      assert (C : cur s = false) by (unfold cur; now rewrite M, andb_false_r).
      assert (F : fl_of p (w_wk s) <> FRest).
      { apply mem_not in M. destruct (wi_on _ _ I P ON) as [H|H]; [contradiction|]. subst p. destruct (w_wk s); discriminate || (cbn in *; congruence). }
      destruct ok; injection E as <- <-; cbn; rewrite ?C; repeat split; auto.
  - injection E as <- <-. cbn. auto.
Qed.

Lemma linto_step p s es l s' e : winv p s -> linto p s es -> w_step p s l = Some (s', e) -> linto p s' (es ++ e).
Proof.
  intros I L E. pose proof I as [Z T EV ND LT FL ON PE]. destruct l as [t c|t ok|i|]; cbn in E.
  - destruct (w_thr s t) eqn:ET; try discriminate. destruct (w_callable t (w_wk s) c) eqn:CC; [|discriminate].
    destruct (w_freed s); [discriminate|]. cbn in E.
    assert (T0 : t = 0 -> exists i, w_wk s = KRun i).
    { intros ->. destruct c; cbn in CC; try discriminate; destruct (w_wk s); try discriminate; eauto. }
    assert (O : stof p s t = Out).
    { unfold stof. destruct (Nat.eqb_spec t 0) as [->|]; [|now rewrite ET]. destruct (T0 eq_refl) as (i & ->). now rewrite ET. }
    destruct c; cbn in CC; try discriminate; injection E as <- <-; (apply (linto_call p s); [exact L|reflexivity|exact O|]);
      (eapply stof_caller_x; [|exact T0|reflexivity|reflexivity]; reflexivity).
  - assert (T0 : w_thr s t <> CIdle -> t = 0 -> exists i, w_wk s = KRun i) by (intros H ->; now apply Z).
    pose proof (T t) as MT. pose proof (stof_busy p s t I) as O. destruct (w_thr s t) as [|c| | | |r] eqn:ET; try discriminate.
    + destruct (w_freed s); [discriminate|]. destruct MT as [-> |[-> | ->]].
      * destruct (w_locked s); [discriminate|]. destruct (w_start s ok) as [s1 r] eqn:E1. injection E as <- <-.
        destruct (start_thr _ _ _ _ E1) as (A & B & _). apply (linto_eff p s); [exact L|rewrite O by discriminate; reflexivity| |].
        -- rewrite abs_go. exact (start_spec _ _ _ _ _ t I E1).
        -- eapply stof_caller_x; [|intros X; apply T0; [discriminate|exact X]|exact B|cbn; rewrite A; reflexivity]; reflexivity.
      * destruct (w_locked s); [discriminate|]. destruct (w_stop s ok) as [s1 r] eqn:E1. injection E as <- <-.
        destruct (stop_thr _ _ _ _ E1) as (A & B & _). apply (linto_eff p s); [exact L|rewrite O by discriminate; reflexivity| |].
        -- rewrite abs_go. exact (stop_spec _ _ _ _ _ t I E1).
        -- eapply stof_caller_x; [|intros X; apply T0; [discriminate|exact X]|exact B|cbn; rewrite A; reflexivity]; reflexivity.
      * destruct (w_locked s); [discriminate|]. injection E as <- <-. apply (linto_eff p s); [exact L|rewrite O by discriminate; reflexivity| |].
        -- rewrite abs_go. cbn. auto.
        -- eapply stof_caller_x; [|intros X; apply T0; [discriminate|exact X]|reflexivity|reflexivity]; reflexivity.
    + destruct (w_freed s); [discriminate|]. destruct (w_locked s); [discriminate|]. destruct (w_stop s ok) as [s1 r] eqn:E1. injection E as <- <-.
      destruct (stop_thr _ _ _ _ E1) as (A & B & _). apply (linto_stop_destroy p s); [exact L|rewrite O by discriminate; reflexivity| |].
      * rewrite abs_go. exact (stop_spec _ _ _ _ _ t I E1).
      * eapply stof_caller_x; [|intros X; apply T0; [discriminate|exact X]|exact B|cbn; rewrite A; reflexivity]; reflexivity.
    + destruct (w_freed s); [discriminate|]. destruct (w_ev s); [|discriminate]. injection E as <- <-. apply (linto_nil p s); [exact L|apply abs_go|].
      intros u. rewrite (stof_caller p s (w_go s t CFree) t CFree); [|intros X; apply T0; [discriminate|exact X]|reflexivity|reflexivity].
      destruct (Nat.eqb_spec u t) as [UT|]; [|reflexivity]. subst u. symmetry. rewrite O by discriminate. reflexivity.
    + destruct (w_freed s); [discriminate|]. injection E as <- <-. apply (linto_eff p s); [exact L|rewrite O by discriminate; reflexivity| |].
      * cbn. auto.
      * eapply stof_caller_x; [|intros X; apply T0; [discriminate|exact X]|reflexivity|reflexivity]; reflexivity.
    + injection E as <- <-. apply (linto_ret p s); [exact L|apply abs_go|rewrite O by discriminate; reflexivity|].
      eapply stof_caller_x; [|intros X; apply T0; [discriminate|exact X]|reflexivity|reflexivity]; reflexivity.
  - destruct (w_wk s) eqn:EK; try discriminate. destruct (w_mem i (w_armed s)) eqn:M; [|discriminate]. destruct (w_freed s) eqn:FR; [discriminate|]. cbn in E. injection E as <- <-.
    assert (Z0 : w_thr s 0 = CIdle) by (destruct (w_thr s 0) eqn:X; [reflexivity|..]; destruct Z as (x & Y); try discriminate).
    apply (linto_act p s); [exact L|unfold stof; cbn; rewrite EK, Z0; reflexivity| |].
    + unfold abs. cbn [wspec p_fl p_gone w_wk w_freed fl_of w_on w_id w_armed]. rewrite EK, FR. split; [reflexivity|]. split; [reflexivity|].
      pose proof M as MI. apply mem_in in MI.
      unfold cur. cbn [w_on w_id w_armed p_on p_cur p_old]. destruct (w_on s) eqn:O; cbn [andb].
      * destruct (Nat.eqb_spec i (w_id s)) as [->|N].
        -- rewrite M. split; [reflexivity|]. destruct p; [rewrite M; reflexivity|].
           assert (X : w_mem (w_id s) (w_del (w_id s) (w_armed s)) = false) by (apply mem_not; rewrite del_in; tauto). rewrite X.
           pose proof (del_len _ _ ND MI). f_equal. lia.
        -- destruct p.
           { exfalso. destruct (PE eq_refl) as (A & _). rewrite A in MI. cbn in MI. destruct MI as [MI|[]]. now elim N. }
           pose proof (del_len _ _ ND MI) as LE.
           assert (X : w_mem (w_id s) (w_del i (w_armed s)) = w_mem (w_id s) (w_armed s)).
           { destruct (w_mem (w_id s) (w_armed s)) eqn:Y; [apply mem_in in Y; apply mem_in, del_in; auto|apply mem_not in Y; apply mem_not; rewrite del_in; tauto]. }
           rewrite X. exists (length (w_del i (w_armed s)) - (if w_mem (w_id s) (w_armed s) then 1 else 0)). split; [|reflexivity].
           destruct (w_mem (w_id s) (w_armed s)) eqn:Y; [|lia]. rewrite <- LE.
           enough (length (w_del i (w_armed s)) <> 0) by lia. intros H0. apply length_zero_iff_nil in H0.
           apply mem_in in X. rewrite H0 in X. exact X.
      * destruct p.
        { exfalso. destruct (PE eq_refl) as (A & _). rewrite A in MI. destruct MI. }
        pose proof (del_len _ _ ND MI) as LE. exists (length (w_del i (w_armed s))). split; [lia|]. f_equal. lia.
    + intros u. unfold stof. cbn [w_wk w_thr]. rewrite EK. reflexivity.
  - destruct (w_freed s) eqn:FR; [discriminate|]. destruct (w_wk s) as [|i|i|i|i|] eqn:EK; try discriminate.
    + assert (Z0 : w_thr s 0 = CIdle) by (destruct (w_thr s 0) eqn:X; [reflexivity|..]; destruct Z as (x & Y); try discriminate).
      injection E as <- <-. apply (linto_nil p s); [exact L|unfold abs, cur; cbn; rewrite EK; reflexivity|].
      intros u. unfold stof. cbn. rewrite EK. reflexivity.
    + assert (Z0 : w_thr s 0 = CIdle) by (destruct (w_thr s 0) eqn:X; [reflexivity|..]; destruct Z as (x & Y); try discriminate).
      injection E as <- <-. apply (linto_act p s); [exact L|unfold stof; cbn; rewrite EK, Z0; reflexivity| |].
      * unfold abs, cur. cbn. rewrite EK. cbn. auto.
      * intros u. unfold stof. cbn. rewrite EK. reflexivity.
    + destruct (w_thr s 0) eqn:E0; try discriminate. destruct p; injection E as <- <-.
      * apply (linto_act true s); [exact L|unfold stof; cbn; rewrite EK, E0; reflexivity| |].
        -- unfold abs, cur. cbn. rewrite EK. cbn. auto.
        -- intros u. unfold stof. cbn. rewrite EK. reflexivity.
      * apply (linto_call false s); [exact L|unfold abs, cur; cbn; rewrite EK; reflexivity|unfold stof; cbn; rewrite EK, E0; reflexivity|].
        intros u. unfold stof. cbn. rewrite EK. destruct (Nat.eqb u 0); reflexivity.
    + assert (Z0 : w_thr s 0 = CIdle) by (destruct (w_thr s 0) eqn:X; [reflexivity|..]; destruct Z as (x & Y); try discriminate).
      destruct p; injection E as <- <-.
      * apply (linto_nil true s); [exact L|unfold abs, cur; cbn; rewrite EK; reflexivity|].
        intros u. unfold stof. cbn. rewrite EK. reflexivity.
      * apply (linto_fin false s); [exact L|unfold stof; cbn; rewrite EK; reflexivity| |].
        -- unfold abs. remember (cur s) as cs eqn:C. unfold cur. cbn. rewrite EK. cbn. split; [reflexivity|]. split; [reflexivity|]. f_equal; [|try (now rewrite FR)].
           symmetry in C. destruct cs; [|lia]. unfold cur in C. apply andb_prop in C. destruct C as (_ & C). apply mem_in in C.
           destruct (w_armed s); [destruct C|cbn; lia].
        -- intros u. unfold stof. cbn. rewrite EK. destruct (Nat.eqb u 0); [now rewrite Z0|reflexivity].
    + injection E as <- <-. apply (linto_nil p s); [exact L|unfold abs, cur; cbn; rewrite EK; reflexivity|].
      intros u. unfold stof. cbn. rewrite EK. reflexivity.
Qed.
Lemma linto_init p : linto p w_init [].
Proof. exists (fun _ => Out). split; [constructor|]. intros t. unfold stof. cbn. destruct (Nat.eqb t 0); reflexivity. Qed.
Lemma reach p ls s es : exec (w_step p) w_init ls = Some (s, es) -> winv p s /\ linto p s es.
Proof.
  intros E. refine (exec_inv _ _ _ (w_step p) (fun s es => winv p s /\ linto p s es) _ ls w_init [] s es (conj (winv_init p) (linto_init p)) E).
  intros s0 es0 l s1 es1 (A & B) E1. split; [exact (winv_step _ _ _ _ _ A E1)|exact (linto_step _ _ _ _ _ _ A B E1)].
Qed.
Theorem win_timer_atomic p ls s es : exec (w_step p) w_init ls = Some (s, es) ->
  linearizable (wspec p) w_new (history es) /\ sp_run (wspec p) w_new (effects es) (abs p s).
Proof.
  intros E. destruct (reach p ls s es E) as (_ & f & L & _). split; [exists es, f, (abs p s); auto|exact (lin_run_effects _ _ _ _ _ _ _ _ _ L)].
Qed.
