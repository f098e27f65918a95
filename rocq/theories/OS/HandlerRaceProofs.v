(** Proofs about OS/HandlerRaceModel. *)
From Coq Require Import String List Bool Arith Lia.
Import ListNotations.
From Verif Require Import Spec.HandlerSpec Spec.HandlerRaceSpec OS.Sched OS.HandlerRaceModel.

Lemma class_eqb_spec a b : reflect (a = b) (class_eqb a b).
Proof. destruct a, b; constructor; congruence. Qed.
Lemma place_eqb_spec p q : reflect (p = q) (place_eqb p q).
Proof.
  destruct p as [r|a|], q as [u|b|]; cbn; try (constructor; congruence).
  - destruct (Nat.eqb_spec r u); constructor; congruence.
  - destruct (class_eqb_spec a b); constructor; congruence.
Qed.
Lemma after_app es : forall st fs p, handler_after st (es ++ fs) p = handler_after (handler_after st es p) fs p.
Proof. induction es as [|e es IH]; intros st fs p; [reflexivity|]. destruct e; cbn; apply IH. Qed.
Lemma now_app es fs p : handler_now (es ++ fs) p = handler_after (handler_now es p) fs p.
Proof. apply after_app. Qed.
(** the last setting counts *)
Lemma set_dec es p : (exists t h', In (EvSet t p h') es) \/ forall t h', ~ In (EvSet t p h') es.
Proof.
  induction es as [|e es [(t & h' & I)|N]]; [right; intros t h' []|left; exists t, h'; now right|].
  destruct (match e with EvSet _ q _ => place_eqb p q | _ => false end) eqn:E.
  - destruct e as [| | | | | | |u q k| | |]; try discriminate. destruct (place_eqb_spec p q) as [->|]; [|discriminate]. left. exists u, k. now left.
  - right. intros t h' [->|X]; [|now elim (N t h')]. destruct (place_eqb_spec p p) as [|X]; [discriminate|now elim X].
Qed.
Lemma after_none st es p : (forall t h', ~ In (EvSet t p h') es) -> handler_after st es p = st.
Proof.
  revert st. induction es as [|e es IH]; intros st N; [reflexivity|]. assert (N' : forall t h', ~ In (EvSet t p h') es) by (intros t h' X; apply (N t h'); now right).
  destruct e as [| | | | | | |u q k| | |]; cbn; try (now apply IH). destruct (place_eqb_spec p q) as [<-|Q]; [elim (N u k); now left|now apply IH].
Qed.
Lemma after_all st es p h : (exists t h', In (EvSet t p h') es) -> (forall t h', In (EvSet t p h') es -> h' = h) -> handler_after st es p = h.
Proof.
  revert st. induction es as [|e es IH]; intros st (t & h' & I) A; [contradiction|].
  assert (A' : forall t h', In (EvSet t p h') es -> h' = h) by (intros ? ? X; eapply A; right; exact X).
  destruct (set_dec es p) as [D|N].
  - destruct e as [| | | | | | |u q k| | |]; cbn; now apply IH.
  - destruct I as [->|I]; [|elim (N t h' I)]. cbn. destruct (place_eqb_spec p p) as [_|X]; [|now elim X]. rewrite (after_none h' es p N). apply (A t h'). now left.
Qed.
(** an event of a longer trace is old or new *)
Lemma split_app {A} (es fs a d : list A) e : es ++ fs = a ++ e :: d ->
  (exists d', es = a ++ e :: d' /\ d = d' ++ fs) \/ (exists f, a = es ++ f /\ fs = f ++ e :: d).
Proof.
  revert a. induction es as [|x es IH]; intros a E.
  - right. exists a. now split.
  - destruct a as [|y a]; cbn in E; injection E as -> E; [left; exists es; now split|].
    destruct (IH a E) as [(d' & -> & ->)|(f & -> & ->)]; [left; now exists d'|right; now exists f].
Qed.

Section Proofs.
  Variable N : nat.
  Variable class_of : nat -> option class.
  Notation stp := (h_step N class_of).

  (** the handler pointers are what the trace says *)
  Definition ptrs (s : hst) (es : list hev) : Prop := forall p, get_handler s p = handler_now es p.
  (** what is known of an object at a phase *)
  Definition busy (q : phase) : option exn :=
    match q with Stopping x | TestOwn x | CallOwn x | TestDflt x | CallDflt x => Some x | _ => None end.
  Definition phase_ok (es : list hev) (r : nat) (q : phase) : Prop :=
    (q <> Off -> class_of r <> None) /\ (match q with Stopping _ => class_of r <> Some ThreadC | _ => True end) /\
    forall x, busy q = Some x ->
      exists a b, dispatching es r a x b /\
        match q with TestDflt _ | CallDflt _ => at_some_point (a ++ [EvThrow r x]) b (OfObject r) None | _ => True end.
  Definition inv (s : hst) (es : list hev) : Prop := ptrs s es /\ forall r, phase_ok es r (h_phase s r).

  Lemma ok_idle es r q : busy q = None -> (q <> Off -> class_of r <> None) -> phase_ok es r q.
  Proof. intros B C. split; [exact C|]. split; [now destruct q|]. intros x X. congruence. Qed.
  Lemma inv_init : inv h_init [].
  Proof. split; [now intros [r|k|]|]. intros r. apply ok_idle; [reflexivity|]. intros X. now elim X. Qed.
  (** events that concern neither the objects nor the pointers *)
  Definition harmless (r : nat) (e : hev) : Prop := ~ settles r e /\ e <> EvBegin r /\ forall y, e <> EvThrow r y.
  Lemma dispatching_more es r a x b fs : dispatching es r a x b -> (forall e, In e fs -> harmless r e) -> dispatching (es ++ fs) r a x (b ++ fs).
  Proof.
    intros (-> & B) F. split; [now rewrite <- app_assoc|]. intros e I. apply in_app_or in I as [I|I]; [now apply B|now apply F].
  Qed.
  Lemma some_point_more a b p h fs : at_some_point a b p h -> at_some_point a (b ++ fs) p h.
  Proof. intros (b1 & b2 & -> & H). exists b1, (b2 ++ fs). split; [now rewrite <- app_assoc|exact H]. Qed.
  Lemma phase_more es r q fs : phase_ok es r q -> (forall e, In e fs -> harmless r e) -> phase_ok (es ++ fs) r q.
  Proof.
    intros (C & T & P) F. split; [exact C|]. split; [exact T|]. intros x B. destruct (P x B) as (a & b & D & S). exists a, (b ++ fs). split; [now apply dispatching_more|].
    destruct q; try exact I; now apply some_point_more.
  Qed.
  Lemma ptrs_quiet s es s' fs : ptrs s es -> (forall p, get_handler s' p = get_handler s p) -> (forall t p h, ~ In (EvSet t p h) fs) -> ptrs s' (es ++ fs).
  Proof. intros P G F p. rewrite G, P, now_app. symmetry. apply after_none. intros t h'. apply F. Qed.
  (** a step of object r that moves it to phase q *)
  Lemma inv_phase s es r q fs : inv s es -> (forall t p h, ~ In (EvSet t p h) fs) -> (forall u e, u <> r -> In e fs -> harmless u e) ->
    phase_ok (es ++ fs) r q -> inv (to_phase s r q) (es ++ fs).
  Proof.
    intros (P & Q) F H O. split; [now apply (ptrs_quiet s)|]. intros u. cbn [to_phase h_phase]. rewrite fupd_eq. destruct (Nat.eqb_spec u r) as [->|D]; [exact O|].
    apply phase_more; [apply Q|]. intros e. now apply H.
  Qed.
  (** a handler is set *)
  Lemma ptrs_set s es t p h : ptrs s es -> ptrs (set_handler s p h) (es ++ [EvSet t p h]).
  Proof.
    intros P q. rewrite now_app. cbn. rewrite <- P. destruct p as [r|k|], q as [u|j|]; cbn; try reflexivity.
  Qed.
  Lemma set_phase s p h : h_phase (set_handler s p h) = h_phase s.
  Proof. now destruct p. Qed.

  Ltac tell := repeat match goal with
    | H : Some _ = Some _ |- _ => injection H as <- <-
    | H : None = Some _ |- _ => discriminate H
    end.
  Ltac quiet := let X := fresh in intros ? ? ? X; cbn in X; intuition discriminate.
  Ltac others := let u := fresh "u" in let e := fresh "e" in let D := fresh in let X := fresh in
    intros u e D X; cbn in X; destruct X as [<-|[]]; split; [cbn; try tauto; congruence|split; [try discriminate; congruence|intros; try discriminate; congruence]].
  Lemma inv_step s es l s' fs : inv s es -> stp s l = Some (s', fs) -> inv s' (es ++ fs).
  Proof.
    intros H E. assert (H0 := H). destruct H0 as (P & Q). destruct l as [r|r x|r|r|t p h|t p|t h|t]; cbn beta iota delta [h_step] in E.
    - destruct (h_phase s r); try discriminate. destruct (class_of r) eqn:C; [|discriminate]. tell. apply inv_phase; [exact H|quiet|others|].
      apply ok_idle; [reflexivity|]. intros _; congruence.
    - destruct (h_loop s r); [discriminate|]. specialize (Q r). destruct (h_phase s r) eqn:R; try discriminate.
      + destruct x as [x|]; tell.
        * apply inv_phase; [exact H|quiet|others|]. split; [intros _; apply (proj1 Q); discriminate|].
          split; [unfold timer; destruct (class_of r) as [[]|]; easy|]. intros y B.
          assert (y = x) as -> by (destruct (timer class_of r); cbn in B; congruence). exists es, []. split; [split; [reflexivity|intros e []]|].
          now destruct (timer class_of r).
        * apply inv_phase; [exact H|quiet|others|]. apply ok_idle; [reflexivity|]. intros X; now elim X.
      + tell. apply inv_phase; [exact H|quiet|others|]. apply ok_idle; [reflexivity|]. intros X; now elim X.
    - specialize (Q r). destruct (h_phase s r) as [| |x|x|x|x|x| |] eqn:R; try discriminate; destruct Q as (C & T & Q).
      + tell. destruct (Q x eq_refl) as (a & b & D & _).
        apply inv_phase; [exact H|quiet|intros ? ? ? []|]. rewrite app_nil_r. split; [intros _; now apply C|]. split; [exact I|]. intros y Y; injection Y as <-. now exists a, b.
      + tell. destruct (Q x eq_refl) as (a & b & D & _).
        apply inv_phase; [exact H|quiet|intros ? ? ? []|]. rewrite app_nil_r. split; [intros _; now apply C|]. split; [now destruct (h_own s r)|]. intros y Y.
        assert (y = x) as -> by (destruct (h_own s r); cbn in Y; congruence). exists a, b. split; [exact D|].
        destruct (h_own s r) eqn:O; [exact I|]. exists b, []. split; [now rewrite app_nil_r|]. destruct D as (-> & _). rewrite <- app_assoc. cbn.
        rewrite <- (P (OfObject r)). exact O.
      + destruct (h_own s r) as [h|]; tell; (apply inv_phase; [exact H|quiet| |]).
        * others.
        * apply ok_idle; [reflexivity|]. intros _; now apply C.
        * intros ? ? ? [].
        * apply ok_idle; [reflexivity|]. intros _; now apply C.
      + destruct (Q x eq_refl) as (a & b & D & S). destruct (dflt_of class_of s r) as [h|]; tell; (apply inv_phase; [exact H|quiet| |]).
        * intros ? ? ? [].
        * rewrite app_nil_r. split; [intros _; now apply C|]. split; [exact I|]. intros y Y; injection Y as <-. now exists a, b.
        * others.
        * apply ok_idle; [reflexivity|]. intros X; now elim X.
      + destruct (dflt_of class_of s r) as [h|]; tell; (apply inv_phase; [exact H|quiet| |]).
        * others.
        * apply ok_idle; [reflexivity|]. intros _; now apply C.
        * intros ? ? ? [].
        * apply ok_idle; [reflexivity|]. intros _; now apply C.
    - destruct (h_phase s r) eqn:R; try discriminate. tell. apply inv_phase; [exact H|quiet|others|]. apply ok_idle; [reflexivity|]. intros X; now elim X.
    - destruct (may_call class_of s t && _); [|discriminate]. tell. split; [now apply ptrs_set|]. intros r. rewrite set_phase.
      apply phase_more; [apply Q|]. intros e [<-|[]]. now split.
    - destruct (may_call class_of s t); [|discriminate]. tell. split; [apply (ptrs_quiet s); [exact P|reflexivity|quiet]|]. intros r.
      apply phase_more; [apply Q|]. intros e [<-|[]]. now split.
    - destruct (may_call class_of s t); [|discriminate]. tell. split.
      + change [EvPoolSet t h; EvSet t OfPool h] with ([EvPoolSet t h] ++ [EvSet t OfPool h]). rewrite app_assoc.
        assert (P1 : ptrs s (es ++ [EvPoolSet t h])) by (apply (ptrs_quiet s); [exact P|reflexivity|quiet]).
        assert (P2 := ptrs_set s _ t OfPool h P1). intros p. specialize (P2 p). destruct p; exact P2.
      + intros r. cbn. apply phase_more; [apply Q|]. intros e [<-|[<-|[]]]; now split.
    - destruct (h_loop s t) as [[i h]|]; [|discriminate]. destruct (i <? N); tell.
      + split; [exact (ptrs_set s es t (OfObject i) h P)|]. intros r. cbn. apply phase_more; [apply Q|]. intros e [<-|[]]; now split.
      + split; [apply (ptrs_quiet s); [exact P|reflexivity|quiet]|]. intros r. apply phase_more; [apply Q|]. intros e [<-|[]]; now split.
  Qed.
  Lemma reach ls s es : exec stp h_init ls = Some (s, es) -> inv s es.
  Proof. intros E. exact (exec_inv _ _ _ stp inv inv_step ls h_init [] s es inv_init E). Qed.

  (** ** the right handler is called *)
  Definition good_handle (a : list hev) (r h : nat) (m : string) : Prop :=
    exists a1 x b k, dispatching a r a1 x b /\ m = message_of x /\ class_of r = Some k /\
      (handler_now a (OfObject r) = Some h \/
       handler_now a (Default k) = Some h /\ at_some_point (a1 ++ [EvThrow r x]) b (OfObject r) None).
  Definition good_drop (a : list hev) (r : nat) : Prop :=
    exists a1 x b k, dispatching a r a1 x b /\ class_of r = Some k /\
      handler_now a (Default k) = None /\ at_some_point (a1 ++ [EvThrow r x]) b (OfObject r) None.
  Lemma handle_step s es l s' fs f r h m d : inv s es -> stp s l = Some (s', fs) -> fs = f ++ EvHandle r h m :: d -> good_handle (es ++ f) r h m.
  Proof.
    intros (P & Q) E. destruct l as [u|u x|u|u|t p k|t p|t k|t]; cbn beta iota delta [h_step] in E.
    all: try (intros F; exfalso; repeat (match type of E with context [match ?y with _ => _ end] => destruct y end; try discriminate);
      injection E as _ <-; destruct f as [|? [|? [|? f]]]; discriminate).
    specialize (Q u). destruct (h_phase s u) as [| |x|x|x|x|x| |] eqn:R; try discriminate; destruct Q as (C & T & Q).
    - injection E as _ <-. destruct f; discriminate.
    - injection E as _ <-. destruct f; discriminate.
    - destruct (h_own s u) as [o|] eqn:O; injection E as _ <-; [|destruct f; discriminate].
      intros F. destruct f as [|? [|? f]]; try discriminate. injection F as -> -> <- <-. rewrite app_nil_r.
      destruct (Q x eq_refl) as (a & b & D & _). destruct (class_of r) as [k|] eqn:K; [|elim C; [discriminate|reflexivity]].
      exists a, x, b, k. repeat (split; [assumption||reflexivity|]). left. now rewrite <- (P (OfObject r)).
    - destruct (dflt_of class_of s u); injection E as _ <-; destruct f as [|? [|? f]]; discriminate.
    - unfold dflt_of in E. destruct (class_of u) as [k|] eqn:K; [|elim C; [discriminate|reflexivity]].
      destruct (h_dflt s k) as [o|] eqn:O; injection E as _ <-; [|destruct f; discriminate].
      intros F. destruct f as [|? [|? f]]; try discriminate. injection F as -> -> <- <-. rewrite app_nil_r.
      destruct (Q x eq_refl) as (a & b & D & S). exists a, x, b, k. repeat (split; [assumption||reflexivity|]). right. split; [|exact S]. now rewrite <- (P (Default k)).
  Qed.
  Lemma drop_step s es l s' fs f r d : inv s es -> stp s l = Some (s', fs) -> fs = f ++ EvUnhandled r :: d -> good_drop (es ++ f) r.
  Proof.
    intros (P & Q) E. destruct l as [u|u x|u|u|t p k|t p|t k|t]; cbn beta iota delta [h_step] in E.
    all: try (intros F; exfalso; repeat (match type of E with context [match ?y with _ => _ end] => destruct y end; try discriminate);
      injection E as _ <-; destruct f as [|? [|? [|? f]]]; discriminate).
    - specialize (Q u). destruct (h_phase s u) as [| |x|x|x|x|x| |] eqn:R; try discriminate; destruct Q as (C & T & Q).
      + injection E as _ <-. destruct f; discriminate.
      + injection E as _ <-. destruct f; discriminate.
      + destruct (h_own s u) as [o|] eqn:O; injection E as _ <-; destruct f as [|? [|? f]]; discriminate.
      + unfold dflt_of in E. destruct (class_of u) as [k|] eqn:K; [|elim C; [discriminate|reflexivity]].
        destruct (h_dflt s k) as [o|] eqn:O; injection E as _ <-; [destruct f; discriminate|].
        intros F. destruct f as [|? [|? f]]; try discriminate. injection F as -> <-. rewrite app_nil_r.
        destruct (Q x eq_refl) as (a & b & D & S). exists a, x, b, k. repeat (split; [assumption||reflexivity|]). split; [|exact S]. now rewrite <- (P (Default k)).
      + destruct (dflt_of class_of s u); injection E as _ <-; destruct f as [|? [|? f]]; discriminate.
  Qed.
  Lemma stop_step s es l s' fs r : inv s es -> stp s l = Some (s', fs) -> In (EvStopThrew r) fs -> class_of r = Some OneShotC \/ class_of r = Some PeriodicC.
  Proof.
    intros (P & Q) E I. destruct l as [u|u x|u|u|t p k|t p|t k|t]; cbn beta iota delta [h_step] in E.
    all: try (exfalso; repeat (match type of E with context [match ?y with _ => _ end] => destruct y end; try discriminate);
      injection E as _ <-; cbn in I; intuition discriminate).
    specialize (Q u). destruct (h_phase s u) as [| |x|x|x|x|x| |] eqn:R; try discriminate; destruct Q as (C & T & _). injection E as _ <-.
    destruct I as [I|[]]. injection I as ->. destruct (class_of r) as [[]|]; [now elim T|now left|now right|now elim C].
  Qed.
  Lemma stop_threw ls : forall s es r, exec stp h_init ls = Some (s, es) -> In (EvStopThrew r) es -> class_of r = Some OneShotC \/ class_of r = Some PeriodicC.
  Proof.
    intros s es r E. assert (J : inv s es /\ (In (EvStopThrew r) es -> class_of r = Some OneShotC \/ class_of r = Some PeriodicC)); [|exact (proj2 J)].
    refine (exec_inv _ _ _ stp (fun s es => inv s es /\ (In (EvStopThrew r) es -> class_of r = Some OneShotC \/ class_of r = Some PeriodicC)) _ ls h_init [] s es _ E).
    - clear. intros s es l s' fs (I & G) E. split; [now apply (inv_step s es l)|]. intros F. apply in_app_or in F as [F|F]; [now apply G|].
      now apply (stop_step s es l s' fs r).
    - split; [exact inv_init|]. intros [].
  Qed.
  (** a getter returns what is set *)
  Definition good_get (a : list hev) (p : place) (h : option nat) : Prop := handler_now a p = h.
  Lemma get_step s es l s' fs f t p h d : inv s es -> stp s l = Some (s', fs) -> fs = f ++ EvGet t p h :: d -> good_get (es ++ f) p h.
  Proof.
    intros (P & Q) E. destruct l as [u|u x|u|u|v q k|v q|v k|v]; cbn beta iota delta [h_step] in E.
    all: try (intros F; exfalso; repeat (match type of E with context [match ?y with _ => _ end] => destruct y end; try discriminate);
      injection E as _ <-; destruct f as [|? [|? [|? f]]]; discriminate).
    destruct (may_call class_of s v); [|discriminate]. injection E as _ <-. intros F. destruct f as [|? [|? f]]; try discriminate.
    injection F as -> -> <- <-. rewrite app_nil_r. symmetry. apply P.
  Qed.
  Lemma gets ls : forall s es a t p h d, exec stp h_init ls = Some (s, es) -> es = a ++ EvGet t p h :: d -> good_get a p h.
  Proof.
    intros s es a t p h d E. revert a t p h d.
    assert (J : inv s es /\ forall a t p h d, es = a ++ EvGet t p h :: d -> good_get a p h); [|exact (proj2 J)].
    refine (exec_inv _ _ _ stp (fun s es => inv s es /\ forall a t p h d, es = a ++ EvGet t p h :: d -> good_get a p h) _ ls h_init [] s es _ E).
    - clear. intros s es l s' fs (I & G) E. split; [now apply (inv_step s es l)|]. intros a t p h d F.
      apply split_app in F as [(d' & F & _)|(f & -> & F)]; [now apply (G a t p h d')|now apply (get_step s es l s' fs f t p h d)].
    - split; [exact inv_init|]. intros [|? a]; discriminate.
  Qed.
  Lemma handles ls : forall s es a r h m d, exec stp h_init ls = Some (s, es) -> es = a ++ EvHandle r h m :: d -> good_handle a r h m.
  Proof.
    intros s es a r h m d E. revert a r h m d.
    assert (J : inv s es /\ forall a r h m d, es = a ++ EvHandle r h m :: d -> good_handle a r h m); [|exact (proj2 J)].
    refine (exec_inv _ _ _ stp (fun s es => inv s es /\ forall a r h m d, es = a ++ EvHandle r h m :: d -> good_handle a r h m) _ ls h_init [] s es _ E).
    - clear. intros s es l s' fs (I & G) E. split; [now apply (inv_step s es l)|]. intros a r h m d F.
      apply split_app in F as [(d' & F & _)|(f & -> & F)]; [now apply (G a r h m d')|now apply (handle_step s es l s' fs f r h m d)].
    - split; [exact inv_init|]. intros [|? a]; discriminate.
  Qed.
  Lemma drops ls : forall s es a r d, exec stp h_init ls = Some (s, es) -> es = a ++ EvUnhandled r :: d -> good_drop a r.
  Proof.
    intros s es a r d E. revert a r d.
    assert (J : inv s es /\ forall a r d, es = a ++ EvUnhandled r :: d -> good_drop a r); [|exact (proj2 J)].
    refine (exec_inv _ _ _ stp (fun s es => inv s es /\ forall a r d, es = a ++ EvUnhandled r :: d -> good_drop a r) _ ls h_init [] s es _ E).
    - clear. intros s es l s' fs (I & G) E. split; [now apply (inv_step s es l)|]. intros a r d F.
      apply split_app in F as [(d' & F & _)|(f & -> & F)]; [now apply (G a r d')|now apply (drop_step s es l s' fs f r d)].
    - split; [exact inv_init|]. intros [|? a]; discriminate.
  Qed.

  (** ** handlers that are set only while nobody looks for them *)
  Lemma no_set_const es r k a x b : no_set_during_dispatch class_of (fun _ => True) es -> dispatching es r a x b -> class_of r = Some k ->
    forall p, concerns r k p -> forall b1 b2, b = b1 ++ b2 -> handler_now ((a ++ [EvThrow r x]) ++ b1) p = handler_now a p.
  Proof.
    intros NS (-> & B) K p C b1 b2 ->. rewrite !now_app. apply after_none. intros t h I. apply in_split in I as (c1 & c2 & ->).
    refine (NS (a ++ EvThrow r x :: c1) t p h (c2 ++ b2) _ I _ _ _ _ _ _ K C).
    - now rewrite <- !app_assoc.
    - split; [reflexivity|]. intros e IE. apply B. apply in_or_app. left. apply in_or_app. now left.
  Qed.
  Definition at_throw (a : list hev) (r : nat) (k : class) : cfg := mkCfg (handler_now a (OfObject r)) (handler_now a (Default k)).
  Lemma no_set_prefix bad es a e d : no_set_during_dispatch class_of bad es -> es = a ++ e :: d -> no_set_during_dispatch class_of bad a.
  Proof.
    intros NS -> es1 t p h es2 -> B. apply (NS es1 t p h (es2 ++ e :: d)); [now rewrite <- app_assoc|exact B].
  Qed.
  Lemma disp_whole a x r b : (a ++ EvThrow r x :: b) = (a ++ [EvThrow r x]) ++ b.
  Proof. now rewrite <- app_assoc. Qed.
  Lemma quiet_handle ls s es a r h m d : exec stp h_init ls = Some (s, es) -> no_set_during_dispatch class_of (fun _ => True) es -> es = a ++ EvHandle r h m :: d ->
    exists a1 x b k, dispatching a r a1 x b /\ class_of r = Some k /\ m = message_of x /\ handler_of (at_throw a1 r k) = Some h.
  Proof.
    intros E NS F. destruct (handles ls s es a r h m d E F) as (a1 & x & b & k & D & M & K & W). exists a1, x, b, k.
    split; [exact D|]. split; [exact K|]. split; [exact M|].
    assert (NS' := no_set_prefix _ _ _ _ _ NS F). assert (CO := no_set_const a r k a1 x b NS' D K).
    assert (EA : a = (a1 ++ [EvThrow r x]) ++ b) by (destruct D as (-> & _); apply disp_whole).
    unfold handler_of, at_throw. cbn [own dflt].
    destruct W as [W|(W & b1 & b2 & B & O)].
    - rewrite EA, (CO (OfObject r) (or_introl eq_refl) b [] (eq_sym (app_nil_r b))) in W. now rewrite W.
    - rewrite (CO (OfObject r) (or_introl eq_refl) b1 b2 B) in O. rewrite EA, (CO (Default k) (or_intror eq_refl) b [] (eq_sym (app_nil_r b))) in W. now rewrite O.
  Qed.
  Lemma quiet_drop ls s es a r d : exec stp h_init ls = Some (s, es) -> no_set_during_dispatch class_of (fun _ => True) es -> es = a ++ EvUnhandled r :: d ->
    exists a1 x b k, dispatching a r a1 x b /\ class_of r = Some k /\ handler_of (at_throw a1 r k) = None.
  Proof.
    intros E NS F. destruct (drops ls s es a r d E F) as (a1 & x & b & k & D & K & Z & b1 & b2 & B & O). exists a1, x, b, k. split; [exact D|]. split; [exact K|].
    assert (NS' := no_set_prefix _ _ _ _ _ NS F). assert (CO := no_set_const a r k a1 x b NS' D K).
    assert (EA : a = (a1 ++ [EvThrow r x]) ++ b) by (destruct D as (-> & _); apply disp_whole).
    unfold handler_of, at_throw. cbn [own dflt]. rewrite (CO (OfObject r) (or_introl eq_refl) b1 b2 B) in O. rewrite O.
    now rewrite EA, (CO (Default k) (or_intror eq_refl) b [] (eq_sym (app_nil_r b))) in Z.
  Qed.

  (** ** null is not called *)
  Definition alive (s : hst) : Prop :=
    forall r, match h_phase s r with CallOwn _ => h_own s r <> None | CallDflt _ => dflt_of class_of s r <> None | Crashed => False | _ => True end.
  Lemma alive_go s r q : alive s ->
    (match q with CallOwn _ => h_own s r <> None | CallDflt _ => dflt_of class_of s r <> None | Crashed => False | _ => True end) -> alive (to_phase s r q).
  Proof. intros A H u. cbn. rewrite fupd_eq. destruct (Nat.eqb_spec u r) as [->|D]; [exact H|apply A]. Qed.
  Lemma alive_set s es t p h : inv s es -> alive s -> no_set_during_dispatch class_of (fun h => h = None) (es ++ [EvSet t p h]) -> alive (set_handler s p h).
  Proof.
    intros (P & Q) A NS r. specialize (A r). rewrite set_phase. specialize (Q r).
    assert (KEY : h = None -> forall x k, busy (h_phase s r) = Some x -> class_of r = Some k -> ~ concerns r k p).
    { intros H x k B K. destruct Q as (_ & _ & Q). destruct (Q x B) as (a & b & D & _). exact (NS es t p h [] eq_refl H r k a x b D K). }
    destruct (h_phase s r) as [| |x|x|x|x|x| |] eqn:R; try exact A.
    - destruct p as [u|k|]; cbn; try exact A. rewrite fupd_eq. destruct (Nat.eqb_spec r u) as [->|]; [|exact A]. destruct h; [discriminate|].
      destruct Q as (C & _). destruct (class_of u) as [k|] eqn:K; [|elim C; [discriminate|reflexivity]].
      elim (KEY eq_refl x k eq_refl eq_refl). now left.
    - destruct p as [u|k|]; try exact A. unfold dflt_of in *. cbn. destruct (class_of r) as [j|] eqn:K; [|exact A].
      destruct (class_eqb_spec j k) as [->|]; [|exact A]. destruct h; [discriminate|]. elim (KEY eq_refl x k eq_refl eq_refl). now right.
  Qed.
  Lemma no_set_left bad es fs : no_set_during_dispatch class_of bad (es ++ fs) -> no_set_during_dispatch class_of bad es.
  Proof. intros NS es1 t p h es2 -> B. apply (NS es1 t p h (es2 ++ fs)); [now rewrite <- app_assoc|exact B]. Qed.
  Lemma alive_step s es l s' fs : inv s es -> alive s -> no_set_during_dispatch class_of (fun h => h = None) (es ++ fs) -> stp s l = Some (s', fs) -> alive s'.
  Proof.
    intros I A NS E. destruct l as [r|r x|r|r|t p h|t p|t h|t]; cbn beta iota delta [h_step] in E.
    - destruct (h_phase s r); try discriminate. destruct (class_of r); [|discriminate]. tell. now apply alive_go.
    - destruct (h_loop s r); [discriminate|]. destruct (h_phase s r); try discriminate; [destruct x as [x|]|]; tell; apply alive_go; auto; now destruct (timer class_of r).
    - assert (AR := A r). destruct (h_phase s r) as [| |x|x|x|x|x| |] eqn:R; try discriminate.
      + tell. now apply alive_go.
      + tell. apply alive_go; [exact A|]. destruct (h_own s r) eqn:O; [discriminate|exact Logic.I].
      + destruct (h_own s r); [|now elim AR]. tell. now apply alive_go.
      + destruct (dflt_of class_of s r) eqn:O; tell; (apply alive_go; [exact A|]); [congruence|exact Logic.I].
      + destruct (dflt_of class_of s r); [|now elim AR]. tell. now apply alive_go.
    - destruct (h_phase s r); try discriminate. tell. now apply alive_go.
    - destruct (may_call class_of s t && _); [|discriminate]. tell. now apply (alive_set s es t).
    - destruct (may_call class_of s t); [|discriminate]. tell. exact A.
    - destruct (may_call class_of s t); [|discriminate]. tell. exact A.
    - destruct (h_loop s t) as [[i h]|]; [|discriminate]. destruct (i <? N); tell; [|exact A]. exact (alive_set s es t (OfObject i) h I A NS).
  Qed.
  Lemma never_null ls s es : exec stp h_init ls = Some (s, es) -> no_set_during_dispatch class_of (fun h => h = None) es -> forall r, h_phase s r <> Crashed.
  Proof.
    intros E NS r C.
    assert (J : inv s es /\ (no_set_during_dispatch class_of (fun h => h = None) es -> alive s)).
    { refine (exec_inv _ _ _ stp (fun s es => inv s es /\ (no_set_during_dispatch class_of (fun h => h = None) es -> alive s)) _ ls h_init [] s es _ E).
      - clear. intros s es l s' fs (I & A) E. split; [now apply (inv_step s es l)|]. intros NS. apply (alive_step s es l s' fs I); auto. apply A. now apply no_set_left in NS.
      - split; [exact inv_init|]. intros _ u. exact Logic.I. }
    specialize (proj2 J NS r). now rewrite C.
  Qed.

  (** ** an exception is settled in a few steps of its own thread *)
  Lemma settled s r x : busy (h_phase s r) = Some x ->
    exists n s' es', n <= 4 /\ exec stp s (repeat (HStep r) n) = Some (s', es') /\ ((exists e, In e es' /\ settles r e) \/ h_phase s' r = Crashed).
  Proof.
    assert (L1 : forall s x, h_phase s r = CallDflt x -> exists s' es', stp s (HStep r) = Some (s', es') /\ ((exists e, In e es' /\ settles r e) \/ h_phase s' r = Crashed)).
    { clear. intros s x R. cbn. rewrite R. destruct (dflt_of class_of s r) as [h|].
      - eexists _, _. split; [reflexivity|]. left. eexists. split; [now left|reflexivity].
      - eexists _, _. split; [reflexivity|]. right. apply fupd_same. }
    assert (L1' : forall s x, h_phase s r = CallOwn x -> exists s' es', stp s (HStep r) = Some (s', es') /\ ((exists e, In e es' /\ settles r e) \/ h_phase s' r = Crashed)).
    { clear. intros s x R. cbn. rewrite R. destruct (h_own s r) as [h|].
      - eexists _, _. split; [reflexivity|]. left. eexists. split; [now left|reflexivity].
      - eexists _, _. split; [reflexivity|]. right. apply fupd_same. }
    assert (L2 : forall s x, h_phase s r = TestDflt x ->
      exists n s' es', n <= 2 /\ exec stp s (repeat (HStep r) n) = Some (s', es') /\ ((exists e, In e es' /\ settles r e) \/ h_phase s' r = Crashed)).
    { intros s0 y R. destruct (dflt_of class_of s0 r) as [h|] eqn:O.
      - destruct (L1 (to_phase s0 r (CallDflt y)) y (fupd_same _ _ _)) as (s' & es' & E & W). exists 2, s', (es' ++ []). split; [lia|]. split.
        + cbn [repeat exec]. assert (X : stp s0 (HStep r) = Some (to_phase s0 r (CallDflt y), [])) by (cbn; now rewrite R, O). rewrite X, E. reflexivity.
        + now rewrite app_nil_r.
      - exists 1. eexists _, _. split; [lia|]. split; [cbn; rewrite R, O; reflexivity|]. left. eexists. split; [now left|reflexivity]. }
    assert (L3 : forall s x, h_phase s r = TestOwn x ->
      exists n s' es', n <= 3 /\ exec stp s (repeat (HStep r) n) = Some (s', es') /\ ((exists e, In e es' /\ settles r e) \/ h_phase s' r = Crashed)).
    { intros s0 y R. destruct (h_own s0 r) as [h|] eqn:O.
      - destruct (L1' (to_phase s0 r (CallOwn y)) y (fupd_same _ _ _)) as (s' & es' & E & W). exists 2, s', (es' ++ []). split; [lia|]. split.
        + cbn [repeat exec]. assert (X : stp s0 (HStep r) = Some (to_phase s0 r (CallOwn y), [])) by (cbn; now rewrite R, O). rewrite X, E. reflexivity.
        + now rewrite app_nil_r.
      - destruct (L2 (to_phase s0 r (TestDflt y)) y (fupd_same _ _ _)) as (n & s' & es' & L & E & W). exists (S n), s', es'. split; [lia|]. split; [|exact W].
        cbn [repeat exec]. assert (X : stp s0 (HStep r) = Some (to_phase s0 r (TestDflt y), [])) by (cbn; now rewrite R, O). now rewrite X, E. }
    intros B. destruct (h_phase s r) as [| |y|y|y|y|y| |] eqn:R; try discriminate.
    - destruct (L3 (to_phase s r (TestOwn y)) y (fupd_same _ _ _)) as (n & s' & es' & L & E & W). exists (S n), s', es'. split; [lia|]. split; [|exact W].
      cbn [repeat exec]. assert (X : stp s (HStep r) = Some (to_phase s r (TestOwn y), [])) by (cbn; now rewrite R). now rewrite X, E.
    - destruct (L3 s y R) as (n & s' & es' & L & E & W). exists n, s', es'. split; [lia|now split].
    - destruct (L1' s y R) as (s' & es' & E & W). exists 1, s', (es' ++ []). split; [lia|]. split; [cbn [repeat exec]; now rewrite E|now rewrite app_nil_r].
    - destruct (L2 s y R) as (n & s' & es' & L & E & W). exists n, s', es'. split; [lia|now split].
    - destruct (L1 s y R) as (s' & es' & E & W). exists 1, s', (es' ++ []). split; [lia|]. split; [cbn [repeat exec]; now rewrite E|now rewrite app_nil_r].
  Qed.

  (** ** ThreadPool::setUncaughtExceptionHandler *)
  Definition own_pool (t : nat) (e : hev) : Prop := match e with EvPoolSet u _ | EvPoolDone u => u = t | _ => False end.
  Definition loop_ok (s : hst) (es : list hev) : Prop :=
    forall t i h, h_loop s t = Some (i, h) ->
      exists a b, es = a ++ EvPoolSet t h :: b /\ In (EvSet t OfPool h) b /\ (forall j, j < i -> In (EvSet t (OfObject j) h) b) /\
        (forall p h', In (EvSet t p h') b -> h' = h) /\ (forall e, In e b -> ~ own_pool t e).
  Definition pinv (s : hst) (es : list hev) : Prop :=
    loop_ok s es /\ (forall t, h_loop s t <> None -> class_of t <> None -> h_phase s t = Run \/ h_phase s t = Handling).
  (** a step that does not touch the loops, and whose events are not settings by those inside *)
  Lemma loop_more s es s' fs : loop_ok s es -> h_loop s' = h_loop s -> (forall t e, h_loop s t <> None -> In e fs -> ~ own_pool t e) ->
    (forall t p h, h_loop s t <> None -> ~ In (EvSet t p h) fs) -> loop_ok s' (es ++ fs).
  Proof.
    intros L H O S t i h Q. rewrite H in Q. destruct (L t i h Q) as (a & b & -> & A1 & A2 & A3 & A4). exists a, (b ++ fs).
    split; [now rewrite <- app_assoc|]. split; [apply in_or_app; now left|]. split; [intros j J; apply in_or_app; left; now apply A2|].
    assert (QN : h_loop s t <> None) by congruence. split.
    - intros p h' I. apply in_app_or in I as [I|I]; [now apply (A3 p)|now elim (S t p h' QN)].
    - intros e I. apply in_app_or in I as [I|I]; [now apply A4|now apply (O t)].
  Qed.
  Lemma pinv_phase s es r q fs : pinv s es -> (h_loop s r = None \/ class_of r = None) -> (forall t e, In e fs -> ~ own_pool t e) -> (forall t p h, ~ In (EvSet t p h) fs) -> pinv (to_phase s r q) (es ++ fs).
  Proof.
    intros (L & P) R O S. split; [apply (loop_more s); auto; intros; apply O; assumption|]. intros t T C. cbn in *. rewrite fupd_other; [now apply P|].
    intros ->. destruct R; congruence.
  Qed.
  Ltac ev := intros; repeat match goal with
    | |- ~ _ => let X := fresh in intros X
    | X : In _ [] |- _ => destruct X
    | X : In _ (_ :: _) |- _ => destruct X as [X|X]
    | X : own_pool _ ?e, Y : _ = ?e |- _ => subst e; destruct X
    | X : _ = EvSet _ _ _ |- _ => discriminate X
    end.
  Lemma not_in_loop s es r : pinv s es -> (match h_phase s r with Run | Handling => False | _ => True end) -> h_loop s r = None \/ class_of r = None.
  Proof.
    intros (_ & P) Q. destruct (h_loop s r) eqn:L; [|now left]. right. destruct (class_of r) eqn:C; [|reflexivity]. exfalso.
    destruct (P r) as [X|X]; try congruence; now rewrite X in Q.
  Qed.
  Lemma pinv_step s es l s' fs : pinv s es -> stp s l = Some (s', fs) -> pinv s' (es ++ fs).
  Proof.
    intros H E. assert (H0 := H). destruct H0 as (L & P). destruct l as [r|r x|r|r|t p h|t p|t h|t]; cbn beta iota delta [h_step] in E.
    - assert (NL := not_in_loop s es r H). destruct (h_phase s r); try discriminate. specialize (NL Logic.I). destruct (class_of r) eqn:C0; [|discriminate]. tell. apply pinv_phase; [exact H| |ev|ev].
      destruct NL as [NL|NL]; [now left|discriminate].
    - destruct (h_loop s r) eqn:Q; [discriminate|]. destruct (h_phase s r); try discriminate; [destruct x as [x|]|]; tell; (apply pinv_phase; [exact H|now left|ev|ev]).
    - assert (NL := not_in_loop s es r H). destruct (h_phase s r) as [| |x|x|x|x|x| |]; try discriminate; specialize (NL Logic.I).
      + tell. apply pinv_phase; [exact H|exact NL|ev|ev].
      + tell. apply pinv_phase; [exact H|exact NL|ev|ev].
      + destruct (h_own s r); tell; (apply pinv_phase; [exact H|exact NL|ev|ev]).
      + destruct (dflt_of class_of s r); tell; (apply pinv_phase; [exact H|exact NL|ev|ev]).
      + destruct (dflt_of class_of s r); tell; (apply pinv_phase; [exact H|exact NL|ev|ev]).
    - assert (NL := not_in_loop s es r H). destruct (h_phase s r); try discriminate. specialize (NL Logic.I). tell. apply pinv_phase; [exact H|exact NL|ev|ev].
    - unfold may_call in E. destruct (h_loop s t) eqn:Q; [discriminate|]. destruct (_ && _); [|discriminate]. tell. split.
      + apply (loop_more s); [exact L|now destruct p|ev|]. intros u q k U [X|[]]. congruence.
      + intros u U. rewrite set_phase. apply P. now destruct p.
    - destruct (may_call class_of s t); [|discriminate]. tell. split; [apply (loop_more s); [exact L|reflexivity|ev|ev]|exact P].
    - unfold may_call in E. destruct (h_loop s t) eqn:Q; [discriminate|].
      assert (PH : class_of t <> None -> h_phase s t = Run \/ h_phase s t = Handling).
      { destruct (class_of t); [|easy]. intros _. destruct (h_phase s t); try discriminate; auto. }
      destruct (match class_of t with Some _ => _ | None => _ end); [|discriminate]. tell. split.
      + intros u i k U. cbn in U. rewrite fupd_eq in U. destruct (Nat.eqb_spec u t) as [->|D].
        * injection U as <- <-. exists es, [EvSet t OfPool h]. split; [reflexivity|]. split; [now left|]. split; [lia|]. split.
          -- intros p h' [X|[]]. congruence.
          -- intros e [<-|[]]. easy.
        * assert (X : loop_ok s (es ++ [EvPoolSet t h; EvSet t OfPool h]) \/ True) by (now right). clear X.
          destruct (L u i k U) as (a & b & -> & A1 & A2 & A3 & A4). exists a, (b ++ [EvPoolSet t h; EvSet t OfPool h]).
          split; [now rewrite <- app_assoc|]. split; [apply in_or_app; now left|]. split; [intros j J; apply in_or_app; left; now apply A2|]. split.
          -- intros p h' I. apply in_app_or in I as [I|[I|[I|[]]]]; [now apply (A3 p)|discriminate|congruence].
          -- intros e I. apply in_app_or in I as [I|[I|[I|[]]]]; [now apply A4| |]; subst; cbn; [congruence|tauto].
      + intros u U C. destruct (Nat.eq_dec u t) as [EQ|D]; [rewrite EQ in *; now apply PH|]. cbn in U. rewrite fupd_other in U by exact D. now apply P.
    - destruct (h_loop s t) as [[i h]|] eqn:Q; [|discriminate]. destruct (Nat.ltb_spec i N) as [LT|GE]; tell.
      + split.
        * intros u j k U. cbn in U. rewrite fupd_eq in U. destruct (Nat.eqb_spec u t) as [->|D].
          -- injection U as <- <-. destruct (L t i h Q) as (a & b & -> & A1 & A2 & A3 & A4). exists a, (b ++ [EvSet t (OfObject i) h]).
             split; [now rewrite <- app_assoc|]. split; [apply in_or_app; now left|]. split; [|split].
             ++ intros j J. apply in_or_app. destruct (Nat.eq_dec j i) as [->|]; [right; now left|left; apply A2; lia].
             ++ intros p h' I. apply in_app_or in I as [I|[I|[]]]; [now apply (A3 p)|congruence].
             ++ intros e I. apply in_app_or in I as [I|[I|[]]]; [now apply A4|]. subst. cbn. tauto.
          -- destruct (L u j k U) as (a & b & -> & A1 & A2 & A3 & A4). exists a, (b ++ [EvSet t (OfObject i) h]).
             split; [now rewrite <- app_assoc|]. split; [apply in_or_app; now left|]. split; [intros m J; apply in_or_app; left; now apply A2|]. split.
             ++ intros p h' I. apply in_app_or in I as [I|[I|[]]]; [now apply (A3 p)|congruence].
             ++ intros e I. apply in_app_or in I as [I|[I|[]]]; [now apply A4|]. subst. cbn. tauto.
        * intros u U C. destruct (Nat.eq_dec u t) as [EQ|D]; [rewrite EQ in *; apply P; congruence|]. cbn in U. rewrite fupd_other in U by exact D. now apply P.
      + split.
        * intros u j k U. cbn in U. rewrite fupd_eq in U. destruct (Nat.eqb_spec u t) as [->|D]; [discriminate|].
          destruct (L u j k U) as (a & b & -> & A1 & A2 & A3 & A4). exists a, (b ++ [EvPoolDone t]).
          split; [now rewrite <- app_assoc|]. split; [apply in_or_app; now left|]. split; [intros m J; apply in_or_app; left; now apply A2|]. split.
          -- intros p h' I. apply in_app_or in I as [I|[I|[]]]; [now apply (A3 p)|congruence].
          -- intros e I. apply in_app_or in I as [I|[I|[]]]; [now apply A4|]. subst. cbn. congruence.
        * intros u U C. cbn in U. destruct (Nat.eq_dec u t) as [EQ|D]; [rewrite EQ, fupd_same in U; congruence|]. rewrite fupd_other in U by exact D. now apply P.
  Qed.
  Lemma pinv_init : pinv h_init [].
  Proof. split; [intros t i h X; discriminate|]. intros t X. now elim X. Qed.
  (** when a pool call returns, its settings are all there *)
  Definition pool_done (a : list hev) (t : nat) : Prop :=
    exists a1 h b, a = a1 ++ EvPoolSet t h :: b /\ In (EvSet t OfPool h) b /\ (forall j, j < N -> In (EvSet t (OfObject j) h) b) /\
      (forall p h', In (EvSet t p h') b -> h' = h) /\ (forall e, In e b -> ~ own_pool t e).
  Lemma pool_done_step s es l s' fs f t d : pinv s es -> stp s l = Some (s', fs) -> fs = f ++ EvPoolDone t :: d -> pool_done (es ++ f) t.
  Proof.
    intros (L & _) E. destruct l as [u|u x|u|u|v p k|v p|v k|v]; cbn beta iota delta [h_step] in E.
    all: try (intros F; exfalso; repeat (match type of E with context [match ?y with _ => _ end] => destruct y end; try discriminate);
      injection E as _ <-; destruct f as [|? [|? [|? f]]]; discriminate).
    destruct (h_loop s v) as [[i h]|] eqn:Q; [|discriminate]. destruct (Nat.ltb_spec i N) as [LT|GE]; injection E as _ <-; intros F;
      destruct f as [|? [|? f]]; try discriminate. injection F as -> <-. rewrite app_nil_r.
    destruct (L t i h Q) as (a & b & -> & A1 & A2 & A3 & A4). exists a, h, b. split; [reflexivity|]. split; [exact A1|].
    split; [intros j J; apply A2; lia|]. now split.
  Qed.
  Lemma pool_dones ls s es a t d : exec stp h_init ls = Some (s, es) -> es = a ++ EvPoolDone t :: d -> pool_done a t.
  Proof.
    intros E. revert a t d. assert (J : pinv s es /\ forall a t d, es = a ++ EvPoolDone t :: d -> pool_done a t); [|exact (proj2 J)].
    refine (exec_inv _ _ _ stp (fun s es => pinv s es /\ forall a t d, es = a ++ EvPoolDone t :: d -> pool_done a t) _ ls h_init [] s es _ E).
    - clear. intros s es l s' fs (I & G) E. split; [now apply (pinv_step s es l)|]. intros a t d F.
      apply split_app in F as [(d' & F & _)|(f & -> & F)]; [now apply (G a t d')|now apply (pool_done_step s es l s' fs f t d)].
    - split; [exact pinv_init|]. intros [|? a]; discriminate.
  Qed.
  Lemma last_unique {A} (P : A -> Prop) a x b a' y b' : a ++ x :: b = a' ++ y :: b' -> P x -> P y -> (forall e, In e b -> ~ P e) -> (forall e, In e b' -> ~ P e) ->
    a = a' /\ x = y /\ b = b'.
  Proof.
    intros E X Y B B'. apply (split_app a (x :: b)) in E as [(d & -> & ->)|(f & -> & F)].
    - elim (B' x); [|exact X]. apply in_or_app. right. now left.
    - destruct f as [|z f]; cbn in F; injection F as -> F; [now rewrite app_nil_r|]. subst b. elim (B y); [|exact Y]. apply in_or_app. right. now left.
  Qed.
  Lemma pool_set ls s es a t h b d : exec stp h_init ls = Some (s, es) -> es = a ++ EvPoolSet t h :: b ++ EvPoolDone t :: d ->
    (forall e, In e b -> ~ own_pool t e) ->
    (forall u p h', In (EvSet u p h') b -> u <> t -> p <> OfPool /\ forall i, i < N -> p <> OfObject i) ->
    handler_now (a ++ EvPoolSet t h :: b) OfPool = h /\ forall i, i < N -> handler_now (a ++ EvPoolSet t h :: b) (OfObject i) = h.
  Proof.
    intros E F O U. replace (a ++ EvPoolSet t h :: b ++ EvPoolDone t :: d) with ((a ++ EvPoolSet t h :: b) ++ EvPoolDone t :: d) in F by now rewrite <- app_assoc.
    destruct (pool_dones ls s es _ t d E F) as (a1 & h1 & b1 & G & A1 & A2 & A3 & A4).
    destruct (last_unique (own_pool t) a (EvPoolSet t h) b a1 (EvPoolSet t h1) b1 G) as (<- & X & <-); try easy. injection X as <-.
    assert (S : forall p, In (EvSet t p h) b -> (p = OfPool \/ exists i, i < N /\ p = OfObject i) -> handler_now (a ++ EvPoolSet t h :: b) p = h).
    { intros p I W. unfold handler_now. rewrite after_app. cbn. apply after_all; [now exists t, h|]. intros u h' I'.
      destruct (Nat.eq_dec u t) as [->|D]; [now apply (A3 p)|]. destruct (U u p h' I' D) as (U1 & U2). destruct W as [W|(i & W1 & W2)]; [contradiction|now elim (U2 i W1)]. }
    split; [apply S; auto|]. intros i I. apply S; eauto.
  Qed.
End Proofs.
