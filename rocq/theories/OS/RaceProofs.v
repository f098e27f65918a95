(** Proofs about the accesses of OS/RaceModel: nothing is left out, and there are no data races. *)
From Coq Require Import List ZArith Bool Arith Lia.
Import ListNotations.
From Verif Require Import Spec.OSError Spec.RaceSpec Spec.Linear Spec.MutexSpec Spec.MessageQueueSpec Spec.EventFlagSpec OS.Sched OS.RaceModel.
From Verif Require OS.MessageQueueModel OS.MessageQueueProofs OS.EventFlagModel OS.EventFlagProofs OS.MutexModel OS.MutexProofs OS.ItronMutexModel
  OS.ThreadPoolModel OS.ThreadPoolProofs.

(** if only one thread at a time has accesses at all there is no race *)
Lemma no_race_one {L} (acc : nat -> list (L * kind)) : (forall t u, acc t <> [] -> acc u <> [] -> t = u) -> ~ race acc.
Proof.
  intros H (t & u & x & k & j & N & I & J & _). apply N. apply H; intros E; [rewrite E in I|rewrite E in J]; contradiction.
Qed.

Section AtQueue.
  Import MessageQueueModel MessageQueueProofs.
  Context {V : Type}.
  Variable maxSize : Z.
  Notation stp := (q_step V maxSize).
  Notation get := (@rq_get V).
  Notation alike := (@rq_alike V).
  Notation acc := (@rq_acc V).

  Lemma get_go (s : qst V) t q x : get (q_go s t q) x = get s x. Proof. reflexivity. Qed.
  Lemma get_mrb (s : qst V) o x : get (set_mrb s o) x = get s x. Proof. reflexivity. Qed.
  Lemma get_outer (s : qst V) c o x : get (set_outer s c o) x = get s x. Proof. unfold set_outer. now destruct (is_send c). Qed.
  Lemma get_set_bit (s : qst V) c x : get (set_bit s c) x = get s x. Proof. unfold set_bit. now destruct (is_send c). Qed.
  Lemma get_reset_bit (s : qst V) c x : get (reset_bit s c) x = get s x. Proof. unfold reset_bit. now destruct (is_send c). Qed.
  Lemma get_ub (s : qst V) x : get (set_ub s) x = get s x. Proof. reflexivity. Qed.

  Lemma al_go x s s' t q : alike x s s' -> alike x (q_go s t q) (q_go s' t q).
  Proof.
    intros (G & A1 & A2 & A3 & A4 & A5 & A6 & T). repeat (split; [assumption|]). intros u. cbn. rewrite !fupd_eq. now rewrite T.
  Qed.
  Lemma al_mrb x s s' o : alike x s s' -> alike x (set_mrb s o) (set_mrb s' o).
  Proof. intros (G & A1 & A2 & A3 & A4 & A5 & A6 & T). now repeat (split; [assumption || reflexivity|]). Qed.
  Lemma al_outer x s s' c o : alike x s s' -> alike x (set_outer s c o) (set_outer s' c o).
  Proof.
    intros (G & A1 & A2 & A3 & A4 & A5 & A6 & T). unfold set_outer. destruct (is_send c); now repeat (split; [assumption || reflexivity|]).
  Qed.
  Lemma al_set_bit x s s' c : alike x s s' -> alike x (set_bit s c) (set_bit s' c).
  Proof.
    intros (G & A1 & A2 & A3 & A4 & A5 & A6 & T). unfold set_bit. destruct (is_send c); now repeat (split; [assumption || reflexivity|]).
  Qed.
  Lemma al_reset_bit x s s' c : alike x s s' -> alike x (reset_bit s c) (reset_bit s' c).
  Proof.
    intros (G & A1 & A2 & A3 & A4 & A5 & A6 & T). unfold reset_bit. destruct (is_send c); now repeat (split; [assumption || reflexivity|]).
  Qed.
  Lemma al_ub x s s' : alike x s s' -> alike x (set_ub s) (set_ub s').
  Proof. intros (G & A1 & A2 & A3 & A4 & A5 & A6 & T). now repeat (split; [assumption || reflexivity|]). Qed.
  Lemma al_ring x s s' r r' : alike x s s' -> (forall y, y <> x -> get (set_ring s r) y = get (set_ring s' r') y) -> alike x (set_ring s r) (set_ring s' r').
  Proof. intros (G & A1 & A2 & A3 & A4 & A5 & A6 & T) H. split; [exact H|]. now repeat (split; [assumption || reflexivity|]). Qed.
  Lemma al_begin x s s' : alike x s s' -> x <> RBegin -> r_begin (q_ring s) = r_begin (q_ring s').
  Proof. intros (G & _) N. assert (X := G RBegin ltac:(congruence)). cbn in X. now injection X. Qed.
  Lemma al_end x s s' : alike x s s' -> x <> REnd -> r_end (q_ring s) = r_end (q_ring s').
  Proof. intros (G & _) N. assert (X := G REnd ltac:(congruence)). cbn in X. now injection X. Qed.
  Lemma al_slot x s s' i : alike x s s' -> x <> RSlot i -> r_buf (q_ring s) i = r_buf (q_ring s') i.
  Proof. intros (G & _) N. assert (X := G (RSlot i) ltac:(congruence)). cbn in X. now injection X. Qed.
  Lemma al_outer_eq x s s' c : alike x s s' -> outer s c = outer s' c.
  Proof. intros (G & A1 & A2 & A3 & A4 & A5 & A6 & T). unfold outer. destruct (is_send c); assumption. Qed.
  Lemma al_wait_bit x s s' c : alike x s s' -> wait_bit s c = wait_bit s' c.
  Proof. intros (G & A1 & A2 & A3 & A4 & A5 & A6 & T). unfold wait_bit. destruct (is_send c); assumption. Qed.
  Lemma al_mrb_eq x s s' : alike x s s' -> q_mrb s = q_mrb s'.
  Proof. intros (G & A1 & A2 & A3 & A4 & A5 & A6 & T). assumption. Qed.

  Lemma size_eq r r' : r_begin r = r_begin r' -> r_end r = r_end r' -> ring_size V (rbBufSize maxSize) r = ring_size V (rbBufSize maxSize) r'.
  Proof. intros A B. unfold ring_size. now rewrite A, B. Qed.
  Lemma blocked_eq s s' c : r_begin (q_ring s) = r_begin (q_ring s') -> r_end (q_ring s) = r_end (q_ring s') -> blocked V maxSize s c = blocked V maxSize s' c.
  Proof.
    intros A B. unfold blocked, ring_full, ring_empty. destruct (is_send c); [now rewrite (size_eq _ _ A B)|now rewrite A, B].
  Qed.

  Ltac sim := eexists; (split; [reflexivity|]); (split; [repeat first [apply al_go|apply al_mrb|apply al_outer|apply al_set_bit|apply al_reset_bit|apply al_ub]; assumption|]);
    rewrite ?get_go, ?get_mrb, ?get_outer, ?get_set_bit, ?get_reset_bit, ?get_ub; reflexivity.
  Lemma rq_reads s s' l s1 es x : alike x s s' -> (forall k, ~ In (x, k) (acc s (rq_who l))) -> stp s l = Some (s1, es) ->
    exists s1', stp s' l = Some (s1', es) /\ alike x s1 s1' /\ get s1' x = get s' x.
  Proof.
    intros A N E. assert (T : forall t, q_thr s t = q_thr s' t) by apply A.
    destruct l as [t c|t|t|t|t f]; cbn beta iota delta [q_step] in E |- *; cbn [rq_who] in N; unfold rq_acc in N; rewrite <- (T t).
    - destruct (q_thr s t); [|discriminate]. injection E as <- <-. sim.
    - destruct (q_thr s t) as [|c p]; [discriminate|]. destruct p.
      + rewrite <- (al_outer_eq x s s' c A). destruct (free (outer s c)); [|discriminate]. injection E as <- <-. sim.
      + rewrite <- (al_mrb_eq x s s' A). destruct (free (q_mrb s)); [|discriminate]. injection E as <- <-. sim.
      + assert (N' : forall k, ~ In (x, k) [(RBegin, Reads); (REnd, Reads)]) by (destruct c; exact N). clear N. rename N' into N. rewrite <- (blocked_eq s s' c).
        * injection E as <- <-. sim.
        * apply (al_begin x); [exact A|]. intros ->. apply (N Reads). now left.
        * apply (al_end x); [exact A|]. intros ->. apply (N Reads). right. now left.
      + injection E as <- <-. sim.
      + injection E as <- <-. sim.
      + rewrite <- (al_wait_bit x s s' c A). destruct (wait_bit s c); [|discriminate]. injection E as <- <-. sim.
      + rewrite <- (al_mrb_eq x s s' A). destruct (free (q_mrb s)); [|discriminate]. injection E as <- <-. sim.
      + injection E as E. unfold q_op in *. destruct c as [v ms|st ms| |].
        * assert (NE : x <> REnd) by (intros ->; apply (N Reads); now left).
          assert (NS : x <> RSlot (r_end (q_ring s))) by (intros ->; apply (N Writes); right; now left).
          assert (EE := al_end x s s' A NE). assert (ES := al_slot x s s' _ A NS).
          unfold ring_push in *. rewrite <- EE, <- ES. destruct (in_buf (rbBufSize maxSize) (r_end (q_ring s))).
          -- destruct (r_buf (q_ring s) (r_end (q_ring s))); injection E as <- <-; [sim|]. eexists. split; [reflexivity|]. split.
             ++ apply al_go, al_ring; [exact A|]. intros [| |i] Y; cbn; [f_equal; apply (al_begin x); [exact A|congruence]|reflexivity|].
                f_equal. unfold slot_upd. destruct (i =? r_end (q_ring s))%Z; [reflexivity|apply (al_slot x); [exact A|congruence]].
             ++ rewrite get_go. destruct x as [| |i]; [reflexivity|now elim NE|]. cbn. unfold slot_upd. destruct (Z.eqb_spec i (r_end (q_ring s))) as [->|]; [now elim NS|reflexivity].
          -- injection E as <- <-. sim.
        * assert (NE : x <> RBegin) by (intros ->; apply (N Reads); now left).
          assert (NS : x <> RSlot (r_begin (q_ring s))) by (intros ->; apply (N Reads); right; now left).
          assert (EE := al_begin x s s' A NE). assert (ES := al_slot x s s' _ A NS).
          unfold ring_pop in *. rewrite <- EE, <- ES. destruct (in_buf (rbBufSize maxSize) (r_begin (q_ring s))).
          -- destruct (r_buf (q_ring s) (r_begin (q_ring s))); injection E as <- <-; [|sim]. eexists. split; [reflexivity|]. split.
             ++ apply al_go, al_ring; [exact A|]. intros [| |i] Y; cbn; [reflexivity|f_equal; apply (al_end x); [exact A|congruence]|].
                f_equal. unfold slot_upd. destruct (i =? r_begin (q_ring s))%Z; [reflexivity|apply (al_slot x); [exact A|congruence]].
             ++ rewrite get_go. destruct x as [| |i]; [now elim NE|reflexivity|]. cbn. unfold slot_upd. destruct (Z.eqb_spec i (r_begin (q_ring s))) as [->|]; [now elim NS|reflexivity].
          -- injection E as <- <-. sim.
        * rewrite <- (size_eq (q_ring s) (q_ring s')).
          -- injection E as <- <-. sim.
          -- apply (al_begin x); [exact A|]. intros ->. apply (N Reads). now left.
          -- apply (al_end x); [exact A|]. intros ->. apply (N Reads). right. now left.
        * injection E as <- <-. sim.
      + injection E as <- <-. sim.
      + injection E as <- <-. sim.
      + injection E as <- <-. sim.
      + injection E as <- <-. sim.
    - destruct (q_thr s t) as [|c p]; [discriminate|]. destruct p; try discriminate.
      + rewrite <- (al_outer_eq x s s' c A). destruct (free (outer s c) || (tmout c =? -1)%Z); [discriminate|]. injection E as <- <-. sim.
      + rewrite <- (al_wait_bit x s s' c A). destruct (wait_bit s c || (tmout c =? -1)%Z); [discriminate|]. injection E as <- <-. sim.
    - destruct (q_thr s t) as [|c p]; [discriminate|]. destruct p; try discriminate. injection E as <- <-. sim.
    - destruct (q_thr s t) as [|c p]; [discriminate|]. destruct c as [v ms|[] ms| |]; try discriminate; destruct p; try discriminate; injection E as <- <-; sim.
  Qed.
  Ltac fin := rewrite ?get_go, ?get_mrb, ?get_outer, ?get_set_bit, ?get_reset_bit, ?get_ub; reflexivity.
  Lemma rq_writes s l s1 es x : stp s l = Some (s1, es) -> ~ In (x, Writes) (acc s (rq_who l)) -> get s1 x = get s x.
  Proof.
    intros E N. destruct l as [t c|t|t|t|t f]; cbn beta iota delta [q_step] in E; cbn [rq_who] in N; unfold rq_acc in N.
    - destruct (q_thr s t); [|discriminate]. injection E as <- <-. fin.
    - destruct (q_thr s t) as [|c p]; [discriminate|]. destruct p.
      + destruct (free (outer s c)); [|discriminate]. injection E as <- <-. fin.
      + destruct (free (q_mrb s)); [|discriminate]. injection E as <- <-. fin.
      + injection E as <- <-. fin.
      + injection E as <- <-. fin.
      + injection E as <- <-. fin.
      + destruct (wait_bit s c); [|discriminate]. injection E as <- <-. fin.
      + destruct (free (q_mrb s)); [|discriminate]. injection E as <- <-. fin.
      + injection E as E. unfold q_op in *. destruct c as [v ms|st ms| |].
        * unfold ring_push in *. destruct (in_buf (rbBufSize maxSize) (r_end (q_ring s))); [|injection E as <- <-; fin].
          destruct (r_buf (q_ring s) (r_end (q_ring s))); injection E as <- <-; [fin|]. rewrite get_go. destruct x as [| |i]; [reflexivity| |].
          -- elim N. right. right. now left.
          -- cbn. unfold slot_upd. destruct (Z.eqb_spec i (r_end (q_ring s))) as [->|]; [|reflexivity]. elim N. right. now left.
        * unfold ring_pop in *. destruct (in_buf (rbBufSize maxSize) (r_begin (q_ring s))); [|injection E as <- <-; fin].
          destruct (r_buf (q_ring s) (r_begin (q_ring s))); injection E as <- <-; [|fin]. rewrite get_go. destruct x as [| |i]; [|reflexivity|].
          -- elim N. right. right. right. now left.
          -- cbn. unfold slot_upd. destruct (Z.eqb_spec i (r_begin (q_ring s))) as [->|]; [|reflexivity]. elim N. right. right. now left.
        * injection E as <- <-. fin.
        * injection E as <- <-. fin.
      + injection E as <- <-. fin.
      + injection E as <- <-. fin.
      + injection E as <- <-. fin.
      + injection E as <- <-. fin.
    - destruct (q_thr s t) as [|c p]; [discriminate|]. destruct p; try discriminate.
      + destruct (free (outer s c) || (tmout c =? -1)%Z); [discriminate|]. injection E as <- <-. fin.
      + destruct (wait_bit s c || (tmout c =? -1)%Z); [discriminate|]. injection E as <- <-. fin.
    - destruct (q_thr s t) as [|c p]; [discriminate|]. destruct p; try discriminate. injection E as <- <-. fin.
    - destruct (q_thr s t) as [|c p]; [discriminate|]. destruct c as [v ms|[] ms| |]; try discriminate; destruct p; try discriminate; injection E as <- <-; fin.
  Qed.
  Lemma rq_complete : complete stp rq_who acc get alike.
  Proof. split; [intros s l s1 es x E N; exact (rq_writes s l s1 es x E N)|exact rq_reads]. Qed.
End AtQueue.

Section QueueRace.
  Import MessageQueueModel MessageQueueProofs.
  Context {V : Type}.
  Variable maxSize : Z.
  Hypothesis HM : (0 <= maxSize < 2 ^ 64 - 1)%Z.
  Lemma rq_free ls s es : exec (q_step V maxSize) (q_init V) ls = Some (s, es) -> ~ race (rq_acc s).
  Proof.
    intros E. assert (I := queue_inv V maxSize HM ls s es E). apply no_race_one. intros t u A B.
    assert (H : forall v, rq_acc s v <> [] -> h_rb V (q_thr s v) = true).
    { intros v. unfold rq_acc. destruct (q_thr s v) as [|c p]; [now intros X|]. destruct p; cbn; try reflexivity; destruct c; intros X; now elim X. }
    apply H in A. apply H in B. apply (qi_rb _ _ _ _ I) in A. apply (qi_rb _ _ _ _ I) in B. congruence.
  Qed.
End QueueRace.

Section AtFlag.
  Import EventFlagModel EventFlagProofs.
  Variables (w : Z) (dbg autoReset : bool).
  Notation stp := (e_step w dbg autoReset).
  Notation acc := (rf_acc w autoReset).
  Lemma rf_al_go x o o' (s s' : est) p p' t q : rf_alike x s s' -> o = o' -> rf_alike x (mkE p o (fupd (e_thr s) t q)) (mkE p' o' (fupd (e_thr s') t q)).
  Proof. intros (_ & T) ->. split; [reflexivity|]. intros u. cbn. rewrite !fupd_eq. now rewrite T. Qed.
  Ltac same A := eexists; (split; [reflexivity|]); (split; [apply rf_al_go; [exact A|first [reflexivity|exact (proj1 A)]]|reflexivity]).
  Lemma rf_reads s s' l s1 es x : rf_alike x s s' -> (forall k, ~ In (x, k) (acc s (rf_who l))) -> stp s l = Some (s1, es) ->
    exists s1', stp s' l = Some (s1', es) /\ rf_alike x s1 s1' /\ rf_get s1' x = rf_get s' x.
  Proof.
    intros A N E. destruct x. assert (L := proj1 A). assert (T := proj2 A).
    destruct l as [t c|t|t|t]; cbn beta iota delta [e_step] in E |- *; cbn [rf_who] in N; unfold rf_acc in N; rewrite <- (T t).
    - destruct (e_thr s t); try discriminate. injection E as <- <-. same A.
    - destruct (e_thr s t) as [|c|c o|c o|c o|c o tm|c o tm|r|r|r]; try discriminate.
      + destruct (ef_entry w dbg c); try discriminate; injection E as <- <-; same A.
      + rewrite <- L. destruct (is_free (e_lock s)); [|discriminate]. injection E as <- <-. same A.
      + destruct o; exfalso; apply (N Reads); now left.
      + rewrite <- L. destruct (is_free (e_lock s)); [|discriminate]. injection E as <- <-. same A.
      + destruct o; [exfalso; apply (N Reads); now left|discriminate..].
      + injection E as <- <-. eexists. split; [reflexivity|]. split; [|reflexivity]. split; [exact L|]. intros u. cbn. rewrite !fupd_eq. now rewrite T.
      + injection E as <- <-. same A.
      + injection E as <- <-. same A.
    - destruct (e_thr s t) as [|c|c o|c o|c o|c o tm|c o tm|r|r|r]; try discriminate. destruct o; try discriminate. destruct (tmout =? FOREVER)%Z; [discriminate|].
      injection E as <- <-. same A.
    - destruct (e_thr s t) as [|c|c o|c o|c o|c o tm|c o tm|r|r|r]; try discriminate. injection E as <- <-. same A.
  Qed.
  Lemma rf_writes s l s1 es x : stp s l = Some (s1, es) -> ~ In (x, Writes) (acc s (rf_who l)) -> rf_get s1 x = rf_get s x.
  Proof.
    intros E N. destruct x. unfold rf_get. destruct l as [t c|t|t|t]; cbn beta iota delta [e_step] in E; cbn [rf_who] in N; unfold rf_acc in N.
    - destruct (e_thr s t); try discriminate. now injection E as <- <-.
    - destruct (e_thr s t) as [|c|c o|c o|c o|c o tm|c o tm|r|r|r]; try discriminate.
      + destruct (ef_entry w dbg c); try discriminate; now injection E as <- <-.
      + destruct (is_free (e_lock s)); [|discriminate]. now injection E as <- <-.
      + destruct o; [|elim N; right; now left|elim N; right; now left|now injection E as <- <-]. unfold rf_waiting in N. destruct (wait_pred w P m (e_pat s)).
        * unfold wait_success in E. injection E as <- <-. destruct autoReset; [elim N; right; now left|reflexivity].
        * now injection E as <- <-.
      + destruct (is_free (e_lock s)); [|discriminate]. now injection E as <- <-.
      + destruct o; try discriminate. unfold rf_waiting in N. destruct (wait_pred w P m (e_pat s)).
        * unfold wait_success in E. injection E as <- <-. destruct autoReset; [elim N; right; now left|reflexivity].
        * destruct tm; now injection E as <- <-.
      + now injection E as <- <-.
      + now injection E as <- <-.
      + now injection E as <- <-.
    - destruct (e_thr s t) as [|c|c o|c o|c o|c o tm|c o tm|r|r|r]; try discriminate. destruct o; try discriminate. destruct (tmout =? FOREVER)%Z; [discriminate|].
      now injection E as <- <-.
    - destruct (e_thr s t) as [|c|c o|c o|c o|c o tm|c o tm|r|r|r]; try discriminate. now injection E as <- <-.
  Qed.
  Lemma rf_complete : complete stp rf_who acc rf_get rf_alike.
  Proof. split; [intros s l s1 es x E N; exact (rf_writes s l s1 es x E N)|exact rf_reads]. Qed.
  (** the lock, for any arguments *)
  Definition rf_inv (s : est) : Prop := forall u, holding (e_thr s u) = true <-> e_lock s = Some u.
  Lemma rf_inv_step s l s' es : rf_inv s -> stp s l = Some (s', es) -> rf_inv s'.
  Proof.
    intros H E. unfold rf_inv in H. assert (KEEP : forall t q p, holding q = holding (e_thr s t) -> rf_inv (mkE p (e_lock s) (fupd (e_thr s) t q))).
    { intros t q p Q u. cbn. rewrite fupd_eq. destruct (Nat.eqb_spec u t) as [->|]; [rewrite Q|]; apply H. }
    assert (TAKE : forall t q p, e_lock s = None -> holding q = true -> rf_inv (mkE p (Some t) (fupd (e_thr s) t q))).
    { intros t q p F Q u. cbn. rewrite fupd_eq. destruct (Nat.eqb_spec u t) as [->|D]; [now rewrite Q|]. rewrite H, F. split; [discriminate|congruence]. }
    assert (DROP : forall t q p, holding (e_thr s t) = true -> holding q = false -> rf_inv (mkE p None (fupd (e_thr s) t q))).
    { intros t q p F Q u. cbn. rewrite fupd_eq. destruct (Nat.eqb_spec u t) as [->|D]; [rewrite Q; now split|]. rewrite H. apply H in F. rewrite F. split; congruence. }
    destruct l as [t c|t|t|t]; cbn beta iota delta [e_step] in E.
    - destruct (e_thr s t) eqn:Q; try discriminate. injection E as <- <-. apply KEEP. now rewrite Q.
    - destruct (e_thr s t) as [|c|c o|c o|c o|c o tm|c o tm|r|r|r] eqn:Q; try discriminate.
      + destruct (ef_entry w dbg c); try discriminate; injection E as <- <-; apply KEEP; now rewrite Q.
      + destruct (e_lock s); [discriminate|]. injection E as <- <-. now apply TAKE.
      + destruct o; [destruct (wait_pred w P m (e_pat s))| | |]; injection E as <- <-.
        * apply KEEP. now rewrite Q.
        * apply DROP; [now rewrite Q|reflexivity].
        * apply KEEP. now rewrite Q.
        * apply KEEP. now rewrite Q.
        * apply KEEP. now rewrite Q.
      + destruct (e_lock s); [discriminate|]. injection E as <- <-. now apply TAKE.
      + destruct o; try discriminate. destruct (wait_pred w P m (e_pat s)); [|destruct tm]; injection E as <- <-.
        * apply KEEP. now rewrite Q.
        * apply KEEP. now rewrite Q.
        * apply DROP; [now rewrite Q|reflexivity].
      + injection E as <- <-. intros u. cbn. rewrite fupd_eq. destruct (Nat.eqb_spec u t) as [->|D].
        * rewrite <- (H t), Q. now split.
        * rewrite <- (H u). now destruct (e_thr s u).
      + injection E as <- <-. apply DROP; [now rewrite Q|reflexivity].
      + injection E as <- <-. apply KEEP. now rewrite Q.
    - destruct (e_thr s t) as [|c|c o|c o|c o|c o tm|c o tm|r|r|r] eqn:Q; try discriminate. destruct o; try discriminate. destruct (tmout =? FOREVER)%Z; [discriminate|].
      injection E as <- <-. apply KEEP. now rewrite Q.
    - destruct (e_thr s t) as [|c|c o|c o|c o|c o tm|c o tm|r|r|r] eqn:Q; try discriminate. injection E as <- <-. apply KEEP. now rewrite Q.
  Qed.
  Lemma rf_free ls s es : exec stp e_init ls = Some (s, es) -> ~ race (acc s).
  Proof.
    intros E. assert (H : rf_inv s).
    { refine (exec_inv_st _ _ _ stp rf_inv _ ls e_init s es _ E); [intros s0 l s1 es1; apply rf_inv_step|]. intros u. cbn. split; discriminate. }
    apply no_race_one. intros t u A B.
    assert (K : forall v, acc s v <> [] -> holding (e_thr s v) = true).
    { intros v. unfold rf_acc. destruct (e_thr s v); try reflexivity; intros X; now elim X. }
    apply K in A. apply K in B. apply H in A. apply H in B. congruence.
  Qed.
End AtFlag.

Section AtLock.
  Import MutexModel MutexProofs.
  Variable M : nat.
  Notation stp := (m_step M).
  Lemma rl_al_go x o f f' p p' b t q : (forall u, f u = f' u) -> rl_alike x (mkM o p b (fupd f t q)) (mkM o p' b (fupd f' t q)).
  Proof. intros T. repeat (split; [reflexivity|]). intros u. cbn. rewrite !fupd_eq. now rewrite T. Qed.
  Ltac same A := eexists; (split; [reflexivity|]); (split; [|reflexivity]); apply rl_al_go; exact A.
  Lemma rl_reads s s' l s1 es x : rl_alike x s s' -> (forall k, ~ In (x, k) (rl_acc s (rl_who l))) -> stp s l = Some (s1, es) ->
    exists s1', stp s' l = Some (s1', es) /\ rl_alike x s1 s1' /\ rl_get s1' x = rl_get s' x.
  Proof.
    intros A N E. destruct x. assert (A0 := A). destruct A0 as (O & B & T). destruct s as [o p b f]. destruct s' as [o' p' b' f']. cbn [x_owner x_ub x_thr] in *. subst o' b'.
    destruct l as [t c|t|t|t]; cbn beta iota delta [m_step] in E |- *; cbn [rl_who] in N; unfold rl_acc, m_go in *; cbn [x_owner x_ub x_thr x_count] in *; rewrite <- (T t).
    - destruct (f t); try discriminate. injection E as <- <-. same T.
    - destruct (f t) as [|c| | | | |r]; try discriminate.
      + destruct (o) as [[u n]|]; [|injection E as <- <-; same T]. destruct (Nat.eqb u t); [|discriminate].
        destruct (Nat.ltb n M); [|destruct (waits_forever c)]; injection E as <- <-; same T.
      + elim (N Reads). now left.
      + elim (N Reads). now left.
      + elim (N Reads). now left.
      + destruct (o) as [[u n]|]; [destruct (Nat.eqb u t)|]; injection E as <- <-; same T.
      + injection E as <- <-. same T.
    - destruct (f t) as [|c| | | | |r]; try discriminate. destruct (o) as [[u n]|]; [|discriminate].
      destruct (waits_forever c || Nat.eqb u t); [discriminate|]. injection E as <- <-. same T.
    - destruct (f t) as [|c| | | | |r]; try discriminate. injection E as <- <-. same T.
  Qed.
  Lemma rl_writes s l s1 es x : stp s l = Some (s1, es) -> ~ In (x, Writes) (rl_acc s (rl_who l)) -> rl_get s1 x = rl_get s x.
  Proof.
    intros E N. destruct x. unfold rl_get. destruct l as [t c|t|t|t]; cbn beta iota delta [m_step] in E; cbn [rl_who] in N; unfold rl_acc in N.
    - destruct (x_thr s t); try discriminate. now injection E as <- <-.
    - destruct (x_thr s t) as [|c| | | | |r]; try discriminate.
      + destruct (x_owner s) as [[u n]|]; [|now injection E as <- <-]. destruct (Nat.eqb u t); [|discriminate].
        destruct (Nat.ltb n M); [|destruct (waits_forever c)]; now injection E as <- <-.
      + elim N. right. now left.
      + destruct (x_count s =? 0)%Z; now injection E as <- <-.
      + elim N. right. now left.
      + destruct (x_owner s) as [[u n]|]; [destruct (Nat.eqb u t)|]; now injection E as <- <-.
      + now injection E as <- <-.
    - destruct (x_thr s t) as [|c| | | | |r]; try discriminate. destruct (x_owner s) as [[u n]|]; [|discriminate].
      destruct (waits_forever c || Nat.eqb u t); [discriminate|]. now injection E as <- <-.
    - destruct (x_thr s t) as [|c| | | | |r]; try discriminate. now injection E as <- <-.
  Qed.
  Lemma rl_complete : complete stp rl_who rl_acc rl_get rl_alike.
  Proof. split; [intros s l s1 es x E N; exact (rl_writes s l s1 es x E N)|exact rl_reads]. Qed.
  Lemma rl_free (HM : (1 <= M)%nat /\ (Z.of_nat M < 2 ^ 64)%Z) ls s es : exec stp m_init ls = Some (s, es) -> disciplined (history es) -> ~ race (rl_acc s).
  Proof.
    intros E D. assert (I := minv_reach M HM ls s es E D). apply no_race_one. intros t u A B.
    assert (K : forall v, rl_acc s v <> [] -> exists n, x_owner s = Some (v, n)).
    { intros v X. assert (Y : needs_own (x_thr s v) = true) by (revert X; unfold rl_acc; destruct (x_thr s v); intros X; reflexivity || now elim X).
      apply (mi_own M _ _ I) in Y. destruct (own_some M HM (x_owner s) v Y) as (n & Z & _). now exists n. }
    apply K in A as (n & A). apply K in B as (m & B). congruence.
  Qed.
End AtLock.

Section AtILock.
  Import ItronMutexModel.
  Lemma ri_al_go x o f f' p p' t q : (forall u, f u = f' u) -> ri_alike x (mkI o p (fupd f t q)) (mkI o p' (fupd f' t q)).
  Proof. intros T. split; [reflexivity|]. intros u. cbn. rewrite !fupd_eq. now rewrite T. Qed.
  Ltac same A := eexists; (split; [reflexivity|]); (split; [|reflexivity]); apply ri_al_go; exact A.
  Lemma ri_reads s s' l s1 es x : ri_alike x s s' -> (forall k, ~ In (x, k) (ri_acc s (ri_who l))) -> i_step s l = Some (s1, es) ->
    exists s1', i_step s' l = Some (s1', es) /\ ri_alike x s1 s1' /\ ri_get s1' x = ri_get s' x.
  Proof.
    intros A N E. destruct x. assert (A0 := A). destruct A0 as (O & T). destruct s as [o p f]. destruct s' as [o' p' f']. cbn [i_owner i_thr] in *. subst o'.
    destruct l as [t c|t|t|t]; cbn beta iota delta [i_step] in E |- *; cbn [ri_who] in N; unfold ri_acc, i_go in *; unfold owns in *; cbn [i_owner i_thr i_count] in *; rewrite <- (T t).
    - destruct (f t); try discriminate. injection E as <- <-. same T.
    - destruct (f t) as [|c|c|c| | | | |r]; try discriminate.
      + destruct (o) as [u|]; [|injection E as <- <-; same T]. destruct (Nat.eqb u t); [|discriminate]. injection E as <- <-; same T.
      + destruct (o) as [u|]; [destruct (Nat.eqb u t)|]; injection E as <- <-; same T.
      + elim (N Reads). now left.
      + injection E as <- <-; same T.
      + elim (N Reads). now left.
      + elim (N Reads). now left.
      + destruct (o) as [u|]; [destruct (Nat.eqb u t)|]; injection E as <- <-; same T.
      + injection E as <- <-. same T.
    - destruct (f t) as [|c|c|c| | | | |r]; try discriminate. destruct (o) as [u|]; [|discriminate].
      destruct (forever c || Nat.eqb u t); [discriminate|]. injection E as <- <-. same T.
    - destruct (f t) as [|c|c|c| | | | |r]; try discriminate. injection E as <- <-. same T.
  Qed.
  Lemma ri_writes s l s1 es x : i_step s l = Some (s1, es) -> ~ In (x, Writes) (ri_acc s (ri_who l)) -> ri_get s1 x = ri_get s x.
  Proof.
    intros E N. destruct x. unfold ri_get. destruct l as [t c|t|t|t]; cbn beta iota delta [i_step] in E; cbn [ri_who] in N; unfold ri_acc in N.
    - destruct (i_thr s t); try discriminate. now injection E as <- <-.
    - destruct (i_thr s t) as [|c|c|c| | | | |r]; try discriminate.
      + destruct (i_owner s) as [u|]; [|now injection E as <- <-]. destruct (Nat.eqb u t); [|discriminate]. now injection E as <- <-.
      + destruct (owns s t); now injection E as <- <-.
      + elim N. right. now left.
      + now injection E as <- <-.
      + now injection E as <- <-.
      + elim N. right. now left.
      + destruct (owns s t); now injection E as <- <-.
      + now injection E as <- <-.
    - destruct (i_thr s t) as [|c|c|c| | | | |r]; try discriminate. destruct (i_owner s) as [u|]; [|discriminate].
      destruct (forever c || Nat.eqb u t); [discriminate|]. now injection E as <- <-.
    - destruct (i_thr s t) as [|c|c|c| | | | |r]; try discriminate. now injection E as <- <-.
  Qed.
  Lemma ri_complete : complete i_step ri_who ri_acc ri_get ri_alike.
  Proof. split; [intros s l s1 es x E N; exact (ri_writes s l s1 es x E N)|exact ri_reads]. Qed.
  Definition mine (q : ipc) : bool := match q with IInc _ | UCnt | UDec => true | _ => false end.
  Definition ri_inv (s : ist) : Prop := forall u, mine (i_thr s u) = true -> i_owner s = Some u.
  Lemma ri_inv_step s l s' es : ri_inv s -> i_step s l = Some (s', es) -> ri_inv s'.
  Proof.
    intros H E.
    assert (GO : forall t q p o, (mine q = true -> o = Some t) -> (o = i_owner s \/ i_owner s = None \/ i_owner s = Some t) -> ri_inv (mkI o p (fupd (i_thr s) t q))).
    { intros t q p o Q O u. cbn. rewrite fupd_eq. destruct (Nat.eqb_spec u t) as [->|D]; [exact Q|]. intros X. apply H in X. destruct O as [-> |[O|O]]; congruence. }
    destruct l as [t c|t|t|t]; cbn beta iota delta [i_step] in E.
    - destruct (i_thr s t); try discriminate. injection E as <- <-. apply GO; [|now left]. now destruct (is_lock c).
    - assert (HT := H t). destruct (i_thr s t) as [|c|c|c| | | | |r]; try discriminate.
      + destruct (i_owner s) as [u|] eqn:O; [|injection E as <- <-; apply GO; [discriminate|now right; left]].
        destruct (Nat.eqb u t); [|discriminate]. injection E as <- <-. unfold i_go. rewrite O. apply GO; [discriminate|now left].
      + unfold owns in E. destruct (i_owner s) as [u|] eqn:O; [destruct (Nat.eqb_spec u t) as [->|]|]; injection E as <- <-; unfold i_go; rewrite O; (apply GO; [|now left]); easy.
      + injection E as <- <-. apply GO; [discriminate|now left].
      + injection E as <- <-. apply GO; [|now left]. unfold owns. destruct (i_owner s) as [u|]; [|discriminate]. destruct (Nat.eqb_spec u t) as [->|]; easy.
      + injection E as <- <-. apply GO; [|now left]. intros _. now apply HT.
      + injection E as <- <-. apply GO; [discriminate|now left].
      + unfold owns in E. destruct (i_owner s) as [u|] eqn:O; [destruct (Nat.eqb_spec u t) as [->|]|]; injection E as <- <-; unfold i_go; rewrite ?O; (apply GO; [easy|]); auto.
      + injection E as <- <-. apply GO; [discriminate|now left].
    - destruct (i_thr s t) as [|c|c|c| | | | |r]; try discriminate. destruct (i_owner s) as [u|] eqn:O; [|discriminate].
      destruct (forever c || Nat.eqb u t); [discriminate|]. injection E as <- <-. apply GO; [discriminate|now left].
    - destruct (i_thr s t) as [|c|c|c| | | | |r]; try discriminate. injection E as <- <-. apply GO; [discriminate|now left].
  Qed.
  Lemma ri_free ls s es : exec i_step i_init ls = Some (s, es) -> ~ race (ri_acc s).
  Proof.
    intros E. assert (H : ri_inv s).
    { refine (exec_inv_st _ _ _ i_step ri_inv _ ls i_init s es _ E); [intros s0 l s1 es1; apply ri_inv_step|]. intros u. discriminate. }
    apply no_race_one. intros t u A B.
    assert (K : forall v, ri_acc s v <> [] -> mine (i_thr s v) = true).
    { intros v. unfold ri_acc. destruct (i_thr s v); try reflexivity; intros X; now elim X. }
    apply K in A. apply K in B. apply H in A. apply H in B. congruence.
  Qed.
End AtILock.

Section AtPool.
  Local Open Scope nat_scope.
  Import ThreadPoolModel ThreadPoolProofs.
  Variable N : nat.
  Variable dflt : Z.
  Variable ext_prio : nat -> Z.
  Notation stp := (p_step N dflt ext_prio).
  Ltac pw := intros; unfold set_guard; cbn; repeat (rewrite !fupd_eq; repeat match goal with |- context [Nat.eqb ?a ?b] => destruct (Nat.eqb a b) end); auto.
  Ltac al G T1 T2 T3 T4 T5 := eexists; (split; [reflexivity|]); split;
    [split; [let y := fresh in let Y := fresh in intros y Y; specialize (G y Y); destruct y; cbn in G |- *; rewrite ?fupd_eq; repeat match goal with |- context [Nat.eqb ?a ?b] => destruct (Nat.eqb a b) end; auto
            |split; [reflexivity|split; [pw|split; [pw|split; [pw|split; pw]]]]]
    |reflexivity].
  Lemma rp_reads s s' l s1 es x : rp_alike x s s' -> (forall k, ~ In (x, k) (rp_acc s (rp_who l))) -> stp s l = Some (s1, es) ->
    exists s1', stp s' l = Some (s1', es) /\ rp_alike x s1 s1' /\ rp_get s1' x = rp_get s' x.
  Proof.
    intros (G & Q & P & V & R & D & T) X E. destruct s as [q ts nd pr ev rn gd th]. destruct s' as [q' ts' nd' pr' ev' rn' gd' th'].
    cbn [p_q p_prio p_ev p_run p_guard p_thr] in *. subst q'.
    destruct l as [t c|t|t o|r|r b]; cbn beta iota delta [p_step] in E |- *; cbn [rp_who] in X; unfold rp_acc, p_go, p_wto, callable, resolve in *;
      cbn [p_q p_prio p_ev p_run p_guard p_thr p_task p_needs] in *.
    - rewrite <- (T t). destruct (th t); try discriminate. rewrite <- (R t).
      destruct c as [x0 ms [g|] pp|g ms|g|g|x0 pp|x0 b]; rewrite <- ?(D t g);
        match type of E with context [if ?y then _ else _] => destruct y end; try discriminate; injection E as <- <-; al G P V R D T.
    - rewrite <- (T t). destruct (th t) as [|c|k r x0 ms g pp|b r g|r]; try discriminate.
      + destruct c as [x0 ms g pp|g ms|g|g|x0 pp|x0 b]; try discriminate; rewrite <- ?(D t g).
        * destruct (x0 =? 0); [injection E as <- <-; al G P V R D T|]. destruct q as [|r q]; [discriminate|]. injection E as <- <-; al G P V R D T.
        * destruct (gd t g) as [r|]; [|injection E as <- <-; al G P V R D T]. rewrite <- (V r). destruct (ev r); [|discriminate]. injection E as <- <-; al G P V R D T.
        * destruct (gd t g) as [r|]; [|injection E as <- <-; al G P V R D T]. rewrite <- (V r). destruct (ev r); [|discriminate]. injection E as <- <-; al G P V R D T.
        * injection E as <- <-; al G P V R D T.
      + destruct k.
        * rewrite <- (R r). destruct (rn r); try discriminate. injection E as <- <-; al G P V R D T.
        * injection E as <- <-. assert (NX : Task r <> x) by (intros <-; apply (X Writes); apply in_or_app; left; now left).
          eexists; (split; [reflexivity|]); split; [split; [|split; [reflexivity|split; [pw|split; [pw|split; [pw|split; pw]]]]]|].
          -- intros y Y. specialize (G y Y). destruct y; cbn in G |- *; [|exact G]. rewrite !fupd_eq. destruct (Nat.eqb r0 r); auto.
          -- destruct x as [u|u]; cbn; [|reflexivity]. rewrite fupd_other; [reflexivity|congruence].
        * injection E as <- <-. assert (NX : Needs r <> x) by (intros <-; apply (X Writes); apply in_or_app; left; now left).
          eexists; (split; [reflexivity|]); split; [split; [|split; [reflexivity|split; [pw|split; [pw|split; [pw|split; pw]]]]]|].
          -- intros y Y. specialize (G y Y). destruct y; cbn in G |- *; [exact G|]. rewrite !fupd_eq. destruct (Nat.eqb r0 r); auto.
          -- destruct x as [u|u]; cbn; [reflexivity|]. rewrite fupd_other; [reflexivity|congruence].
        * injection E as <- <-. rewrite <- (P t). al G P V R D T.
        * injection E as <- <-. rewrite <- (R r). destruct g as [g|]; al G P V R D T.
      + destruct b.
        * destruct (length q <? N); [|discriminate]. injection E as <- <-; al G P V R D T.
        * injection E as <- <-; al G P V R D T.
      + injection E as <- <-; al G P V R D T.
    - rewrite <- (T t). destruct (th t) as [|c|k r x0 ms g pp|b r g|r]; try discriminate.
      + destruct c as [x0 ms g pp|g ms|g|g|x0 pp|x0 b]; try discriminate; rewrite <- ?(D t g).
        * destruct ((ms =? -1)%Z || (x0 =? 0)); [discriminate|].
          assert (W : match o with Some u => negb (u =? t) && match th' u with PAt (ThreadPoolSpec.PStart y _ _ _) => negb (y =? 0) | PHold SJoin _ _ _ _ _ | PRet (ThreadPoolSpec.PErr TimedOut) => true | _ => false end | None => false end =
                      match o with Some u => negb (u =? t) && match th u with PAt (ThreadPoolSpec.PStart y _ _ _) => negb (y =? 0) | PHold SJoin _ _ _ _ _ | PRet (ThreadPoolSpec.PErr TimedOut) => true | _ => false end | None => false end).
          { destruct o as [u|]; [|reflexivity]. now rewrite <- (T u). }
          rewrite W. destruct (_ || _); [|discriminate]. injection E as <- <-; al G P V R D T.
        * destruct (gd t g) as [r|]; [|discriminate]. rewrite <- (V r). destruct ((ms =? -1)%Z || ev r); [discriminate|]. injection E as <- <-; al G P V R D T.
      + destruct k; try discriminate. destruct (ms =? -1)%Z; [discriminate|]. rewrite <- (R r). destruct (rn r); try discriminate; injection E as <- <-; al G P V R D T.
    - rewrite <- (R r). destruct (rn r) as [| | | |k b|]; try discriminate.
      + injection E as <- <-; al G P V R D T.
      + assert (NX : Task r <> x) by (intros <-; apply (X Reads); apply in_or_app; right; now left).
        assert (ET : ts r = ts' r) by (specialize (G _ NX); cbn in G; now injection G). rewrite <- ET, <- (P r).
        destruct (ts r =? 0); injection E as <- <-; al G P V R D T.
      + destruct k.
        * injection E as <- <-; al G P V R D T.
        * assert (NX : Needs r <> x) by (intros <-; apply (X Reads); apply in_or_app; right; now left).
          assert (ET : nd r = nd' r) by (specialize (G _ NX); cbn in G; now injection G). rewrite <- ET. injection E as <- <-; al G P V R D T.
        * assert (NX : Task r <> x) by (intros <-; apply (X Reads); apply in_or_app; right; now left).
          assert (ET : ts r = ts' r) by (specialize (G _ NX); cbn in G; now injection G). rewrite <- ET. injection E as <- <-; al G P V R D T.
        * injection E as <- <-; al G P V R D T.
        * assert (NX : Task r <> x) by (intros <-; apply (X Reads); apply in_or_app; right; now left).
          assert (ET : ts r = ts' r) by (specialize (G _ NX); cbn in G; now injection G). rewrite <- ET. destruct (length q <? N); [|discriminate].
          injection E as <- <-; al G P V R D T.
      + injection E as <- <-; al G P V R D T.
    - rewrite <- (R r), <- (T r). destruct (rn r) as [| | | |k b0|]; try discriminate. destruct (th r); try discriminate.
      assert (NX : Task r <> x) by (intros <-; apply (X Reads); apply in_or_app; right; now left).
      assert (ET : ts r = ts' r) by (specialize (G _ NX); cbn in G; now injection G). rewrite <- ET. injection E as <- <-; al G P V R D T.
  Qed.
  Lemma rp_writes s l s1 es x : stp s l = Some (s1, es) -> ~ In (x, Writes) (rp_acc s (rp_who l)) -> rp_get s1 x = rp_get s x.
  Proof.
    intros E X. destruct l as [t c|t|t o|r|r b]; cbn beta iota delta [p_step] in E; cbn [rp_who] in X; unfold rp_acc in *.
    - destruct (p_thr s t); try discriminate. destruct (callable N s t c); [|discriminate]. now injection E as <- <-.
    - destruct (p_thr s t) as [|c|k r x0 ms g pp|b r g|r]; try discriminate.
      + destruct c as [x0 ms g pp|g ms|g|g|x0 pp|x0 b]; try discriminate.
        * destruct (x0 =? 0); [now injection E as <- <-|]. destruct (p_q s) as [|r q]; [discriminate|]. now injection E as <- <-.
        * destruct (p_guard s t g) as [r|]; [|now injection E as <- <-]. destruct (p_ev s r); [|discriminate]. now injection E as <- <-.
        * destruct (p_guard s t g) as [r|]; [|now injection E as <- <-]. destruct (p_ev s r); [|discriminate]. now injection E as <- <-.
        * now injection E as <- <-.
      + destruct k.
        * destruct (p_run s r); try discriminate. now injection E as <- <-.
        * injection E as <- <-. destruct x as [u|u]; cbn; [|reflexivity]. rewrite fupd_other; [reflexivity|]. intros ->. apply X. apply in_or_app; left; now left.
        * injection E as <- <-. destruct x as [u|u]; cbn; [reflexivity|]. rewrite fupd_other; [reflexivity|]. intros ->. apply X. apply in_or_app; left; now left.
        * now injection E as <- <-.
        * now injection E as <- <-.
      + destruct b; [destruct (length (p_q s) <? N); [|discriminate]|]; now injection E as <- <-.
      + now injection E as <- <-.
    - destruct (p_thr s t) as [|c|k r x0 ms g pp|b r g|r]; try discriminate.
      + destruct c as [x0 ms g pp|g ms|g|g|x0 pp|x0 b]; try discriminate.
        * destruct ((ms =? -1)%Z || (x0 =? 0)); [discriminate|]. destruct (_ || _); [|discriminate]. now injection E as <- <-.
        * destruct (p_guard s t g) as [r|]; [|discriminate]. destruct ((ms =? -1)%Z || p_ev s r); [discriminate|]. now injection E as <- <-.
      + destruct k; try discriminate. destruct (ms =? -1)%Z; [discriminate|]. destruct (p_run s r); try discriminate; now injection E as <- <-.
    - destruct (p_run s r) as [| | | |k b|]; try discriminate.
      + now injection E as <- <-.
      + destruct (p_task s r =? 0); now injection E as <- <-.
      + destruct k; try (now injection E as <- <-). destruct (length (p_q s) <? N); [|discriminate]. now injection E as <- <-.
      + now injection E as <- <-.
    - destruct (p_run s r) as [| | | |k b0|]; try discriminate. destruct (p_thr s r); try discriminate. now injection E as <- <-.
  Qed.
  Lemma rp_complete : complete stp rp_who rp_acc rp_get rp_alike.
  Proof. split; [intros s l s1 es x E X; exact (rp_writes s l s1 es x E X)|exact rp_reads]. Qed.
  Lemma rp_free ls s es : exec stp (p_init N dflt) ls = Some (s, es) -> ~ race (rp_acc s).
  Proof.
    intros E. destruct (reach N dflt ext_prio ls s es E) as (own & f & sg & I & _).
    assert (W : forall t x, In (x, Writes) (rp_acc s t) -> exists k r x0 ms g pp, p_thr s t = PHold k r x0 ms g pp /\ (x = Task r /\ k = STask \/ x = Needs r /\ k = SNeeds)).
    { intros t x H. unfold rp_acc in H. apply in_app_or in H as [H|H].
      - destruct (p_thr s t) as [|c|k r x0 ms g pp|b r g|r]; try contradiction. destruct k; try contradiction; destruct H as [H|[]]; injection H as <-; eauto 10.
      - destruct (p_run s t) as [| | | |k b|]; try contradiction; [destruct H as [H|[]]; discriminate..|]. destruct k; try contradiction; destruct H as [H|[]]; discriminate. }
    assert (RD : forall t x, In (x, Reads) (rp_acc s t) -> (x = Task t \/ x = Needs t) /\ p_run s t <> WOff).
    { intros t x H. unfold rp_acc in H. apply in_app_or in H as [H|H].
      - destruct (p_thr s t) as [|c|k r x0 ms g pp|b r g|r]; try contradiction. destruct k; try contradiction; destruct H as [H|[]]; discriminate.
      - destruct (p_run s t) as [| | | |k b|]; try contradiction; [destruct H as [H|[]]; injection H as <-; split; [now left|discriminate]..|].
        destruct k; try contradiction; destruct H as [H|[]]; injection H as <-; (split; [now (left + right)|discriminate]). }
    assert (C : forall t u x j, In (x, Writes) (rp_acc s t) -> In (x, j) (rp_acc s u) -> t = u).
    { intros t u x j A B. destruct (W t x A) as (k & r & x0 & ms & g & pp & T & XK). destruct (held_by N dflt ext_prio s own t k r x0 ms g pp I T) as (_ & O & _ & _ & _ & HK).
      assert (OFF : p_run s r = WOff) by (destruct XK as [(_ & ->)|(_ & ->)]; apply HK).
      destruct j.
      - destruct (RD u x B) as (XU & RU). exfalso. destruct XK as [(-> & _)|(-> & _)]; destruct XU as [XU|XU]; try discriminate; injection XU as <-; contradiction.
      - destruct (W u x B) as (k' & r' & x0' & ms' & g' & pp' & T' & XK'). destruct (held_by N dflt ext_prio s own u k' r' x0' ms' g' pp' I T') as (_ & O' & _).
        assert (r = r') as <- by (destruct XK as [(-> & _)|(-> & _)]; destruct XK' as [(Y & _)|(Y & _)]; congruence). congruence. }
    intros (t & u & x & k & j & D & A & B & [->| ->]); apply D; [exact (C t u x j A B)|symmetry; exact (C u t x k B A)].
  Qed.
End AtPool.
