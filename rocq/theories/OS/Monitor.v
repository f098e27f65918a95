(** Monitors, field access by field access.
    A monitor is an object whose shared fields are used only while its mutex (a std::mutex) is held, with condition variables.  Here a
    critical section is a program ([code]) of which every read of a field, write of a field and notify_all is a step of its own, other
    threads moving in between, and so are the locking of the mutex and its release (by leaving the scope of the lock, or by sleeping on
    a condition variable).  The models of StdCppThread and of the StdCpp timers (OS/ThreadModel, OS/TimerModel) take a whole critical
    section as one step; the theorem [monitor_atomic] below shows for every monitor that this loses nothing.
    ([thread.mutex], [thread.condition.condvar] of the C++ standard, and for the fields the sequential consistency of programs without
    data races: [no_data_race].) *)
From Coq Require Import List Arith Bool Lia.
Import ListNotations.
From Verif Require Import OS.Sched.

Section Monitor.
  Variables Fld Val Cnd Pc Lab Ev : Type.
  Variable fld_eqb : Fld -> Fld -> bool.

  (** what is left of a critical section *)
  Inductive code :=
  | Rd (f : Fld) (k : Val -> code)        (* read field f *)
  | Wr (f : Fld) (v : Val) (k : code)     (* write field f *)
  | Ntf (c : Cnd) (k : code)              (* c.notify_all() *)
  | Exit (p : Pc) (es : list Ev).         (* release the mutex; the thread goes on at p *)

  (** the monitor: the critical section of a thread at p (None: p is not in front of the mutex); where a notify moves a thread at p;
      the steps outside of the mutex, which see no field, only the place of the thread and one observation of another thread *)
  Variable section : Pc -> option code.
  Variable wake : Cnd -> Pc -> Pc.
  Variable actor : Lab -> nat.
  Variable peer : Lab -> nat.
  Variable test : Lab -> Pc -> bool.
  Variable outer : Lab -> Pc -> bool -> option (Pc * list Ev).

  Definition set_fld (m : Fld -> Val) (f : Fld) (v : Val) : Fld -> Val := fun g => if fld_eqb g f then v else m g.

  (** ** field by field *)
  Inductive fpc := FOut (p : Pc) | FIn (c : code).
  Record fstate := mkF { f_fld : Fld -> Val; f_own : option nat; f_pc : nat -> fpc }.
  Inductive flab := FAcq (t : nat) | FMove (t : nat) | FOuter (l : Lab).
  Definition f_wake (c : Cnd) (q : fpc) : fpc := match q with FOut p => FOut (wake c p) | _ => q end.
  Definition f_test (l : Lab) (q : fpc) : bool := match q with FOut p => test l p | FIn _ => false end.
  Definition f_step (s : fstate) (l : flab) : option (fstate * list Ev) :=
    match l with
    | FAcq t =>
        match f_pc s t, f_own s with
        | FOut p, None => match section p with Some c => Some (mkF (f_fld s) (Some t) (fupd (f_pc s) t (FIn c)), []) | None => None end
        | _, _ => None
        end
    | FMove t =>
        match f_pc s t with
        | FIn (Rd f k) => Some (mkF (f_fld s) (f_own s) (fupd (f_pc s) t (FIn (k (f_fld s f)))), [])
        | FIn (Wr f v k) => Some (mkF (set_fld (f_fld s) f v) (f_own s) (fupd (f_pc s) t (FIn k)), [])
        | FIn (Ntf c k) => Some (mkF (f_fld s) (f_own s) (fupd (fun u => f_wake c (f_pc s u)) t (FIn k)), [])
        | FIn (Exit p es) => Some (mkF (f_fld s) None (fupd (f_pc s) t (FOut p)), es)
        | FOut _ => None
        end
    | FOuter l =>
        match f_pc s (actor l) with
        | FOut p => match outer l p (f_test l (f_pc s (peer l))) with
                    | Some (p', es) => Some (mkF (f_fld s) (f_own s) (fupd (f_pc s) (actor l) (FOut p')), es)
                    | None => None
                    end
        | FIn _ => None
        end
    end.

  (** ** section by section *)
  Record bstate := mkB { b_fld : Fld -> Val; b_pc : nat -> Pc }.
  Inductive blab := BSec (t : nat) | BOuter (l : Lab).
  (** a whole critical section: the fields after it, the notified variables, where it goes on, what it shows *)
  Fixpoint whole (m : Fld -> Val) (c : code) : (Fld -> Val) * list Cnd * Pc * list Ev :=
    match c with
    | Rd f k => whole m (k (m f))
    | Wr f v k => whole (set_fld m f v) k
    | Ntf d k => let '(m', ds, p, es) := whole m k in (m', d :: ds, p, es)
    | Exit p es => (m, [], p, es)
    end.
  (** the number of steps of a critical section, from locking (not counted) to release *)
  Fixpoint clen (m : Fld -> Val) (c : code) : nat :=
    match c with
    | Rd f k => S (clen m (k (m f)))
    | Wr f v k => S (clen (set_fld m f v) k)
    | Ntf _ k => S (clen m k)
    | Exit _ _ => 1
    end.
  Variable K : nat.                     (* no critical section is longer *)
  Definition wakes (ds : list Cnd) (p : Pc) : Pc := fold_left (fun q d => wake d q) ds p.
  Definition b_step (s : bstate) (l : blab) : option (bstate * list Ev) :=
    match l with
    | BSec t =>
        match section (b_pc s t) with
        | Some c => let '(m', ds, p, es) := whole (b_fld s) c in Some (mkB m' (fupd (fun u => wakes ds (b_pc s u)) t p), es)
        | None => None
        end
    | BOuter l =>
        match outer l (b_pc s (actor l)) (test l (b_pc s (peer l))) with
        | Some (p', es) => Some (mkB (b_fld s) (fupd (b_pc s) (actor l) p'), es)
        | None => None
        end
    end.

  (** what a monitor must satisfy: a thread moved by a notify is then in front of the mutex, and a thread in front of the mutex is not
      moved by anything else; the observations of other threads do not see whether a thread is in front of the mutex or asleep; nobody
      falls asleep without the mutex; no critical section is longer than K *)
  Definition monitor_ok : Prop :=
    (forall d p, wake d p = p \/ section (wake d p) <> None) /\
    (forall d p, section p <> None -> wake d p = p) /\
    (forall l p b, section p <> None -> outer l p b = None) /\
    (forall l p, section p <> None -> test l p = false) /\
    (forall l d p, test l (wake d p) = test l p) /\
    (forall l d p b p' es, outer l p b = Some (p', es) -> wake d p' = p') /\
    (forall m p c, section p = Some c -> clen m c <= K).
  Hypothesis OK : monitor_ok.

  Let K1 := proj1 OK.
  Let K2 := proj1 (proj2 OK).
  Let K3 := proj1 (proj2 (proj2 OK)).
  Let K4 := proj1 (proj2 (proj2 (proj2 OK))).
  Let K5 := proj1 (proj2 (proj2 (proj2 (proj2 OK)))).
  Let K6 := proj1 (proj2 (proj2 (proj2 (proj2 (proj2 OK))))).
  Let K7 := proj2 (proj2 (proj2 (proj2 (proj2 (proj2 OK))))).

  Lemma wakes_cons d ds p : wakes (d :: ds) p = wakes ds (wake d p).
  Proof. reflexivity. Qed.
  Lemma wakes_app ds es p : wakes (ds ++ es) p = wakes es (wakes ds p).
  Proof. unfold wakes. apply fold_left_app. Qed.
  Lemma wakes_sec ds p : section p <> None -> wakes ds p = p.
  Proof. induction ds as [|d ds IH]; intros N; [reflexivity|]. rewrite wakes_cons, (K2 d p N). now apply IH. Qed.
  Lemma wakes_none ds p : section (wakes ds p) = None -> wakes ds p = p.
  Proof.
    revert p. induction ds as [|d ds IH]; intros p N; [reflexivity|]. rewrite wakes_cons in *.
    destruct (K1 d p) as [E|E]; [rewrite E in *; now apply IH|]. rewrite (wakes_sec ds _ E) in N. contradiction.
  Qed.
  Lemma wakes_test l ds p : test l (wakes ds p) = test l p.
  Proof. revert p. induction ds as [|d ds IH]; intros p; [reflexivity|]. rewrite wakes_cons, IH. apply K5. Qed.
  Lemma wakes_outer l ds p b p' es : outer l p b = Some (p', es) -> wakes ds p' = p'.
  Proof. intros E. induction ds as [|d ds IH]; [reflexivity|]. rewrite wakes_cons, (K6 _ d _ _ _ _ E). exact IH. Qed.

  (** the states of the two systems: between sections they are the same; inside, the second has not begun the section yet *)
  Definition same (f : fstate) (b : bstate) : Prop :=
    match f_own f with
    | None => f_fld f = b_fld b /\ forall u, f_pc f u = FOut (b_pc b u)
    | Some t =>
        exists c0 c ds, section (b_pc b t) = Some c0 /\ f_pc f t = FIn c /\
          whole (b_fld b) c0 = (let '(m', ds', p, es) := whole (f_fld f) c in (m', ds ++ ds', p, es)) /\ clen (f_fld f) c <= K /\
          forall u, u <> t -> f_pc f u = FOut (wakes ds (b_pc b u))
    end.

  (** the steps of the section in progress that have been made *)
  Definition made (f : fstate) : nat :=
    match f_own f with
    | None => 0
    | Some t => match f_pc f t with FIn c => S K - clen (f_fld f) c | FOut _ => 0 end
    end.
  Definition from (fl : list flab) (bl : list blab) : Prop := forall l, In (BOuter l) bl -> In (FOuter l) fl.

  Lemma same_step f b l f' es : same f b -> f_step f l = Some (f', es) ->
    exists ls b', exec b_step b ls = Some (b', es) /\ same f' b' /\ from [l] ls /\ 1 + made f <= made f' + S K * length ls.
  Proof.
    intros H E. destruct l as [t|t|l]; cbn [f_step] in E.
    - (* acquire *)
      destruct (f_pc f t) as [p|] eqn:P; [|discriminate]. destruct (f_own f) as [o|] eqn:O; [discriminate|].
      destruct (section p) as [c|] eqn:C; [|discriminate]. injection E as <- <-. unfold same in H. rewrite O in H. destruct H as (F & Q).
      assert (X : p = b_pc b t) by (rewrite Q in P; now injection P). assert (LE := K7 (f_fld f) p c C).
      exists [], b. split; [reflexivity|]. split; [|split; [intros ? []|unfold made; cbn [f_own f_pc f_fld length]; rewrite O, fupd_same; lia]].
      unfold same. cbn [f_own f_fld f_pc]. exists c, c, []. rewrite <- X, F in *. split; [exact C|]. split; [apply fupd_same|]. split; [|split].
      + destruct (whole (b_fld b) c) as [[[m' ds'] p'] es']. reflexivity.
      + exact LE.
      + intros u N. rewrite fupd_other by exact N. apply Q.
    - destruct (f_pc f t) as [p|c] eqn:P; [discriminate|]. unfold same in H. destruct (f_own f) as [o|] eqn:O.
      2: { destruct H as (_ & Q). rewrite Q in P. discriminate. }
      destruct H as (c0 & c1 & ds & SC & P1 & W & LE & Q).
      destruct (Nat.eq_dec t o) as [->|N]. 2: { rewrite Q in P by exact N. discriminate. }
      rewrite P in P1. injection P1 as <-.
      destruct c as [x k|x v k|d k|p es']; injection E as <- <-.
      + cbn [clen] in LE. exists [], b. split; [reflexivity|].
        split; [|split; [intros ? []|unfold made; cbn [f_own f_pc f_fld length]; rewrite O, fupd_same, P; cbn [clen]; lia]].
        unfold same. cbn [f_own f_fld f_pc]. exists c0, (k (f_fld f x)), ds.
        split; [exact SC|]. split; [apply fupd_same|]. split; [exact W|]. split; [lia|]. intros u N. rewrite fupd_other by exact N. now apply Q.
      + cbn [clen] in LE. exists [], b. split; [reflexivity|].
        split; [|split; [intros ? []|unfold made; cbn [f_own f_pc f_fld length]; rewrite O, fupd_same, P; cbn [clen]; lia]].
        unfold same. cbn [f_own f_fld f_pc]. exists c0, k, ds.
        split; [exact SC|]. split; [apply fupd_same|]. split; [exact W|]. split; [lia|]. intros u N. rewrite fupd_other by exact N. now apply Q.
      + cbn [clen] in LE. exists [], b. split; [reflexivity|].
        split; [|split; [intros ? []|unfold made; cbn [f_own f_pc f_fld length]; rewrite O, fupd_same, P; cbn [clen]; lia]].
        unfold same. cbn [f_own f_fld f_pc]. exists c0, k, (ds ++ [d]).
        split; [exact SC|]. split; [apply fupd_same|]. split; [|split; [lia|]].
        * rewrite W. cbn [whole]. destruct (whole (f_fld f) k) as [[[m' ds'] p'] es']. now rewrite <- app_assoc.
        * intros u N. rewrite fupd_other by exact N. rewrite (Q u N). cbn [f_wake]. now rewrite wakes_app.
      + cbn [whole] in W. rewrite app_nil_r in W.
        exists [BSec o], (mkB (f_fld f) (fupd (fun u => wakes ds (b_pc b u)) o p)). split; [|split; [|split]].
        * cbn [exec b_step]. rewrite SC, W. now rewrite app_nil_r.
        * unfold same. cbn [f_own f_fld f_pc b_fld b_pc]. split; [reflexivity|]. intros u. rewrite !fupd_eq.
          destruct (Nat.eqb_spec u o) as [->|N]; [reflexivity|now apply Q].
        * intros l [X|[]]. discriminate.
        * unfold made. cbn [f_own length]. rewrite O, P. cbn [clen]. lia.
    - destruct (f_pc f (actor l)) as [p|c] eqn:P; [|discriminate].
      destruct (outer l p (f_test l (f_pc f (peer l)))) as [[p' es']|] eqn:X; [|discriminate]. injection E as <- <-.
      assert (NS : section p = None).
      { destruct (section p) eqn:SC; [|reflexivity]. rewrite K3 in X; [discriminate|now rewrite SC]. }
      unfold same in H. destruct (f_own f) as [o|] eqn:O.
      + destruct H as (c0 & c1 & ds & SC & P1 & W & LE & Q).
        assert (NA : actor l <> o) by (intros A; rewrite A, P1 in P; discriminate).
        assert (Y : p = b_pc b (actor l)).
        { rewrite (Q _ NA) in P. injection P as P. rewrite <- P in NS. apply wakes_none in NS. congruence. }
        assert (T : f_test l (f_pc f (peer l)) = test l (b_pc b (peer l))).
        { destruct (Nat.eq_dec (peer l) o) as [R|R].
          - rewrite R, P1. cbn [f_test]. rewrite K4; [reflexivity|now rewrite SC].
          - rewrite (Q _ R). cbn [f_test]. apply wakes_test. }
        rewrite T, Y in X. exists [BOuter l], (mkB (b_fld b) (fupd (b_pc b) (actor l) p')). split; [|split; [|split]].
        * cbn [exec b_step]. rewrite X. now rewrite app_nil_r.
        * unfold same. cbn [f_own f_fld f_pc b_fld b_pc]. exists c0, c1, ds. rewrite !fupd_other by congruence.
          split; [exact SC|]. split; [exact P1|]. split; [exact W|]. split; [exact LE|]. intros u N. rewrite !fupd_eq.
          destruct (Nat.eqb_spec u (actor l)) as [->|N']; [now rewrite (wakes_outer _ ds _ _ _ _ X)|now apply Q].
        * intros l' [I|[]]. injection I as <-. now left.
        * unfold made. cbn [f_own f_pc f_fld length]. rewrite O, fupd_other by congruence. lia.
      + destruct H as (F & Q). assert (Y : p = b_pc b (actor l)) by (rewrite Q in P; now injection P).
        rewrite Q in X. cbn [f_test] in X. rewrite Y in X. exists [BOuter l], (mkB (b_fld b) (fupd (b_pc b) (actor l) p')). split; [|split; [|split]].
        * cbn [exec b_step]. rewrite X. now rewrite app_nil_r.
        * unfold same. cbn [f_own f_fld f_pc b_fld b_pc]. split; [exact F|]. intros u. rewrite !fupd_eq.
          destruct (Nat.eqb u (actor l)); [reflexivity|apply Q].
        * intros l' [I|[]]. injection I as <-. now left.
        * unfold made. cbn [f_own length]. rewrite O. lia.
  Qed.

  (** every run, field access by field access, shows what some run section by section shows *)
  Theorem monitor_atomic : forall ls f b f' es, same f b -> exec f_step f ls = Some (f', es) ->
    exists ls' b', exec b_step b ls' = Some (b', es) /\ same f' b' /\ from ls ls' /\ length ls + made f <= made f' + S K * length ls'.
  Proof.
    induction ls as [|l ls IH]; intros f b f' es H E; cbn [exec] in E.
    - injection E as <- <-. exists [], b. split; [reflexivity|]. split; [exact H|]. split; [intros ? []|cbn; lia].
    - destruct (f_step f l) as [[f1 e1]|] eqn:E1; [|discriminate]. destruct (exec f_step f1 ls) as [[f2 e2]|] eqn:E2; [|discriminate].
      injection E as <- <-. destruct (same_step _ _ _ _ _ H E1) as (l1 & b1 & X1 & H1 & F1 & N1).
      destruct (IH _ _ _ _ H1 E2) as (l2 & b2 & X2 & H2 & F2 & N2).
      exists (l1 ++ l2), b2. split; [rewrite exec_app, X1, X2; reflexivity|]. split; [exact H2|]. split.
      + intros x I. apply in_app_or in I. destruct I as [I|I]; [destruct (F1 x I) as [I'|[]]; now left|right; now apply F2].
      + rewrite app_length. cbn [length]. lia.
  Qed.
  Definition f_init (m : Fld -> Val) (pc : nat -> Pc) : fstate := mkF m None (fun u => FOut (pc u)).
  Lemma same_init m pc : same (f_init m pc) (mkB m pc).
  Proof. unfold same. cbn. now split. Qed.

  (** at most one thread is inside: no two threads are ever about to use the fields *)
  Definition uses (s : fstate) (t : nat) : option Fld := match f_pc s t with FIn (Rd f _) | FIn (Wr f _ _) => Some f | _ => None end.
  Lemma same_alone f b t u : same f b -> (exists c, f_pc f t = FIn c) -> (exists c, f_pc f u = FIn c) -> t = u.
  Proof.
    intros H (c & P) (d & R). unfold same in H. destruct (f_own f) as [o|].
    - destruct H as (c0 & c1 & ds & _ & _ & _ & _ & Q). assert (t = o /\ u = o) as (-> & ->); [|reflexivity]. split.
      + destruct (Nat.eq_dec t o) as [|N]; [assumption|]. rewrite (Q _ N) in P. discriminate.
      + destruct (Nat.eq_dec u o) as [|N]; [assumption|]. rewrite (Q _ N) in R. discriminate.
    - destruct H as (_ & Q). rewrite Q in P. discriminate.
  Qed.
  Theorem no_data_race m pc ls s es t u f g : exec f_step (f_init m pc) ls = Some (s, es) -> uses s t = Some f -> uses s u = Some g -> t = u.
  Proof.
    intros E A B. destruct (monitor_atomic _ _ _ _ _ (same_init m pc) E) as (ls' & b & _ & H & _).
    apply (same_alone s b t u H); unfold uses in *.
    - destruct (f_pc s t) as [|c]; [discriminate|now exists c].
    - destruct (f_pc s u) as [|c]; [discriminate|now exists c].
  Qed.
  (** when nobody can move outside of sections nobody holds the mutex and the two systems are at the same point *)
  Theorem stuck_same f b : same f b -> (forall t, f_step f (FMove t) = None) ->
    f_own f = None /\ f_fld f = b_fld b /\ forall u, f_pc f u = FOut (b_pc b u).
  Proof.
    intros H M. unfold same in H. destruct (f_own f) as [o|]; [|tauto]. destruct H as (c0 & c1 & ds & _ & P & _ & _ & _).
    specialize (M o). cbn [f_step] in M. rewrite P in M. destruct c1; discriminate.
  Qed.
  Lemma made_le f : made f <= S K.
  Proof. unfold made. destruct (f_own f) as [t|]; [destruct (f_pc f t)|]; lia. Qed.
  Lemma stuck_sections f b : same f b -> (forall t, f_step f (FMove t) = None) -> (forall t, f_step f (FAcq t) = None) ->
    forall t, section (b_pc b t) = None.
  Proof.
    intros H M A t. destruct (stuck_same f b H M) as (O & _ & Q). specialize (A t). cbn [f_step] in A. rewrite Q, O in A.
    destruct (section (b_pc b t)); [discriminate|reflexivity].
  Qed.
End Monitor.
Arguments Rd {Fld Val Cnd Pc Ev}. Arguments Wr {Fld Val Cnd Pc Ev}. Arguments Ntf {Fld Val Cnd Pc Ev}. Arguments Exit {Fld Val Cnd Pc Ev}.
Arguments FOut {Fld Val Cnd Pc Ev}. Arguments FIn {Fld Val Cnd Pc Ev}.
Arguments FAcq {Lab}. Arguments FMove {Lab}. Arguments FOuter {Lab}. Arguments BSec {Lab}. Arguments BOuter {Lab}.
Arguments mkF {Fld Val Cnd Pc Ev}. Arguments f_fld {Fld Val Cnd Pc Ev}. Arguments f_own {Fld Val Cnd Pc Ev}. Arguments f_pc {Fld Val Cnd Pc Ev}.
Arguments mkB {Fld Val Pc}. Arguments b_fld {Fld Val Pc}. Arguments b_pc {Fld Val Pc}.
Arguments f_step {Fld Val Cnd Pc Lab Ev}. Arguments b_step {Fld Val Cnd Pc Lab Ev}. Arguments f_init {Fld Val Cnd Pc Ev}.
Arguments uses {Fld Val Cnd Pc Ev}.
Arguments monitor_atomic {Fld Val Cnd Pc Lab Ev fld_eqb section wake actor peer test outer K}.
Arguments same_init {Fld Val Cnd Pc Ev fld_eqb section wake K}.
Arguments no_data_race {Fld Val Cnd Pc Lab Ev fld_eqb section wake actor peer test outer K}.
Arguments stuck_same {Fld Val Cnd Pc Lab Ev fld_eqb section wake actor peer test outer K}.
Arguments stuck_sections {Fld Val Cnd Pc Lab Ev fld_eqb section wake actor peer test outer K}.
Arguments wakes_none {Fld Val Cnd Pc Lab Ev fld_eqb section wake test outer K}.
Arguments made_le {Fld Val Cnd Pc Ev}.
