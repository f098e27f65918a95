(** Proofs about NoExcModel.v *)
From Verif Require Import Base.ZList Spec.SeqSpec Spec.StopSpec Container.Mem Container.VectorModel Container.VectorTheorems
  Container.DequeModel Container.DequeProofs Container.DequeTheorems Container.ArrayModel Container.NoExcModel Assertion.AssertionModel.

(** ** The two builds side by side *)
Section Sim.
  Context {V : Type}.
  (** an exception of the container becomes the end of the program *)
  Definition tr {A} (r : res V A) : res V A :=
    match r with Thr BadAlloc s | Thr OutOfRange s => AssertFail s | r => r end.
  Definition sim {A} (m1 m2 : M V A) : Prop := forall s, m2 s = tr (m1 s).
  Definition same {A} (m1 m2 : M V A) : Prop := forall s, m2 s = m1 s.

  Lemma sim_bind {A C} (m1 m2 : M V A) (k1 k2 : A -> M V C) :
    sim m1 m2 -> (forall a, sim (k1 a) (k2 a)) -> sim (bind m1 k1) (bind m2 k2).
  Proof.
    intros H K s. unfold bind. rewrite H. destruct (m1 s) as [a s'|[] s'|s'| |]; cbn; try reflexivity. apply K.
  Qed.
  Lemma sim_loop {A} (c1 c2 : A -> M V bool) (b1 b2 : A -> M V A) :
    (forall a, sim (c1 a) (c2 a)) -> (forall a, sim (b1 a) (b2 a)) -> forall f a, sim (loop f c1 b1 a) (loop f c2 b2 a).
  Proof.
    intros Hc Hb. induction f as [|f IH]; intros a; cbn [loop]; apply sim_bind; auto; intros [|]; try (intros s; reflexivity).
    apply sim_bind; auto.
  Qed.
  Lemma sim_ret {A} (a : A) : sim (ret a) (ret a). Proof. intros s. reflexivity. Qed.
  Lemma sim_ub {A} : sim (@ub V A) ub. Proof. intros s. reflexivity. Qed.
  Lemma sim_rd B i : sim (@rd V B i) (rd B i).
  Proof. intros s. unfold rd. destruct (inbuf B i); [destruct (mem s i)|]; reflexivity. Qed.
  Lemma sim_ctor B i v : sim (@ctor V B i v) (ctor B i v).
  Proof. intros s. unfold ctor. destruct (inbuf B i); [destruct (mem s i)|]; try reflexivity. destruct (fuse s) as [[|]|]; reflexivity. Qed.
  Lemma sim_ctor_default B d i : sim (@ctor_default V B d i) (ctor_default B d i). Proof. apply sim_ctor. Qed.
  Lemma sim_asg B t i v : sim (@asg V B t i v) (asg B t i v).
  Proof. intros s. unfold asg. destruct (inbuf B i); [destruct (mem s i)|]; try reflexivity. destruct (fuse s) as [[|]|]; reflexivity. Qed.
  Lemma sim_dtor B i : sim (@dtor V B i) (dtor B i).
  Proof. intros s. unfold dtor. destruct (inbuf B i); [destruct (mem s i)|]; reflexivity. Qed.
  Lemma sim_deref B r : sim (@deref V B r) (deref B r).
  Proof. destruct r; [apply sim_ret|apply sim_rd]. Qed.
  Lemma sim_rdin (xs : list V) i : sim (rdin xs i) (rdin xs i).
  Proof. unfold rdin. destruct (i <? 0); [apply sim_ub|]. destruct (nth_error xs (Z.to_nat i)); [apply sim_ret|apply sim_ub]. Qed.
  Lemma sim_get_mb : sim (@get_mb V) get_mb. Proof. intros s. reflexivity. Qed.
  Lemma sim_get_me : sim (@get_me V) get_me. Proof. intros s. reflexivity. Qed.
  Lemma sim_set_mb x : sim (@set_mb V x) (set_mb x). Proof. intros s. reflexivity. Qed.
  Lemma sim_set_me x : sim (@set_me V x) (set_me x). Proof. intros s. reflexivity. Qed.

  (** the handler never returns *)
  Variable beh : nat -> hbeh.
  Variable h : nat.
  Hypothesis Hh : beh h = HNever.
  Lemma fail_stops (s : st V) : nx_fail beh (Some h) s = AssertFail s.
  Proof. unfold nx_fail, assert_fail. cbn. rewrite Hh. reflexivity. Qed.
  Lemma sim_raise (b : bool) (e : exn) : e <> ElemExn -> sim (if b then throw e else ret tt) (if b then nx_raise beh (Some h) e else ret tt).
  Proof.
    intros He s. destruct b; [|reflexivity]. unfold nx_raise. rewrite fail_stops. destruct e; try reflexivity. congruence.
  Qed.
  Lemma sim_chk dbg b : sim (dassert dbg b) (nx_chk beh (Some h) dbg b).
  Proof.
    intros s. unfold nx_chk, dassert. destruct dbg; [|reflexivity]. destruct b; [reflexivity|]. apply fail_stops.
  Qed.
End Sim.

Global Create HintDb simdb.
Global Hint Resolve sim_ret sim_ub sim_rd sim_ctor sim_ctor_default sim_asg sim_dtor sim_deref sim_rdin sim_get_mb sim_get_me sim_set_mb sim_set_me : simdb.
Ltac simt :=
  repeat match goal with
  | |- sim (if ?b then throw _ else ret tt) (if ?b then _ else ret tt) => apply sim_raise; [assumption|discriminate]
  | |- sim (dassert _ _) (nx_chk _ _ _ _) => apply sim_chk; assumption
  | |- sim (bind _ _) (bind _ _) => apply sim_bind; [|intros ?]
  | |- sim (loop _ _ _ _) (loop _ _ _ _) => apply sim_loop; intros ?
  | |- sim (if ?b then _ else _) (if ?b then _ else _) => destruct b
  | |- sim (let _ := _ in _) _ => cbv zeta
  | |- sim _ _ => solve [eauto 2 with simdb]
  end.

Section SV.
  Context {V : Type}.
  Variable cap : Z.
  Variable torn dflt : V.
  Lemma sim_v_end : sim (@v_end V) v_end. Proof. unfold v_end. simt. Qed.
  Lemma sim_v_empty : sim (@v_empty V) v_empty. Proof. unfold v_empty, v_size. simt. Qed.
  Lemma sim_v_full : sim (@v_full V cap) (v_full cap). Proof. unfold v_full, v_size. simt. Qed.
  Lemma sim_v_avail : sim (@v_available_size V cap) (v_available_size cap). Proof. unfold v_available_size, v_size. simt. Qed.
  Lemma sim_v_inc_end : sim (@v_inc_end V) v_inc_end. Proof. unfold v_inc_end. simt. Qed.
  Lemma sim_v_pos_ok p : sim (@v_pos_ok V p) (v_pos_ok p). Proof. unfold v_pos_ok, v_end. simt. Qed.
  Lemma sim_v_destroy a b : sim (@v_destroy_range V cap a b) (v_destroy_range cap a b). Proof. unfold v_destroy_range. simt. Qed.
  Hint Resolve sim_v_end sim_v_empty sim_v_full sim_v_avail sim_v_inc_end sim_v_pos_ok sim_v_destroy : simdb.
  Lemma sim_v_clear : sim (@v_clear V cap) (v_clear cap). Proof. unfold v_clear. simt. Qed.
  Lemma sim_v_read_all : sim (@v_read_all V cap) (v_read_all cap). Proof. unfold v_read_all. simt. Qed.
  Lemma sim_v_index i : sim (@v_index V cap i) (v_index cap i). Proof. unfold v_index. simt. Qed.
  Lemma sim_v_n_rest p n d : sim (v_insert_n_rest cap torn dflt p n d) (v_insert_n_rest cap torn dflt p n d).
  Proof. unfold v_insert_n_rest. simt. Qed.
  Lemma sim_v_range_rest p n xs : sim (v_insert_range_rest cap torn dflt p n xs) (v_insert_range_rest cap torn dflt p n xs).
  Proof. unfold v_insert_range_rest. simt. Qed.
  Hint Resolve sim_v_clear sim_v_read_all sim_v_index sim_v_n_rest sim_v_range_rest : simdb.

  (** with exceptions: the model of VectorModel.v *)
  Definition throw1 (e : exn) : M V unit := throw e.
  Lemma bind_ext {A C} (m1 m2 : M V A) (k1 k2 : A -> M V C) :
    same m1 m2 -> (forall a, same (k1 a) (k2 a)) -> same (bind m1 k1) (bind m2 k2).
  Proof. intros H K s. unfold bind. rewrite H. destruct (m1 s); try reflexivity. apply K. Qed.
  Lemma loop_ext {A} (c : A -> M V bool) (b1 b2 : A -> M V A) :
    (forall a, same (b1 a) (b2 a)) -> forall f a, same (loop f c b1 a) (loop f c b2 a).
  Proof.
    intros Hb. induction f as [|f IH]; intros a; cbn [loop]; apply bind_ext; try (intros s; reflexivity); intros [|]; try (intros s; reflexivity).
    apply bind_ext; auto.
  Qed.
  Lemma same_refl {A} (m : M V A) : same m m. Proof. intros s. reflexivity. Qed.
  Lemma guard_ext {A} (b : bool) e (m m' : M V A) : same m m' -> same (if b then throw e else m) ((if b then throw1 e else ret tt) ;;; m').
  Proof. intros H. destruct b; intros s; [reflexivity|]. unfold bind, ret. apply H. Qed.
  Ltac samet :=
    repeat match goal with
    | |- same (if ?b then throw ?e else _) (bind (if ?b then throw1 ?e else ret tt) _) => apply guard_ext
    | |- same (bind _ _) (bind _ _) => apply bind_ext; [|intros ?]
    | |- same (loop _ _ _ _) (loop _ _ _ _) => apply loop_ext; intros ?
    | |- same (if ?b then _ else _) (if ?b then _ else _) => destruct b
    | |- same ?m ?m => apply same_refl
    | |- _ => solve [auto 2]
    end.
  Variable dbg : bool.
  Lemma xv_step_exceptions o : same (v_step cap torn dflt dbg o) (xv_step cap torn dflt throw1 (dassert dbg) o).
  Proof.
    assert (Hp : forall d, same (v_push_back cap d) (xv_push_back cap throw1 d)).
    { intros d. unfold v_push_back, xv_push_back. samet. }
    assert (Hr : forall n d, same (v_resize cap n d) (xv_resize cap throw1 n d)).
    { intros n d. unfold v_resize, xv_resize. samet. }
    assert (Hn : forall p n d, same (v_insert_n cap torn dflt p n d) (xv_insert_n cap torn dflt throw1 p n d)).
    { intros p n d. unfold v_insert_n, xv_insert_n. samet. }
    assert (He : forall p q, same (v_erase_range cap torn dbg p q) (xv_erase_range cap torn (dassert dbg) p q)).
    { intros p q. unfold v_erase_range, xv_erase_range. samet. }
    destruct o; cbn [v_step xv_step]; try apply same_refl; apply bind_ext; try (intros; apply same_refl); auto.
    - unfold v_insert_one, xv_insert_one. samet.
    - unfold v_insert_cnt, xv_insert_cnt. samet.
    - unfold v_insert_int, xv_insert_int. samet.
    - unfold v_insert_rng, xv_insert_rng, v_insert_range, xv_insert_range. cbv zeta. samet.
    - unfold v_assign_n, xv_assign_n. samet.
    - unfold v_assign_range, xv_assign_range. cbv zeta. samet.
    - unfold v_at, xv_at. samet.
  Qed.
  Variable beh : nat -> hbeh.
  Variable h : nat.
  Hypothesis Hh : beh h = HNever.
  Notation raise := (nx_raise beh (Some h)).
  Notation chk := (nx_chk beh (Some h) dbg).
  Lemma sim_xv_push d : sim (xv_push_back cap throw1 d) (xv_push_back cap raise d).
  Proof. unfold xv_push_back, throw1. simt. Qed.
  Hint Resolve sim_xv_push : simdb.
  Lemma sim_xv_resize n d : sim (xv_resize cap throw1 n d) (xv_resize cap raise n d).
  Proof. unfold xv_resize, v_size. change (throw1 BadAlloc) with (@throw V unit BadAlloc). simt. Qed.
  Lemma sim_xv_n p n d : sim (xv_insert_n cap torn dflt throw1 p n d) (xv_insert_n cap torn dflt raise p n d).
  Proof. unfold xv_insert_n, throw1. simt. Qed.
  Lemma sim_xv_erase p q : sim (xv_erase_range cap torn (dassert dbg) p q) (xv_erase_range cap torn chk p q).
  Proof. unfold xv_erase_range. simt. Qed.
  Hint Resolve sim_xv_resize sim_xv_n sim_xv_erase : simdb.
  Lemma sim_xv_step o : sim (xv_step cap torn dflt throw1 (dassert dbg) o) (xv_step cap torn dflt raise chk o).
  Proof.
    destruct o; cbn [xv_step]; unfold xv_pop_back, xv_front, xv_back, xv_at, xv_insert_one, xv_insert_cnt, xv_insert_int, xv_insert_rng,
      xv_insert_range, xv_erase_one, xv_assign_n, xv_assign_range, v_size;
      change (throw1 BadAlloc) with (@throw V unit BadAlloc); change (throw1 OutOfRange) with (@throw V unit OutOfRange); simt.
  Qed.
  Lemma v_step_nx_is o s : v_step_nx beh (Some h) cap torn dflt dbg o s = tr (v_step cap torn dflt dbg o s).
  Proof. unfold v_step_nx. rewrite sim_xv_step, xv_step_exceptions. reflexivity. Qed.
End SV.

Section SD.
  Context {V : Type}.
  Variable cap B : Z.
  Variable torn dflt : V.
  Variable dbg : bool.
  Lemma sim_d_begin : sim (@d_begin V) d_begin. Proof. unfold d_begin. simt. Qed.
  Lemma sim_d_end : sim (@d_end V) d_end. Proof. unfold d_end. simt. Qed.
  Lemma sim_d_size : sim (@d_size V B) (d_size B). Proof. unfold d_size. simt. Qed.
  Lemma sim_d_empty : sim (@d_empty V) d_empty. Proof. unfold d_empty. simt. Qed.
  Hint Resolve sim_d_begin sim_d_end sim_d_size sim_d_empty : simdb.
  Lemma sim_d_full : sim (@d_full V cap B) (d_full cap B). Proof. unfold d_full. simt. Qed.
  Lemma sim_d_avail : sim (@d_available_size V cap B) (d_available_size cap B). Proof. unfold d_available_size. simt. Qed.
  Lemma sim_d_inc_end : sim (@d_inc_end V B) (d_inc_end B). Proof. unfold d_inc_end. simt. Qed.
  Lemma sim_d_dec_begin : sim (@d_dec_begin V B) (d_dec_begin B). Proof. unfold d_dec_begin. simt. Qed.
  Lemma sim_d_pos_ok p : sim (@d_pos_ok V B p) (d_pos_ok B p). Proof. unfold d_pos_ok. simt. Qed.
  Lemma sim_d_at_off p : sim (@d_at_off V B p) (d_at_off B p). Proof. unfold d_at_off. simt. Qed.
  Lemma sim_d_off p : sim (@d_off V B p) (d_off B p). Proof. unfold d_off. simt. Qed.
  Lemma sim_d_destroy a b : sim (@d_destroy_range V B a b) (d_destroy_range B a b). Proof. unfold d_destroy_range. simt. Qed.
  Hint Resolve sim_d_full sim_d_avail sim_d_inc_end sim_d_dec_begin sim_d_pos_ok sim_d_at_off sim_d_off sim_d_destroy : simdb.
  Lemma sim_d_clear : sim (@d_clear V B) (d_clear B). Proof. unfold d_clear. simt. Qed.
  Lemma sim_d_read_all : sim (@d_read_all V B) (d_read_all B). Proof. unfold d_read_all. simt. Qed.
  Lemma sim_d_index i : sim (@d_index V B i) (d_index B i). Proof. unfold d_index. simt. Qed.
  Lemma sim_d_n_rest p n d : sim (d_insert_n_rest B torn dflt p n d) (d_insert_n_rest B torn dflt p n d).
  Proof. unfold d_insert_n_rest. simt. Qed.
  Lemma sim_d_range_rest p n xs : sim (d_insert_range_rest B torn dflt p n xs) (d_insert_range_rest B torn dflt p n xs).
  Proof. unfold d_insert_range_rest. simt. Qed.
  Hint Resolve sim_d_clear sim_d_read_all sim_d_index sim_d_n_rest sim_d_range_rest : simdb.
  Ltac samet :=
    repeat match goal with
    | |- same (if ?b then throw ?e else _) (bind (if ?b then throw1 ?e else ret tt) _) => apply guard_ext
    | |- same (bind _ _) (bind _ _) => apply bind_ext; [|intros ?]
    | |- same (loop _ _ _ _) (loop _ _ _ _) => apply loop_ext; intros ?
    | |- same (if ?b then _ else _) (if ?b then _ else _) => destruct b
    | |- same ?m ?m => apply same_refl
    | |- _ => solve [auto 2]
    end.
  Lemma xd_step_exceptions o : same (d_step cap B torn dflt dbg o) (xd_step cap B torn dflt throw1 (dassert dbg) o).
  Proof.
    assert (Hp : forall d : ref V, same (d_push_back cap B d) (xd_push_back cap B throw1 d)).
    { intros d. unfold d_push_back, xd_push_back. samet. }
    assert (Hf : forall d : ref V, same (d_push_front cap B d) (xd_push_front cap B throw1 d)).
    { intros d. unfold d_push_front, xd_push_front. samet. }
    assert (Hr : forall n (d : ref V), same (d_resize cap B n d) (xd_resize cap B throw1 n d)).
    { intros n d. unfold d_resize, xd_resize. samet. }
    assert (Hn : forall p n d, same (d_insert_n cap B torn dflt p n d) (xd_insert_n cap B torn dflt throw1 p n d)).
    { intros p n d. unfold d_insert_n, xd_insert_n. samet. }
    destruct o; cbn [d_step xd_step]; unfold d_insert_one, xd_insert_one, d_insert_cnt, xd_insert_cnt, d_insert_int, xd_insert_int,
      d_insert_rng, xd_insert_rng, d_insert_range, xd_insert_range, d_assign_n, xd_assign_n, d_assign_range, xd_assign_range, d_at, xd_at;
      cbv zeta; samet; try apply same_refl.
  Qed.
  Variable beh : nat -> hbeh.
  Variable h : nat.
  Hypothesis Hh : beh h = HNever.
  Notation raise := (nx_raise beh (Some h)).
  Notation chk := (nx_chk beh (Some h) dbg).
  Lemma sim_xd_push (d : ref V) : sim (xd_push_back cap B throw1 d) (xd_push_back cap B raise d).
  Proof. unfold xd_push_back, throw1. simt. Qed.
  Hint Resolve sim_xd_push : simdb.
  Lemma sim_xd_resize n (d : ref V) : sim (xd_resize cap B throw1 n d) (xd_resize cap B raise n d).
  Proof. unfold xd_resize. change (throw1 BadAlloc) with (@throw V unit BadAlloc). simt. Qed.
  Lemma sim_xd_n p n d : sim (xd_insert_n cap B torn dflt throw1 p n d) (xd_insert_n cap B torn dflt raise p n d).
  Proof. unfold xd_insert_n, throw1. simt. Qed.
  Lemma sim_xd_erase p q : sim (xd_erase_range B torn (dassert dbg) p q) (xd_erase_range B torn chk p q).
  Proof. unfold xd_erase_range. simt. Qed.
  Hint Resolve sim_xd_resize sim_xd_n sim_xd_erase : simdb.
  Lemma sim_xd_step o : sim (xd_step cap B torn dflt throw1 (dassert dbg) o) (xd_step cap B torn dflt raise chk o).
  Proof.
    destruct o; cbn [xd_step]; unfold xd_push_front, xd_pop_back, xd_pop_front, xd_front, xd_back, xd_at, xd_insert_one, xd_insert_cnt,
      xd_insert_int, xd_insert_rng, xd_insert_range, xd_erase_one, xd_assign_n, xd_assign_range;
      change (throw1 BadAlloc) with (@throw V unit BadAlloc); change (throw1 OutOfRange) with (@throw V unit OutOfRange); simt.
  Qed.
End SD.
Lemma d_step_nx_is {V} cap (torn dflt : V) dbg beh h : beh h = HNever ->
  forall o s, d_step_nx beh (Some h) cap torn dflt dbg o s = tr (d_step cap (cap + 1) torn dflt dbg o s).
Proof. intros Hh o s. unfold d_step_nx. rewrite sim_xd_step, xd_step_exceptions by assumption. reflexivity. Qed.

(** ** Histories *)
Section Hist.
  Context {V : Type}.
  Variable dflt : V.
  Variable cap : Z.
  Variable dbg deque : bool.
  Variable step step_nx : op V -> M V (out V).
  Variable holds : st V -> list V -> Prop.
  Hypothesis Hstep : forall s l o, holds s l -> fuse s = None -> seq_pre dbg deque l o ->
    exists s', holds s' (snd (seq_step dflt cap l o)) /\ fuse s' = None /\
      match fst (seq_step dflt cap l o) with OExn e => step o s = Thr e s' | r => step o s = Ok r s' end.
  Hypothesis Hnx : forall o s, step_nx o s = tr (step o s).
  Lemma exn_kind l o e l' : seq_step dflt cap l o = (OExn e, l') -> e <> ElemExn /\ l' = l.
  Proof.
    destruct o; cbn [seq_step]; repeat match goal with |- context [if ?b then _ else _] => destruct b end; intros E; try discriminate;
      injection E as <- <-; (split; [discriminate|reflexivity]).
  Qed.
  Lemma nx_history os : forall s l, holds s l -> fuse s = None -> stop_pres dflt cap dbg deque l os ->
    exists s', nx_run step_nx s os = Some (fst (fst (stop_run dflt cap l os)), s', snd (stop_run dflt cap l os)) /\
      holds s' (snd (fst (stop_run dflt cap l os))).
  Proof.
    induction os as [|o os IH]; intros s l Hs Hf Hp; cbn [stop_pres nx_run stop_run] in *.
    - exists s. cbn. auto.
    - destruct Hp as [Hp Hr]. destruct (Hstep s l o Hs Hf Hp) as (s1 & H1 & Hf1 & E).
      rewrite Hnx. destruct (seq_step dflt cap l o) as [r l'] eqn:Es. cbn [fst snd] in E, H1.
      destruct r;
        try (rewrite E; cbn [tr]; destruct (IH s1 l' H1 Hf1 Hr) as (s2 & R & H2); exists s2;
             destruct (stop_run dflt cap l' os) as [[rs l''] bb]; cbn [fst snd] in *; rewrite R; split; [reflexivity|exact H2]).
      destruct (exn_kind _ _ _ _ Es) as [Hk ->]. rewrite E. exists s1. destruct e; try congruence; cbn; auto.
  Qed.
End Hist.
Lemma v_nx_history {V} cap (torn dflt : V) dbg beh h os :
  0 <= cap < 2 ^ 63 -> beh h = HNever -> stop_pres dflt cap dbg false [] os ->
  exists s, nx_run (v_step_nx beh (Some h) cap torn dflt dbg) v_init os =
              Some (fst (fst (stop_run dflt cap [] os)), s, snd (stop_run dflt cap [] os)) /\
            v_holds cap s (snd (fst (stop_run dflt cap [] os))).
Proof.
  intros Hc Hh Hp. apply (nx_history dflt cap dbg false (v_step cap torn dflt dbg)); auto.
  - intros s l o. apply (v_step_exact cap torn dflt dbg Hc).
  - intros o s. apply v_step_nx_is. exact Hh.
  - apply v_init_holds. lia.
Qed.
Lemma d_nx_history {V} cap (torn dflt : V) dbg beh h os :
  0 <= cap /\ cap + 1 < 2 ^ 63 -> beh h = HNever -> stop_pres dflt cap dbg true [] os ->
  exists s, nx_run (d_step_nx beh (Some h) cap torn dflt dbg) d_init os =
              Some (fst (fst (stop_run dflt cap [] os)), s, snd (stop_run dflt cap [] os)) /\
            d_holds cap s (snd (fst (stop_run dflt cap [] os))).
Proof.
  intros Hc Hh Hp. apply (nx_history dflt cap dbg true (d_step cap (cap + 1) torn dflt dbg)); auto.
  - intros s l o. apply (d_step_exact cap torn dflt dbg Hc).
  - intros o s. apply d_step_nx_is. exact Hh.
  - apply d_init_holds. lia.
Qed.
(** misuse in debug builds *)
Lemma v_nx_debug {V} cap (torn dflt : V) beh h s l o :
  0 <= cap < 2 ^ 63 -> beh h = HNever -> v_holds cap s l -> fuse s = None -> v_typed o ->
  match v_step_nx beh (Some h) cap torn dflt true o s with
  | Ok r s' => seq_pre true false l o /\ r = fst (seq_step dflt cap l o) /\ v_holds cap s' (snd (seq_step dflt cap l o))
  | AssertFail s' => (~ seq_pre true false l o \/ exists e, fst (seq_step dflt cap l o) = OExn e) /\ v_holds cap s' l
  | _ => False
  end.
Proof.
  intros Hc Hh Hs Hf Ht. rewrite v_step_nx_is by exact Hh.
  assert (Ha : arm None s = s) by (destruct s; cbn in *; subst; reflexivity).
  pose proof (v_debug_safe cap torn dflt Hc None s l o Hs Ht) as D. rewrite Ha in D.
  destruct (v_step cap torn dflt true o s) as [r s'|e s'|s'| |] eqn:E; cbn [tr]; try contradiction.
  - exact D.
  - destruct e; cbn [tr].
    + destruct D as (_ & D1 & D2). eauto.
    + destruct D as (_ & D1 & D2). eauto.
    + destruct D as (D1 & _). destruct (v_step_exact cap torn dflt true Hc s l o Hs Hf D1) as (s1 & _ & _ & E1).
      destruct (seq_step dflt cap l o) as [r l'] eqn:Es. cbn [fst] in E1. rewrite E in E1.
      destruct r; try discriminate. injection E1 as <- _. destruct (exn_kind dflt cap l o _ _ Es) as [K _]. congruence.
  - destruct D as (D1 & ->). auto.
Qed.
Lemma d_nx_debug {V} cap (torn dflt : V) beh h s l o :
  0 <= cap /\ cap + 1 < 2 ^ 63 -> beh h = HNever -> d_holds cap s l -> fuse s = None -> d_typed cap o ->
  match d_step_nx beh (Some h) cap torn dflt true o s with
  | Ok r s' => seq_pre true true l o /\ r = fst (seq_step dflt cap l o) /\ d_holds cap s' (snd (seq_step dflt cap l o))
  | AssertFail s' => (~ seq_pre true true l o \/ exists e, fst (seq_step dflt cap l o) = OExn e) /\ d_holds cap s' l
  | _ => False
  end.
Proof.
  intros Hc Hh Hs Hf Ht. rewrite d_step_nx_is by exact Hh.
  assert (Ha : arm None s = s) by (destruct s; cbn in *; subst; reflexivity).
  pose proof (d_debug_safe cap torn dflt Hc None s l o Hs Ht) as D. rewrite Ha in D.
  destruct (d_step cap (cap + 1) torn dflt true o s) as [r s'|e s'|s'| |] eqn:E; cbn [tr]; try contradiction.
  - exact D.
  - destruct e; cbn [tr].
    + destruct D as (_ & D1 & D2). eauto.
    + destruct D as (_ & D1 & D2). eauto.
    + destruct D as (D1 & _). destruct (d_step_exact cap torn dflt true Hc s l o Hs Hf D1) as (s1 & _ & _ & E1).
      destruct (seq_step dflt cap l o) as [r l'] eqn:Es. cbn [fst] in E1. rewrite E in E1.
      destruct r; try discriminate. injection E1 as <- _. destruct (exn_kind dflt cap l o _ _ Es) as [K _]. congruence.
  - destruct D as (D1 & ->). auto.
Qed.

(** ** A handler that returns, or none *)
Definition goes_on (beh : nat -> hbeh) (handler : option nat) : Prop :=
  match handler with None => True | Some h => beh h = HReturns end.
Lemma fail_goes_on {V} beh handler (s : st V) : goes_on beh handler -> nx_fail beh handler s = Ok tt s.
Proof. unfold goes_on, nx_fail, assert_fail. destruct handler as [h|]; cbn; [intros ->|]; reflexivity. Qed.
Lemma v_nx_push_full {V} beh handler cap (torn dflt : V) dbg s l v :
  goes_on beh handler -> v_holds cap s l -> lenz l = cap -> v_step_nx beh handler cap torn dflt dbg (PushBack v) s = UB.
Proof.
  intros G (H1 & H2 & H3 & H4) Hl. unfold v_step_nx. cbn [xv_step]. unfold xv_push_back, v_full, v_size, v_end, v_begin, bind, get_me, ret, nx_raise, deref.
  rewrite H3, Hl, Z.eqb_refl, (fail_goes_on beh handler s G). rewrite H3, Hl. unfold ctor, inbuf.
  replace (0 + cap <? cap) with false by (symmetry; apply Z.ltb_ge; lia). rewrite andb_false_r. reflexivity.
Qed.
Lemma v_nx_at {V} beh handler cap (torn dflt : V) dbg s l i :
  goes_on beh handler -> v_holds cap s l -> lenz l <= i -> v_step_nx beh handler cap torn dflt dbg (At i) s = UB.
Proof.
  intros G (H1 & H2 & H3 & H4) Hl. unfold v_step_nx. cbn [xv_step]. unfold xv_at, v_size, v_begin, bind, get_me, ret, nx_raise.
  rewrite H3. replace (lenz l <=? i) with true by (symmetry; apply Z.leb_le; lia). rewrite (fail_goes_on beh handler s G).
  unfold rd, inbuf. rewrite Z.add_0_l. destruct (0 <=? i) eqn:E0; [|reflexivity]. destruct (i <? cap) eqn:E1; [|reflexivity].
  apply Z.ltb_lt in E1. apply Z.leb_le in E0. cbn [andb]. rewrite H4 by lia.
  replace (nth_error l (Z.to_nat i)) with (@None V); [reflexivity|]. symmetry. apply nth_error_None. unfold lenz in Hl. lia.
Qed.
Lemma d_nx_push_full {V} beh handler cap (torn dflt : V) dbg (front : bool) s l v :
  0 <= cap /\ cap + 1 < 2 ^ 63 -> goes_on beh handler -> d_holds cap s l -> fuse s = None -> lenz l = cap ->
  exists s', d_step_nx beh handler cap torn dflt dbg (if front then PushFront v else PushBack v) s = Ok OUnit s' /\
    d_size (cap + 1) s' = Ok 0 s' /\ forall i, 0 <= i <= cap -> mem s' i <> None.
Proof.
  intros Hc G Hs Hf Hl. pose proof (d_size_exact cap dflt Hc s l Hs) as Sz. destruct Hs as (H1 & H2 & H3 & H4).
  assert (HB : 1 <= cap + 1 < 2 ^ 63) by lia.
  assert (Hmb : mb s = dph (cap + 1) (mb s)) by (unfold dph; rewrite Z.mod_small; lia).
  assert (Hme : me s = dph (cap + 1) (mb s + cap)) by (rewrite H3, Hl; reflexivity).
  assert (Hraw : mem s (me s) = None).
  { rewrite H3, Hl, H4 by lia. apply nth_error_None. unfold lenz in Hl. lia. }
  assert (Hin : inbuf (cap + 1) (me s) = true).
  { pose proof (dph_range (cap + 1) HB (mb s + cap)). unfold inbuf. rewrite Hme. apply andb_true_iff; split; [apply Z.leb_le|apply Z.ltb_lt]; lia. }
  assert (Hall : forall m i, m = upd (mem s) (me s) (Some v) -> 0 <= i <= cap -> m i <> None).
  { intros m i -> Hi. unfold upd. destruct (i =? me s) eqn:E; [discriminate|]. apply Z.eqb_neq in E.
    assert (K : exists k, 0 <= k <= cap /\ i = (mb s + k) mod (cap + 1)).
    { exists ((i - mb s) mod (cap + 1)). pose proof (Z.mod_pos_bound (i - mb s) (cap + 1) ltac:(lia)). split; [lia|].
      rewrite Zplus_mod_idemp_r. replace (mb s + (i - mb s)) with i by lia. symmetry. apply Z.mod_small. lia. }
    destruct K as (k & K1 & K2). rewrite K2, H4 by lia. destruct (Z.eq_dec k cap) as [->|].
    - exfalso. apply E. rewrite K2, H3, Hl. reflexivity.
    - apply nth_error_Some. unfold lenz in Hl. lia. }
  assert (Full : d_full cap (cap + 1) s = Ok true s).
  { unfold d_full, bind. rewrite Sz. unfold ret. rewrite Hl, Z.eqb_refl. reflexivity. }
  destruct front.
  - assert (Hp : it_sub (cap + 1) (mb s) (s64 1) = me s).
    { change (s64 1) with 1. unfold it_sub. cbn [Z.ltb Z.compare]. rewrite Hmb at 1. rewrite (prev_ok (cap + 1) HB) by lia. rewrite Hme.
      unfold dph. replace (mb s + cap) with (mb s - 1 + 1 * (cap + 1)) by lia. rewrite Z.mod_add by lia. reflexivity. }
    exists (mkst (upd (mem s) (me s) (Some v)) (me s) (me s) None). split; [|split; [|cbn [mem]; eauto]].
    + unfold d_step_nx. cbn [xd_step]. unfold xd_push_front, d_begin, d_dec_begin, deref, nx_raise. unfold bind at 1 2.
      rewrite Full. unfold bind. rewrite (fail_goes_on beh handler s G). unfold get_mb, set_mb, ret. rewrite Hp. unfold ctor.
      rewrite Hin, Hraw, Hf. cbn [mem mb me fuse].
      change (it_sub (cap + 1) (mb s) (s64 1)) with (prev_idx (cap + 1) (mb s) 1) in Hp. rewrite Hp. reflexivity.
    + unfold d_size, bind, get_mb, get_me, ret. cbn [mb me]. unfold distance_idx. rewrite Z.leb_refl, Z.sub_diag. reflexivity.
  - assert (Hn : next_idx (cap + 1) (me s) 1 = mb s).
    { rewrite Hme, (next_ok (cap + 1) HB) by lia. unfold dph. replace (mb s + cap + 1) with (mb s + 1 * (cap + 1)) by lia.
      rewrite Z.mod_add by lia. apply Z.mod_small. lia. }
    exists (mkst (upd (mem s) (me s) (Some v)) (mb s) (mb s) None). split; [|split; [|cbn [mem]; eauto]].
    + unfold d_step_nx. cbn [xd_step]. unfold xd_push_back, d_end, d_inc_end, deref, nx_raise. unfold bind at 1 2.
      rewrite Full. unfold bind. rewrite (fail_goes_on beh handler s G). unfold get_me, set_me, ret. unfold ctor.
      rewrite Hin, Hraw, Hf. cbn [mem mb me fuse]. rewrite Hn. reflexivity.
    + unfold d_size, bind, get_mb, get_me, ret. cbn [mb me]. unfold distance_idx. rewrite Z.leb_refl, Z.sub_diag. reflexivity.
Qed.
Lemma arr_nx_at {V} beh handler Size (m : list V) idx d :
  Z.of_nat (length m) = Size -> 0 <= idx ->
  arr_at_nx beh handler Size m idx =
    if idx <? Size then Some (ArrOk (nth (Z.to_nat idx) m d))
    else match handler with
         | Some h => match beh h with HReturns => Some ArrUB | _ => None end
         | None => Some ArrUB
         end.
Proof.
  intros Hm Hi. unfold arr_at_nx, arr_index, a_load, arr_begin. rewrite Z.add_0_l.
  replace (idx <? 0) with false by (symmetry; apply Z.ltb_ge; lia).
  destruct (Z.leb_spec Size idx); destruct (Z.ltb_spec idx Size); try lia.
  - replace (nth_error m (Z.to_nat idx)) with (@None V) by (symmetry; apply nth_error_None; lia).
    unfold assert_fail. destruct handler as [h|]; cbn; [destruct (beh h)|]; reflexivity.
  - rewrite (nth_error_nth' m d) by lia. reflexivity.
Qed.
