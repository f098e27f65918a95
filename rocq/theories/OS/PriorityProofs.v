(** Proofs about priorities. *)
From Coq Require Import List ZArith Bool Lia.
Import ListNotations.
From Verif Require Import Spec.PrioritySpec OS.PriorityModel.
Open Scope Z_scope.

Lemma in_intb_iff x : in_intb x = true <-> in_int x.
Proof. unfold in_intb, in_int. rewrite andb_true_iff, Z.leb_le, Z.ltb_lt. tauto. Qed.
Lemma min_ok lo hi : min_priority lo hi = Z.min lo hi.
Proof. unfold min_priority. destruct (Z.ltb_spec lo hi); lia. Qed.
Lemma max_ok lo hi : max_priority lo hi = Z.max lo hi.
Proof. unfold max_priority. destruct (Z.ltb_spec lo hi); lia. Qed.

Lemma quot2 x : 2 * Z.quot x 2 = x \/ (0 <= x /\ 2 * Z.quot x 2 = x - 1) \/ (x < 0 /\ 2 * Z.quot x 2 = x + 1).
Proof. Z.to_euclidean_division_equations. lia. Qed.

Theorem higher_than_ok lo hi base d :
  in_int (if lo <? hi then base + d else base - d) ->
  exists p, priority_higher_than lo hi base d = Some p /\ valid lo hi p /\
            rank lo hi p = clamp 0 (rank lo hi hi) (rank lo hi base + d).
Proof.
  intros H. unfold priority_higher_than, iadd, isub, valid, rank, clamp. rewrite min_ok, max_ok. destruct (Z.ltb_spec lo hi).
  - rewrite (proj2 (in_intb_iff _) H). destruct (Z.leb_spec (base + d) (Z.min lo hi)); [eexists; split; [reflexivity|]; lia|].
    destruct (Z.geb_spec (base + d) (Z.max lo hi)); (eexists; split; [reflexivity|]; lia).
  - rewrite (proj2 (in_intb_iff _) H). destruct (Z.leb_spec (base - d) (Z.min lo hi)); [eexists; split; [reflexivity|]; lia|].
    destruct (Z.geb_spec (base - d) (Z.max lo hi)); (eexists; split; [reflexivity|]; lia).
Qed.
Theorem higher_than_zero lo hi base : in_int base -> valid lo hi base -> priority_higher_than lo hi base 0 = Some base.
Proof.
  intros I V. destruct (higher_than_ok lo hi base 0) as (p & -> & V' & R).
  - destruct (lo <? hi); now rewrite ?Z.add_0_r, ?Z.sub_0_r.
  - f_equal. unfold valid, rank, clamp in *. destruct (Z.ltb_spec lo hi); lia.
Qed.
Theorem higher_than_overflow : ~ (forall lo hi base d, in_int lo -> in_int hi -> valid lo hi base -> in_int d -> priority_higher_than lo hi base d <> None).
Proof. intros H. apply (H 1 9 9 2147483647); unfold in_int, valid; cbn; try lia. reflexivity. Qed.
Theorem normal_ok lo hi : in_int (lo + hi) ->
  exists p, normal_priority lo hi = Some p /\ valid lo hi p /\ (Z.abs (hi - lo) >= 2 -> Z.min lo hi < p < Z.max lo hi).
Proof.
  intros H. unfold normal_priority, iadd, valid. rewrite min_ok, max_ok.
  replace (Z.min lo hi + Z.max lo hi) with (lo + hi) by lia. rewrite (proj2 (in_intb_iff _) H). eexists. split; [reflexivity|].
  pose proof (quot2 (lo + hi)) as Q. set (mid := Z.quot (lo + hi) 2) in *. lia.
Qed.
Theorem normal_not_strict : ~ (forall lo hi p, in_int (lo + hi) -> normal_priority lo hi = Some p -> Z.min lo hi < p < Z.max lo hi).
Proof. intros H. assert (X : 0 < 0 < 0); [|lia]. apply (H 0 0 0); [unfold in_int; lia|reflexivity]. Qed.

Lemma lookup_insert m k v j : lookup (insert m k v) j = match lookup m j with Some w => Some w | None => if k =? j then Some v else None end.
Proof.
  unfold insert. destruct (lookup m k) eqn:E.
  - destruct (Z.eqb_spec k j) as [->|]; [now rewrite E|]. now destruct (lookup m j).
  - cbn. destruct (Z.eqb_spec k j) as [->|]; [now rewrite E|]. now destruct (lookup m j).
Qed.
Lemma iter_succ_r {A} (f : A -> A) n x : Nat.iter (S n) f x = Nat.iter n f (f x).
Proof. induction n; [reflexivity|]. cbn in *. now rewrite IHn. Qed.
Lemma iter_S {A} (f : A -> A) n x : Nat.iter (S n) f x = f (Nat.iter n f x).
Proof. reflexivity. Qed.
Lemma lookup_up val next j : forall n i x m,
  lookup (up n i x val next m) j =
  match lookup m j with Some w => Some w | None => if (i <=? j) && (j <? i + Z.of_nat n) then Some (val (Nat.iter (Z.to_nat (j - i)) next x)) else None end.
Proof.
  induction n as [|n IH]; intros i x m; cbn [up].
  - destruct (lookup m j); [reflexivity|]. destruct (Z.leb_spec i j), (Z.ltb_spec j (i + Z.of_nat 0)); cbn; try reflexivity; lia.
  - rewrite IH, lookup_insert. destruct (lookup m j); [reflexivity|]. destruct (Z.eqb_spec i j) as [->|N].
    + rewrite Z.leb_refl. destruct (Z.ltb_spec j (j + Z.of_nat (S n))); [|lia]. cbn [andb]. now rewrite Z.sub_diag.
    + destruct (Z.leb_spec (i + 1) j), (Z.leb_spec i j); try lia; cbn [andb]; [|reflexivity].
      replace (i + Z.of_nat (S n)) with (i + 1 + Z.of_nat n) by lia. destruct (j <? i + 1 + Z.of_nat n); [|reflexivity]. do 2 f_equal.
      replace (Z.to_nat (j - i)) with (S (Z.to_nat (j - (i + 1)))) by lia. symmetry. apply iter_succ_r.
Qed.
Lemma lookup_down val next j : forall n i x m,
  lookup (down n i x val next m) j =
  match lookup m j with Some w => Some w | None => if (j <=? i) && (i - Z.of_nat n <? j) then Some (val (Nat.iter (Z.to_nat (i - j)) next x)) else None end.
Proof.
  induction n as [|n IH]; intros i x m; cbn [down].
  - destruct (lookup m j); [reflexivity|]. destruct (Z.leb_spec j i), (Z.ltb_spec (i - Z.of_nat 0) j); cbn; try reflexivity; lia.
  - rewrite IH, lookup_insert. destruct (lookup m j); [reflexivity|]. destruct (Z.eqb_spec i j) as [->|N].
    + rewrite Z.leb_refl. destruct (Z.ltb_spec (j - Z.of_nat (S n)) j); [|lia]. cbn [andb]. now rewrite Z.sub_diag.
    + destruct (Z.leb_spec j (i - 1)), (Z.leb_spec j i); try lia; cbn [andb]; [|reflexivity].
      replace (i - Z.of_nat (S n)) with (i - 1 - Z.of_nat n) by lia. destruct (i - 1 - Z.of_nat n <? j); [|reflexivity]. do 2 f_equal.
      replace (Z.to_nat (i - j)) with (S (Z.to_nat (i - 1 - j))) by lia. symmetry. apply iter_succ_r.
Qed.
Lemma iter_keep k x : Nat.iter k keep x = x.
Proof. induction k; cbn; [reflexivity|exact IHk]. Qed.
Lemma iter_bump pmax k x : x <= pmax -> Nat.iter k (fun p => if p <? pmax then p + 1 else p) x = Z.min pmax (x + Z.of_nat k).
Proof.
  intros H. induction k as [|k IH]; [cbn; lia|]. rewrite iter_S, IH. destruct (Z.ltb_spec (Z.min pmax (x + Z.of_nat k)) pmax); lia.
Qed.
Lemma iter_more k x : x <= 2 -> Nat.iter k (fun d => if NORMAL + d <? HIGHEST then d + 1 else d) x = Z.min 2 (x + Z.of_nat k).
Proof.
  intros H. induction k as [|k IH]; [cbn; lia|]. rewrite iter_S, IH. unfold NORMAL, HIGHEST. destruct (Z.ltb_spec (0 + Z.min 2 (x + Z.of_nat k)) 2); lia.
Qed.
Lemma iter_less k x : x <= 2 -> Nat.iter k (fun d => if NORMAL - d >? LOWEST then d + 1 else d) x = Z.min 2 (x + Z.of_nat k).
Proof.
  intros H. induction k as [|k IH]; [cbn; lia|]. rewrite iter_S, IH. unfold NORMAL, LOWEST. rewrite Z.gtb_ltb. destruct (Z.ltb_spec (-2) (0 - Z.min 2 (x + Z.of_nat k))); lia.
Qed.

(** the native priority of each priority *)
Definition posix_native (dflt pmin pmax lo hi p : Z) : Z :=
  let mid := Z.quot (lo + hi) 2 in
  if lo <? hi then (if mid <? p then Z.min pmax (pmin + (p - mid - 1)) else dflt) else (if p <? mid then Z.min pmax (pmin + (mid - 1 - p)) else dflt).
Lemma posix_lookup dflt pmin pmax lo hi p : pmin <= pmax -> valid lo hi p -> lookup (posix_table dflt pmin pmax lo hi) p = Some (posix_native dflt pmin pmax lo hi p).
Proof.
  intros PP V. unfold valid, posix_table, posix_native in *. pose proof (quot2 (lo + hi)) as Q. set (mid := Z.quot (lo + hi) 2) in *. unfold count.
  destruct (Z.ltb_spec lo hi) as [L|L].
  - rewrite lookup_down, lookup_up. cbn [lookup]. destruct (Z.ltb_spec mid p) as [M|M].
    + destruct (Z.leb_spec (mid + 1) p), (Z.ltb_spec p (mid + 1 + Z.of_nat (Z.to_nat (hi - mid)))); try lia. cbn [andb]. unfold keep at 1. rewrite iter_bump by exact PP. f_equal. lia.
    + destruct (Z.leb_spec (mid + 1) p); [lia|]. cbn [andb]. destruct (Z.leb_spec p mid), (Z.ltb_spec (mid - Z.of_nat (Z.to_nat (mid - lo + 1))) p); try lia. cbn [andb]. unfold keep at 1. now rewrite iter_keep.
  - rewrite lookup_down, lookup_up. cbn [lookup]. destruct (Z.ltb_spec p mid) as [M|M].
    + destruct (Z.leb_spec mid p); [lia|]. cbn [andb]. destruct (Z.leb_spec p (mid - 1)), (Z.ltb_spec (mid - 1 - Z.of_nat (Z.to_nat (mid - hi))) p); try lia. cbn [andb]. unfold keep at 1. rewrite iter_bump by exact PP. f_equal. lia.
    + destruct (Z.leb_spec mid p), (Z.ltb_spec p (mid + Z.of_nat (Z.to_nat (lo - mid + 1)))); try lia. cbn [andb]. unfold keep at 1. now rewrite iter_keep.
Qed.
Definition win_native (lo hi p : Z) : Z :=
  let mid := Z.quot (lo + hi) 2 in
  if p =? hi then 15 else if p =? lo then -15 else if lo <? hi then clamp (-2) 2 (p - mid) else clamp (-2) 2 (mid - p).
Lemma win_lookup lo hi p : valid lo hi p -> lookup (windows_table lo hi) p = Some (win_native lo hi p).
Proof.
  intros V. unfold valid, windows_table, win_native, clamp in *. pose proof (quot2 (lo + hi)) as Q. set (mid := Z.quot (lo + hi) 2) in *. unfold count.
  assert (B : lookup (insert (insert [] hi TIME_CRITICAL) lo IDLE) p = if p =? hi then Some 15 else if p =? lo then Some (-15) else None).
  { rewrite !lookup_insert. cbn [lookup]. rewrite (Z.eqb_sym hi p), (Z.eqb_sym lo p). destruct (p =? hi), (p =? lo); reflexivity. }
  destruct (Z.ltb_spec lo hi) as [L|L]; rewrite lookup_down, lookup_up, B;
    (destruct (Z.eqb_spec p hi) as [|N1]; [reflexivity|]; destruct (Z.eqb_spec p lo) as [|N2]; [reflexivity|]).
  - destruct (Z.leb_spec mid p) as [M|M].
    + destruct (Z.ltb_spec p (mid + Z.of_nat (Z.to_nat (hi - mid)))); [|lia]. cbn [andb]. rewrite iter_more by lia. unfold NORMAL. f_equal. lia.
    + cbn [andb]. destruct (Z.leb_spec p (mid - 1)), (Z.ltb_spec (mid - 1 - Z.of_nat (Z.to_nat (mid - 1 - lo))) p); try lia. cbn [andb]. rewrite iter_less by lia. unfold NORMAL. f_equal. lia.
  - destruct (Z.leb_spec mid p) as [M|M].
    + destruct (Z.ltb_spec p (mid + Z.of_nat (Z.to_nat (lo - mid)))); [|lia]. cbn [andb]. rewrite iter_less by lia. unfold NORMAL. f_equal. lia.
    + cbn [andb]. destruct (Z.leb_spec p (mid - 1)), (Z.ltb_spec (mid - 1 - Z.of_nat (Z.to_nat (mid - 1 - hi))) p); try lia. cbn [andb]. rewrite iter_more by lia. unfold NORMAL. f_equal. lia.
Qed.

(** * monotone *)
Theorem posix_total dflt pmin pmax lo hi m p :
  pmin <= pmax -> posix_range dflt pmin pmax lo hi = Some m -> valid lo hi p ->
  exists v, lookup m p = Some v /\ (v = dflt \/ pmin <= v <= pmax).
Proof.
  intros PP E V. unfold posix_range in E. destruct (_ && _ && _); [|discriminate]. injection E as <-.
  rewrite posix_lookup by assumption. eexists. split; [reflexivity|]. unfold posix_native, valid in *. 
  pose proof (quot2 (lo + hi)) as Q. set (mid := Z.quot (lo + hi) 2) in *. clearbody mid.
  destruct (Z.ltb_spec lo hi); [destruct (Z.ltb_spec mid p)|destruct (Z.ltb_spec p mid)]; try (now left); right; lia.
Qed.
Theorem posix_monotone dflt pmin pmax lo hi m p q v w :
  dflt <= pmin <= pmax -> posix_range dflt pmin pmax lo hi = Some m -> valid lo hi p -> valid lo hi q -> rank lo hi p <= rank lo hi q ->
  lookup m p = Some v -> lookup m q = Some w -> v <= w.
Proof.
  intros PP E V V' R. unfold posix_range in E. destruct (_ && _ && _); [|discriminate]. injection E as <-.
  rewrite !posix_lookup by (try assumption; lia). intros X Y. injection X as <-. injection Y as <-.
  unfold posix_native, rank, valid in *. set (mid := Z.quot (lo + hi) 2) in *. clearbody mid.
  destruct (Z.ltb_spec lo hi); [destruct (Z.ltb_spec mid p), (Z.ltb_spec mid q)|destruct (Z.ltb_spec p mid), (Z.ltb_spec q mid)]; lia.
Qed.
Theorem posix_not_monotone : ~ (forall dflt pmin pmax lo hi m p q v w,
  pmin <= dflt <= pmax -> posix_range dflt pmin pmax lo hi = Some m -> valid lo hi p -> valid lo hi q -> rank lo hi p <= rank lo hi q ->
  lookup m p = Some v -> lookup m q = Some w -> v <= w).
Proof.
  intros H. assert (X : 50 <= 1); [|lia].
  apply (H 50 1 99 1 9 (posix_table 50 1 99 1 9) 5 6); try (vm_compute; congruence); try reflexivity; try (unfold valid; lia).
Qed.
Theorem windows_total lo hi m p :
  windows_range lo hi = Some m -> valid lo hi p ->
  exists v, lookup m p = Some v /\ (v = -15 \/ -2 <= v <= 2 \/ v = 15).
Proof.
  intros E V. unfold windows_range in E. destruct (in_intb (lo + hi)); [|discriminate]. injection E as <-.
  rewrite win_lookup by assumption. eexists. split; [reflexivity|]. unfold win_native, clamp in *. set (mid := Z.quot (lo + hi) 2) in *. clearbody mid.
  destruct (p =? hi); [now right; right|]. destruct (p =? lo); [now left|]. right. left. destruct (lo <? hi); lia.
Qed.
Theorem windows_monotone lo hi m p q v w :
  windows_range lo hi = Some m -> valid lo hi p -> valid lo hi q -> rank lo hi p <= rank lo hi q ->
  lookup m p = Some v -> lookup m q = Some w -> v <= w.
Proof.
  intros E V V' R. unfold windows_range in E. destruct (in_intb (lo + hi)); [|discriminate]. injection E as <-.
  rewrite !win_lookup by assumption. intros X Y. injection X as <-. injection Y as <-.
  unfold win_native, clamp, rank, valid in *. set (mid := Z.quot (lo + hi) 2) in *. clearbody mid.
  destruct (Z.eqb_spec p hi), (Z.eqb_spec q hi), (Z.eqb_spec p lo), (Z.eqb_spec q lo), (Z.ltb_spec lo hi); lia.
Qed.
(** the ends and the middle *)
Theorem windows_ends lo hi m : windows_range lo hi = Some m ->
  lookup m hi = Some 15 /\ (lo <> hi -> lookup m lo = Some (-15)) /\
  forall n, normal_priority lo hi = Some n -> Z.abs (hi - lo) >= 2 -> lookup m n = Some 0.
Proof.
  intros E. pose proof E as E'. unfold windows_range in E. destruct (in_intb (lo + hi)) eqn:I; [|discriminate]. injection E as <-.
  split; [|split].
  - rewrite win_lookup by (unfold valid; lia). unfold win_native. now rewrite Z.eqb_refl.
  - intros N. rewrite win_lookup by (unfold valid; lia). unfold win_native. destruct (Z.eqb_spec lo hi); [contradiction|]. now rewrite Z.eqb_refl.
  - intros n NP D. pose proof (proj1 (in_intb_iff _) I) as II. destruct (normal_ok lo hi II) as (n' & NP' & V & ST). rewrite NP in NP'. injection NP' as <-.
    rewrite win_lookup by exact V. unfold win_native, clamp. specialize (ST D).
    assert (n = Z.quot (lo + hi) 2) as ->.
    { unfold normal_priority, iadd in NP. rewrite min_ok, max_ok in NP. replace (Z.min lo hi + Z.max lo hi) with (lo + hi) in NP by lia. rewrite I in NP. congruence. }
    set (mid := Z.quot (lo + hi) 2) in *. clearbody mid. destruct (Z.eqb_spec mid hi); [lia|]. destruct (Z.eqb_spec mid lo); [lia|]. f_equal. destruct (lo <? hi); lia.
Qed.
(** the tables can be built for every range whose ends are not the ends of int *)
Theorem ranges_defined dflt pmin pmax lo hi : - 2 ^ 30 <= lo < 2 ^ 30 -> - 2 ^ 30 <= hi < 2 ^ 30 ->
  posix_range dflt pmin pmax lo hi <> None /\ windows_range lo hi <> None.
Proof.
  intros A B. unfold posix_range, windows_range. rewrite max_ok, min_ok.
  rewrite !(proj2 (in_intb_iff _)) by (unfold in_int; lia). cbn. split; discriminate.
Qed.
(** exactly when the tables can be built *)
Theorem posix_defined_iff dflt pmin pmax lo hi :
  posix_range dflt pmin pmax lo hi <> None <-> in_int (lo + hi) /\ in_int (Z.max lo hi + 1) /\ in_int (Z.min lo hi - 1).
Proof.
  unfold posix_range. rewrite max_ok, min_ok, <- !in_intb_iff. destruct (in_intb (lo + hi)), (in_intb (Z.max lo hi + 1)), (in_intb (Z.min lo hi - 1)); cbn; intuition congruence.
Qed.
Theorem windows_defined_iff lo hi : windows_range lo hi <> None <-> in_int (lo + hi).
Proof. unfold windows_range. rewrite <- in_intb_iff. destruct (in_intb (lo + hi)); intuition congruence. Qed.
