(** Durations and the types that carry them. *)
From Coq Require Import ZArith Bool Lia.
From Verif Require Import Spec.DurationSpec OS.DurationModel.
Open Scope Z_scope.

Lemma pow_split w : 1 <= w -> 2 ^ w = 2 * 2 ^ (w - 1).
Proof. intros H. replace w with (1 + (w - 1)) at 1 by lia. rewrite Z.pow_add_r by lia. reflexivity. Qed.
Lemma to_signed_fit w z : 1 <= w -> is_signed w z -> to_signed w z = z.
Proof. intros W H. unfold is_signed, to_signed in *. pose proof (pow_split w W). rewrite Z.mod_small; lia. Qed.
Lemma to_signed_range w z : 1 <= w -> is_signed w (to_signed w z).
Proof.
  intros W. unfold is_signed, to_signed. pose proof (pow_split w W). pose proof (Z.pow_pos_nonneg 2 (w - 1) ltac:(lia) ltac:(lia)). pose proof (Z.mod_pos_bound (z + 2 ^ (w - 1)) (2 ^ w) ltac:(lia)). lia.
Qed.
Lemma to_signed_iff w z : 1 <= w -> (to_signed w z = z <-> is_signed w z).
Proof. intros W. split; intros H; [rewrite <- H; now apply to_signed_range|now apply to_signed_fit]. Qed.
Lemma fits64_iff z : fits64 z = true <-> is_signed 64 z.
Proof. unfold fits64, is_signed. rewrite andb_true_iff, Z.leb_le, Z.ltb_lt. reflexivity. Qed.
Lemma signed_grow v w x : 1 <= v -> v <= w -> is_signed v x -> is_signed w x.
Proof. unfold is_signed. intros A B C. pose proof (Z.pow_le_mono_r 2 (v - 1) (w - 1) ltac:(lia) ltac:(lia)). lia. Qed.
Lemma unsigned_mod w x : 0 <= w -> (x mod 2 ^ w = x <-> is_unsigned w x).
Proof.
  intros W. unfold is_unsigned. pose proof (Z.pow_pos_nonneg 2 w ltac:(lia) W). split; intros H0; [rewrite <- H0; apply Z.mod_pos_bound; lia|apply Z.mod_small; exact H0].
Qed.

Lemma until_cases now m : (until now m = Waits (millis m) /\ is_signed 64 (m * 1000000) /\ is_signed 64 (now + m * 1000000)) \/
  (until now m = Undefined /\ ~ (is_signed 64 (m * 1000000) /\ is_signed 64 (now + m * 1000000))).
Proof.
  unfold until, millis. destruct (fits64 (m * 1000000)) eqn:A; [destruct (fits64 (now + m * 1000000)) eqn:B|]; cbn [andb].
  - left. rewrite <- !fits64_iff. auto.
  - right. rewrite <- !fits64_iff. rewrite B. split; [reflexivity|]. intros (_ & C). discriminate.
  - right. rewrite <- !fits64_iff. rewrite A. split; [reflexivity|]. intros (C & _). discriminate.
Qed.
Ltac pows := change (2 ^ 63) with 9223372036854775808 in *; change (2 ^ 64) with 18446744073709551616 in *; change (2 ^ 62) with 4611686018427387904 in *;
  change (2 ^ 32) with 4294967296 in *; change (2 ^ 31) with 2147483648 in *; change (64 - 1) with 63 in *; change (32 - 1) with 31 in *.

(** ** StdCpp *)
Theorem std_timed_wait_exact now x : 0 <= now < 2 ^ 63 -> is_signed 64 x ->
  (std_timed_wait now x = Waits (asked x) <-> x = -1 \/ (- 2 ^ 63 <= x * 1000000 /\ now + x * 1000000 < 2 ^ 63)) /\
  (std_timed_wait now x = Waits (asked x) \/ std_timed_wait now x = Undefined).
Proof.
  intros N X. unfold std_timed_wait, asked. rewrite (to_signed_fit 64 x) by (lia || exact X). destruct (Z.eqb_spec x (-1)) as [->|NE]; [split; [split; auto|auto]|].
  destruct (until_cases now x) as [(E & A & B)|(E & A)]; rewrite E; fold (millis x); unfold is_signed in *; pows; (split; [split|]); auto.
  - intros _. right. lia.
  - discriminate.
  - intros [H|H]; [congruence|]. exfalso. apply A. lia.
Qed.
Theorem std_timed_wait_32 now x : 0 <= now <= 2 ^ 62 -> is_signed 32 x -> std_timed_wait now x = Waits (asked x).
Proof.
  intros N X. apply std_timed_wait_exact; unfold is_signed in *; pows; lia.
Qed.
Theorem std_timer_exact now x : 0 <= now < 2 ^ 63 -> is_unsigned 64 x ->
  (std_timer now x = Waits (millis x) <-> now + x * 1000000 < 2 ^ 63).
Proof.
  intros N X. unfold std_timer. destruct (Z_lt_le_dec x (2 ^ 63)) as [L|L].
  - rewrite (to_signed_fit 64 x) by (unfold is_signed, is_unsigned in *; pows; lia). destruct (until_cases now x) as [(E & A & B)|(E & A)]; rewrite E; unfold is_signed, is_unsigned in *; pows; split; auto.
    + lia.
    + discriminate.
    + intros H. exfalso. apply A. lia.
  - assert (S : to_signed 64 x = x - 2 ^ 64).
    { unfold to_signed, is_unsigned in *. pows. pows. assert ((x + 9223372036854775808) mod 18446744073709551616 = x - 9223372036854775808) by (symmetry; apply Z.mod_unique with (q := 1); lia). lia. }
    rewrite S. destruct (until_cases now (x - 2 ^ 64)) as [(E & A & B)|(E & A)]; rewrite E; unfold millis, is_unsigned in *; pows; split; intros H; try discriminate; try lia. injection H as H. lia.
Qed.
Theorem std_sleep_exact x : is_unsigned 64 x -> (std_sleep x = Waits (millis x) <-> x < 2 ^ 63).
Proof.
  intros X. unfold std_sleep, millis. pose proof (to_signed_iff 64 x ltac:(lia)) as I. unfold is_signed, is_unsigned in *. pows. split; intros H.
  - injection H as H. assert (to_signed 64 x = x) by lia. apply I in H0. lia.
  - destruct I as (_ & I). rewrite I by lia. reflexivity.
Qed.
Theorem std_never_longer now x : 0 <= now < 2 ^ 63 -> is_unsigned 64 x ->
  (forall w, std_timer now x = Waits w -> at_most w (millis x)) /\ (forall w, std_sleep x = Waits w -> at_most w (millis x)).
Proof.
  intros N X. assert (L : to_signed 64 x <= x).
  { unfold to_signed, is_unsigned in *. pows. pows. assert ((x + 9223372036854775808) mod 18446744073709551616 <= x + 9223372036854775808) by (apply Z.mod_le; lia). lia. }
  split; intros w H.
  - unfold std_timer in H. destruct (until_cases now (to_signed 64 x)) as [(E & A & B)|(E & A)]; rewrite E in H; [|discriminate]. injection H as <-. cbn. lia.
  - unfold std_sleep in H. injection H as <-. cbn. lia.
Qed.
(** ** Itron *)
Theorem itron_timed_wait_exact tw x : 2 <= tw -> -1 <= x -> (itron_timed_wait tw x = Waits (asked x) <-> x < 2 ^ (tw - 1)).
Proof.
  intros W X. unfold itron_timed_wait, asked. pose proof (Z.pow_pos_nonneg 2 (tw - 1) ltac:(lia) ltac:(lia)) as PP. split.
  - intros H. destruct (Z.eqb_spec x (-1)) as [->|NX]; [lia|]. destruct (Z.eqb_spec (to_signed tw x) (-1)); [discriminate|]. destruct (to_signed tw x <? -1); [discriminate|].
    injection H as H. assert (E : to_signed tw x = x) by lia. apply to_signed_iff in E; [|lia]. apply E.
  - intros L. assert (E : to_signed tw x = x) by (apply to_signed_fit; [lia|]; split; lia). rewrite E. destruct (x =? -1) eqn:Q; [reflexivity|].
    apply Z.eqb_neq in Q. destruct (Z.ltb_spec x (-1)); [lia|reflexivity].
Qed.
Theorem itron_timed_wait_refuses tw x : 2 <= tw -> is_signed tw x -> (itron_timed_wait tw x = Refuses <-> x < -1).
Proof.
  intros W X. unfold itron_timed_wait. rewrite to_signed_fit by (lia || exact X). destruct (Z.eqb_spec x (-1)) as [->|N]; [split; [discriminate|lia]|].
  destruct (Z.ltb_spec x (-1)); split; auto; try discriminate; lia.
Qed.
Theorem itron_sleep_exact rw x : 1 <= rw -> 0 <= x -> (itron_sleep rw x = Waits (millis x) <-> x < 2 ^ rw).
Proof.
  intros W X. unfold itron_sleep, millis. pose proof (unsigned_mod rw x ltac:(lia)) as U. unfold is_unsigned in U. split; intros H.
  - injection H as H. assert (E : x mod 2 ^ rw = x) by lia. apply U in E. lia.
  - destruct U as (_ & U). rewrite U by lia. reflexivity.
Qed.
Theorem itron_period_exact rw x : 1 <= rw -> 0 < x -> (itron_period rw x = Waits (millis (period_told x)) <-> x < 2 ^ rw).
Proof.
  intros W X. unfold itron_period, millis, period_told. destruct (Z.eqb_spec x 0); [lia|]. pose proof (unsigned_mod rw x ltac:(lia)) as U. unfold is_unsigned in U. split; intros H.
  - destruct (x mod 2 ^ rw =? 0); [discriminate|]. injection H as H. assert (E : x mod 2 ^ rw = x) by lia. apply U in E. lia.
  - destruct U as (_ & U). rewrite U by lia. destruct (Z.eqb_spec x 0); [lia|reflexivity].
Qed.
(** ** Windows *)
Theorem windows_timer_exact pmin pmax x : is_unsigned 32 x ->
  (windows_timer pmin pmax x = Waits (millis x) <-> pmin <= x <= pmax) /\ (windows_timer pmin pmax x = Waits (millis x) \/ windows_timer pmin pmax x = Refuses).
Proof.
  intros X. unfold windows_timer. apply unsigned_mod in X; [|lia]. rewrite X. destruct (Z.leb_spec pmin x), (Z.leb_spec x pmax); cbn [andb]; (split; [split|]); auto; try discriminate; lia.
Qed.
(** ** what goes wrong *)
Theorem itron_wait_forever_instead tw : 2 <= tw -> itron_timed_wait tw (2 ^ tw - 1) = Waits ForEver /\ itron_timed_wait tw (2 ^ tw) = Waits (ForNs 0) /\ itron_timed_wait tw (2 ^ (tw - 1)) = Refuses.
Proof.
  intros W. pose proof (pow_split tw ltac:(lia)) as P. pose proof (pow_split (tw - 1) ltac:(lia)) as P2. pose proof (Z.pow_pos_nonneg 2 (tw - 1 - 1) ltac:(lia) ltac:(lia)) as PP. unfold itron_timed_wait.
  assert (A : to_signed tw (2 ^ tw - 1) = -1).
  { unfold to_signed. replace (2 ^ tw - 1 + 2 ^ (tw - 1)) with (2 ^ (tw - 1) - 1 + 1 * 2 ^ tw) by lia. rewrite Z_mod_plus_full, Z.mod_small; lia. }
  assert (B : to_signed tw (2 ^ tw) = 0).
  { unfold to_signed. replace (2 ^ tw + 2 ^ (tw - 1)) with (2 ^ (tw - 1) + 1 * 2 ^ tw) by lia. rewrite Z_mod_plus_full, Z.mod_small; lia. }
  assert (C : to_signed tw (2 ^ (tw - 1)) = - 2 ^ (tw - 1)).
  { unfold to_signed. replace (2 ^ (tw - 1) + 2 ^ (tw - 1)) with (0 + 1 * 2 ^ tw) by lia. rewrite Z_mod_plus_full, Z.mod_0_l; lia. }
  rewrite A, B, C. split; [reflexivity|]. split; [reflexivity|]. destruct (Z.eqb_spec (- 2 ^ (tw - 1)) (-1)); [lia|]. destruct (Z.ltb_spec (- 2 ^ (tw - 1)) (-1)); [reflexivity|lia].
Qed.
Theorem itron_period_lost rw : 1 <= rw ->
  itron_period rw (2 ^ rw) = Refuses /\ (2 <= rw -> itron_period rw (2 ^ rw + 1) = Waits (ForNs 1000000) /\ period_told (2 ^ rw + 1) = 2 ^ rw + 1).
Proof.
  intros W. pose proof (Z.pow_pos_nonneg 2 rw ltac:(lia) ltac:(lia)) as P. split.
  - unfold itron_period. destruct (Z.eqb_spec (2 ^ rw) 0); [reflexivity|]. rewrite Z.mod_same by lia. reflexivity.
  - intros W2. split; [|reflexivity]. unfold itron_period. destruct (Z.eqb_spec (2 ^ rw + 1) 0); [lia|].
    assert (E : (2 ^ rw + 1) mod 2 ^ rw = 1). { symmetry. apply Z.mod_unique with (q := 1); [|lia]. left. pose proof (Z.pow_le_mono_r 2 1 rw ltac:(lia) ltac:(lia)). lia. }
    rewrite E. reflexivity.
Qed.
Theorem std_timed_wait_undefined : std_timed_wait 0 (2 ^ 63 - 1) = Undefined.
Proof. reflexivity. Qed.
Theorem std_sleep_not_at_all : exists n, std_sleep (2 ^ 63) = Waits (ForNs n) /\ n <= 0.
Proof. exists (to_signed 64 (2 ^ 63) * 1000000). split; [reflexivity|]. cbv. discriminate. Qed.
Theorem std_timer_fires_at_once now : 0 <= now < 2 ^ 63 -> exists n, std_timer now (2 ^ 64 - 1) = Waits (ForNs n) /\ n <= 0.
Proof.
  intros N. exists (-1000000). split; [|lia]. unfold std_timer, until. replace (to_signed 64 (2 ^ 64 - 1)) with (-1) by reflexivity. unfold fits64. pows.
  repeat match goal with |- context [(?a <=? ?b) && (?c <? ?d)] => destruct (Z.leb_spec a b); [|lia]; destruct (Z.ltb_spec c d); [|lia] end. reflexivity.
Qed.
Theorem std_timed_wait_refuted : ~ (forall now x, 0 <= now < 2 ^ 63 -> is_signed 64 x -> std_timed_wait now x = Waits (asked x)).
Proof.
  intros H. specialize (H 0 (2 ^ 63 - 1)). rewrite std_timed_wait_undefined in H. assert (A : 0 <= 0 < 2 ^ 63) by (split; [lia|reflexivity]).
  assert (B : is_signed 64 (2 ^ 63 - 1)) by (split; [cbv; discriminate|reflexivity]). specialize (H A B). discriminate.
Qed.
