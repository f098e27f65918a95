(** C85: A duration given to the library is the duration the system waits. *)
From Coq Require Import ZArith.
From Verif Require Import Spec.DurationSpec OS.DurationModel OS.DurationProofs.
Open Scope Z_scope.

(** ** StdCpp, where long has 64 bits; [now]: the steady clock in nanoseconds *)
(** lock, wait of a flag, wait for a thread: as long as asked exactly if the moment at which it would end can be counted; undefined behaviour otherwise *)
Theorem c85_std_timeout_partial : forall now x, 0 <= now < 2 ^ 63 -> is_signed 64 x ->
  (std_timed_wait now x = Waits (asked x) <-> x = -1 \/ (- 2 ^ 63 <= x * 1000000 /\ now + x * 1000000 < 2 ^ 63)) /\
  (std_timed_wait now x = Waits (asked x) \/ std_timed_wait now x = Undefined).
Proof. exact std_timed_wait_exact. Qed.
Print Assumptions c85_std_timeout_partial.
(** no value of 32 bits is affected in the first 146 years of the clock *)
Theorem c85_std_timeout_32 : forall now x, 0 <= now <= 2 ^ 62 -> is_signed 32 x -> std_timed_wait now x = Waits (asked x).
Proof. exact std_timed_wait_32. Qed.
Print Assumptions c85_std_timeout_32.
Theorem c85_std_timeout_refuted : ~ (forall now x, 0 <= now < 2 ^ 63 -> is_signed 64 x -> std_timed_wait now x = Waits (asked x)).
Proof. exact std_timed_wait_refuted. Qed.
Print Assumptions c85_std_timeout_refuted.
(** time of a one-shot timer, period of a periodic timer *)
Theorem c85_std_timer_partial : forall now x, 0 <= now < 2 ^ 63 -> is_unsigned 64 x -> (std_timer now x = Waits (millis x) <-> now + x * 1000000 < 2 ^ 63).
Proof. exact std_timer_exact. Qed.
Print Assumptions c85_std_timer_partial.
Theorem c85_std_sleep_partial : forall x, is_unsigned 64 x -> (std_sleep x = Waits (millis x) <-> x < 2 ^ 63).
Proof. exact std_sleep_exact. Qed.
Print Assumptions c85_std_sleep_partial.
(** whatever the value, timers and sleeping never take longer than asked *)
Theorem c85_std_never_longer : forall now x, 0 <= now < 2 ^ 63 -> is_unsigned 64 x ->
  (forall w, std_timer now x = Waits w -> at_most w (millis x)) /\ (forall w, std_sleep x = Waits w -> at_most w (millis x)).
Proof. exact std_never_longer. Qed.
Print Assumptions c85_std_never_longer.
(** but the longest times are no time at all *)
Theorem c85_std_longest_refuted : (exists n, std_sleep (2 ^ 63) = Waits (ForNs n) /\ n <= 0) /\
  (forall now, 0 <= now < 2 ^ 63 -> exists n, std_timer now (2 ^ 64 - 1) = Waits (ForNs n) /\ n <= 0).
Proof. exact (conj std_sleep_not_at_all std_timer_fires_at_once). Qed.
Print Assumptions c85_std_longest_refuted.

(** ** Itron, where TMO has [tw] bits and RELTIM [rw] bits *)
Theorem c85_itron_timeout_partial : forall tw x, 2 <= tw -> -1 <= x -> (itron_timed_wait tw x = Waits (asked x) <-> x < 2 ^ (tw - 1)).
Proof. exact itron_timed_wait_exact. Qed.
Print Assumptions c85_itron_timeout_partial.
(** a negative timeout other than FOREVER is refused *)
Theorem c85_itron_timeout_refused : forall tw x, 2 <= tw -> is_signed tw x -> (itron_timed_wait tw x = Refuses <-> x < -1).
Proof. exact itron_timed_wait_refuses. Qed.
Print Assumptions c85_itron_timeout_refused.
(** where long is wider than TMO there are timeouts that wait for ever, that only poll, and that are refused *)
Theorem c85_itron_timeout_refuted : forall tw, 2 <= tw ->
  itron_timed_wait tw (2 ^ tw - 1) = Waits ForEver /\ itron_timed_wait tw (2 ^ tw) = Waits (ForNs 0) /\ itron_timed_wait tw (2 ^ (tw - 1)) = Refuses.
Proof. exact itron_wait_forever_instead. Qed.
Print Assumptions c85_itron_timeout_refuted.
Theorem c85_itron_sleep_partial : forall rw x, 1 <= rw -> 0 <= x -> (itron_sleep rw x = Waits (millis x) <-> x < 2 ^ rw).
Proof. exact itron_sleep_exact. Qed.
Print Assumptions c85_itron_sleep_partial.
(** the period that getPeriodInMillis tells is the period of the cyclic handler *)
Theorem c85_itron_period_partial : forall rw x, 1 <= rw -> 0 < x -> (itron_period rw x = Waits (millis (period_told x)) <-> x < 2 ^ rw).
Proof. exact itron_period_exact. Qed.
Print Assumptions c85_itron_period_partial.
Theorem c85_itron_period_refuted : forall rw, 1 <= rw ->
  itron_period rw (2 ^ rw) = Refuses /\ (2 <= rw -> itron_period rw (2 ^ rw + 1) = Waits (ForNs 1000000) /\ period_told (2 ^ rw + 1) = 2 ^ rw + 1).
Proof. exact itron_period_lost. Qed.
Print Assumptions c85_itron_period_refuted.

(** ** Windows, where long has 32 bits *)
(** a timer runs as long as asked exactly if that is a time the system's timers can run; otherwise starting it fails *)
Theorem c85_windows_timer : forall pmin pmax x, is_unsigned 32 x ->
  (windows_timer pmin pmax x = Waits (millis x) <-> pmin <= x <= pmax) /\ (windows_timer pmin pmax x = Waits (millis x) \/ windows_timer pmin pmax x = Refuses).
Proof. exact windows_timer_exact. Qed.
Print Assumptions c85_windows_timer.

(** ** concrete values *)
Example c85_std_day : std_timed_wait 5000 86400000 = Waits (ForNs 86400000000000) /\ std_timed_wait 5000 (-1) = Waits ForEver /\ std_timed_wait 5000 0 = Waits (ForNs 0) /\
  std_timer 5000 250 = Waits (ForNs 250000000) /\ std_sleep 4294967296 = Waits (ForNs 4294967296000000).
Proof. now vm_compute. Qed.
Example c85_std_end : std_timed_wait 0 9223372036854 = Waits (asked 9223372036854) /\ std_timed_wait 775808 9223372036854 = Undefined /\ std_timed_wait 0 9223372036855 = Undefined.
Proof. now vm_compute. Qed.
Example c85_itron_some : itron_timed_wait 32 1000 = Waits (ForNs 1000000000) /\ itron_timed_wait 32 (-1) = Waits ForEver /\ itron_timed_wait 32 (-2) = Refuses /\
  itron_timed_wait 16 65535 = Waits ForEver /\ itron_timed_wait 16 32767 = Waits (ForNs 32767000000) /\ itron_sleep 16 65537 = Waits (ForNs 1000000) /\
  itron_period 16 70000 = Waits (ForNs 4464000000) /\ itron_period 16 100 = Waits (ForNs 100000000) /\ itron_period 16 0 = Refuses.
Proof. now vm_compute. Qed.
Example c85_windows_some : windows_timer 1 1000000 5 = Waits (ForNs 5000000) /\ windows_timer 1 1000000 0 = Refuses /\ windows_timer 1 1000000 1000001 = Refuses.
Proof. now vm_compute. Qed.
