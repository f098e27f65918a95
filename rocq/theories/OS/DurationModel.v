(** How the platforms hand a duration on to the system: the conversions of integer types and units.
    [now] is the reading of the system's steady clock in nanoseconds.  std::chrono (environment): milliseconds and nanoseconds are counted in
    64-bit signed integers, conversion from a 64-bit unsigned long is modulo 2^64; wait_for and try_lock_for wait until the clock reading plus
    the duration ([thread.condition.condvar], [thread.timedmutex.requirements]), in nanoseconds; sleep_for waits for the duration, whose seconds
    and rest are passed on separately.  uITRON 4.0 (environment): TMO is a signed type of [tw] bits (-1: TMO_FEVR, below: E_PAR), RELTIM an
    unsigned type of [rw] bits, both in milliseconds; a cyclic handler of period 0 is refused (E_PAR).  Windows (environment): timeSetEvent takes a
    32-bit unsigned number of milliseconds and fails outside [pmin, pmax] (wPeriodMin, wPeriodMax).
    The clock's and the schedulers' granularity is not modelled; nor is the conversion of [long] itself, which C++ callers do. *)
From Coq Require Import ZArith Bool.
From Verif Require Import Spec.DurationSpec.
Open Scope Z_scope.

(** conversion to a signed type of [w] bits *)
Definition to_signed (w z : Z) : Z := (z + 2 ^ (w - 1)) mod 2 ^ w - 2 ^ (w - 1).
Definition fits64 (z : Z) : bool := (- 2 ^ 63 <=? z) && (z <? 2 ^ 63).
(** wait_for(milliseconds(m)) *)
Definition until (now m : Z) : outcome :=
  if fits64 (m * 1000000) && fits64 (now + m * 1000000) then Waits (ForNs (m * 1000000)) else Undefined.

(** StdCppEventFlagFactory.cpp:83-99, StdCppMutexFactory.cpp:59-65, StdCppThreadFactory.cpp:86-92 *)
Definition std_timed_wait (now x : Z) : outcome := if x =? -1 then Waits ForEver else until now (to_signed 64 x).
(** StdCppOneShotTimerFactory.cpp:55, StdCppPeriodicTimerFactory.cpp:58 *)
Definition std_timer (now x : Z) : outcome := until now (to_signed 64 x).
(** StdCppThreadFactory.cpp:220-223 *)
Definition std_sleep (x : Z) : outcome := Waits (ForNs (to_signed 64 x * 1000000)).
(** ItronEventFlagFactory.cpp:96, ItronMutexFactory.cpp:79, ItronThreadFactory.cpp:178: static_cast<TMO>(tmout) *)
Definition itron_timed_wait (tw x : Z) : outcome :=
  let t := to_signed tw x in if t =? -1 then Waits ForEver else if t <? -1 then Refuses else Waits (ForNs (t * 1000000)).
(** ItronThreadFactory.cpp:332-335: dly_tsk *)
Definition itron_sleep (rw x : Z) : outcome := Waits (ForNs (x mod 2 ^ rw * 1000000)).
(** PeriodicTimer.cpp:90-92, ItronPeriodicTimerFactory.cpp:29-38: cyctim *)
Definition itron_period (rw x : Z) : outcome :=
  if x =? 0 then Refuses else let c := x mod 2 ^ rw in if c =? 0 then Refuses else Waits (ForNs (c * 1000000)).
(** ItronPeriodicTimerFactory.cpp:71-74, and the same in the other platforms (StdCpp 134-137, Windows 80-83) *)
Definition period_told (x : Z) : Z := x.
(** WindowsOneShotTimerFactory.cpp:59-62, WindowsPeriodicTimerFactory.cpp:53-56 *)
Definition windows_timer (pmin pmax x : Z) : outcome :=
  let c := x mod 2 ^ 32 in if (pmin <=? c) && (c <=? pmax) then Waits (ForNs (c * 1000000)) else Refuses.
