(** What a duration given to the library means (mechanism/OSWrapper/Timeout.h; Thread.h:112-116 sleep; OneShotTimer.h:80-88;
    PeriodicTimer.h:60-68), whatever the platform. *)
From Coq Require Import ZArith.
Open Scope Z_scope.

Inductive wish := ForEver | ForNs (n : Z) (* so many nanoseconds; not at all if there are none *).
(** a Timeout of [x]: -1 is Timeout::FOREVER, 0 Timeout::POLLING, anything else so many milliseconds *)
Definition asked (x : Z) : wish := if x =? -1 then ForEver else ForNs (x * 1000000).
(** a number of milliseconds *)
Definition millis (x : Z) : wish := ForNs (x * 1000000).
(** what a platform does with it *)
Inductive outcome :=
| Waits (w : wish)
| Refuses             (* the call or the creation fails *)
| Undefined.          (* undefined behaviour: arithmetic overflow *)
(** values of signed and unsigned integer types of [w] bits *)
Definition is_signed (w x : Z) : Prop := - 2 ^ (w - 1) <= x < 2 ^ (w - 1).
Definition is_unsigned (w x : Z) : Prop := 0 <= x < 2 ^ w.
(** what is waited for is no longer than what was asked, and it is not for ever unless that was asked *)
Definition at_most (a b : wish) : Prop :=
  match a, b with ForEver, ForEver => True | ForNs n, ForNs m => n <= m | ForNs _, ForEver => True | ForEver, ForNs _ => False end.
