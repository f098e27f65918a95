(** Specification of thread priorities.  A platform has a lowest and a highest priority; either may be the greater number. *)
From Coq Require Import ZArith Lia.
Open Scope Z_scope.

Definition in_int (x : Z) : Prop := - 2 ^ 31 <= x < 2 ^ 31.
Definition in_intb (x : Z) : bool := (- 2 ^ 31 <=? x) && (x <? 2 ^ 31).
(** how urgent [p] is: its distance from the lowest priority *)
Definition rank (lowest highest p : Z) : Z := if lowest <? highest then p - lowest else lowest - p.
Definition valid (lowest highest p : Z) : Prop := Z.min lowest highest <= p <= Z.max lowest highest.
Definition clamp (lo hi x : Z) : Z := Z.max lo (Z.min hi x).
