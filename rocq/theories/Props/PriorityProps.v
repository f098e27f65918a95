(** Priorities: arithmetic (C49) and native tables (C50).  [lo], [hi]: the lowest and the highest priority of the platform. *)
From Coq Require Import List ZArith Bool Lia.
Import ListNotations.
From Verif Require Import Spec.PrioritySpec OS.PriorityModel OS.PriorityProofs.
Open Scope Z_scope.

(** C49: exactly [d] steps more urgent, clamped to the range - when the int sum or difference does not overflow *)
Theorem c49_priority_higher_than_partial :
  forall lo hi base d : Z, in_int (if lo <? hi then base + d else base - d) ->
    exists p, priority_higher_than lo hi base d = Some p /\ valid lo hi p /\
              rank lo hi p = clamp 0 (rank lo hi hi) (rank lo hi base + d).
Proof. exact higher_than_ok. Qed.
Print Assumptions c49_priority_higher_than_partial.
Theorem c49_zero_difference :
  forall lo hi base : Z, in_int base -> valid lo hi base -> priority_higher_than lo hi base 0 = Some base.
Proof. exact higher_than_zero. Qed.
Print Assumptions c49_zero_difference.
(** without that condition a valid base priority and an int difference can overflow: undefined behaviour *)
Theorem c49_no_overflow_refuted :
  ~ (forall lo hi base d : Z, in_int lo -> in_int hi -> valid lo hi base -> in_int d -> priority_higher_than lo hi base d <> None).
Proof. exact higher_than_overflow. Qed.
Print Assumptions c49_no_overflow_refuted.
(** the normal priority is in the range, and strictly inside when the range has a middle *)
Theorem c49_normal_priority_partial :
  forall lo hi : Z, in_int (lo + hi) ->
    exists p, normal_priority lo hi = Some p /\ valid lo hi p /\ (Z.abs (hi - lo) >= 2 -> Z.min lo hi < p < Z.max lo hi).
Proof. exact normal_ok. Qed.
Print Assumptions c49_normal_priority_partial.
(** the documented min < normal < max fails on the StdCpp platform (0 and 0) *)
Theorem c49_normal_strictly_between_refuted :
  ~ (forall lo hi p : Z, in_int (lo + hi) -> normal_priority lo hi = Some p -> Z.min lo hi < p < Z.max lo hi).
Proof. exact normal_not_strict. Qed.
Print Assumptions c49_normal_strictly_between_refuted.
Example c49_cases :
  priority_higher_than 1 9 5 3 = Some 8 /\ priority_higher_than 1 9 5 100 = Some 9 /\ priority_higher_than 9 1 5 3 = Some 2 /\
  priority_higher_than 9 1 5 (-100) = Some 9 /\ normal_priority 9 1 = Some 5 /\ rank 9 1 2 = 7.
Proof. repeat split. Qed.

(** C50: every valid priority has a native priority *)
Theorem c50_posix_total :
  forall (dflt pmin pmax lo hi : Z) (m : pmap) (p : Z),
    pmin <= pmax -> posix_range dflt pmin pmax lo hi = Some m -> valid lo hi p ->
    exists v, lookup m p = Some v /\ (v = dflt \/ pmin <= v <= pmax).
Proof. exact posix_total. Qed.
Print Assumptions c50_posix_total.
(** more urgent priorities never get a lower native priority, if the process itself runs below the real-time priorities *)
Theorem c50_posix_monotone_partial :
  forall (dflt pmin pmax lo hi : Z) (m : pmap) (p q v w : Z),
    dflt <= pmin <= pmax -> posix_range dflt pmin pmax lo hi = Some m -> valid lo hi p -> valid lo hi q -> rank lo hi p <= rank lo hi q ->
    lookup m p = Some v -> lookup m q = Some w -> v <= w.
Proof. exact posix_monotone. Qed.
Print Assumptions c50_posix_monotone_partial.
(** a process that itself runs with a real-time priority breaks it *)
Theorem c50_posix_monotone_refuted :
  ~ (forall (dflt pmin pmax lo hi : Z) (m : pmap) (p q v w : Z),
       pmin <= dflt <= pmax -> posix_range dflt pmin pmax lo hi = Some m -> valid lo hi p -> valid lo hi q -> rank lo hi p <= rank lo hi q ->
       lookup m p = Some v -> lookup m q = Some w -> v <= w).
Proof. exact posix_not_monotone. Qed.
Print Assumptions c50_posix_monotone_refuted.
Theorem c50_windows_total :
  forall (lo hi : Z) (m : pmap) (p : Z), windows_range lo hi = Some m -> valid lo hi p ->
    exists v, lookup m p = Some v /\ (v = -15 \/ -2 <= v <= 2 \/ v = 15).
Proof. exact windows_total. Qed.
Print Assumptions c50_windows_total.
Theorem c50_windows_monotone :
  forall (lo hi : Z) (m : pmap) (p q v w : Z),
    windows_range lo hi = Some m -> valid lo hi p -> valid lo hi q -> rank lo hi p <= rank lo hi q ->
    lookup m p = Some v -> lookup m q = Some w -> v <= w.
Proof. exact windows_monotone. Qed.
Print Assumptions c50_windows_monotone.
Theorem c50_windows_ends_and_middle :
  forall (lo hi : Z) (m : pmap), windows_range lo hi = Some m ->
    lookup m hi = Some 15 /\ (lo <> hi -> lookup m lo = Some (-15)) /\
    forall n, normal_priority lo hi = Some n -> Z.abs (hi - lo) >= 2 -> lookup m n = Some 0.
Proof. exact windows_ends. Qed.
Print Assumptions c50_windows_ends_and_middle.
Theorem c50_tables_are_defined :
  forall dflt pmin pmax lo hi : Z, - 2 ^ 30 <= lo < 2 ^ 30 -> - 2 ^ 30 <= hi < 2 ^ 30 ->
    posix_range dflt pmin pmax lo hi <> None /\ windows_range lo hi <> None.
Proof. exact ranges_defined. Qed.
Print Assumptions c50_tables_are_defined.
(** exactly when no int operation overflows: the Posix loops step one past either end of the range, so a range ending at INT_MAX or INT_MIN
    is undefined behaviour there and not on Windows *)
Theorem c50_posix_defined_iff :
  forall dflt pmin pmax lo hi : Z,
    posix_range dflt pmin pmax lo hi <> None <-> in_int (lo + hi) /\ in_int (Z.max lo hi + 1) /\ in_int (Z.min lo hi - 1).
Proof. exact posix_defined_iff. Qed.
Print Assumptions c50_posix_defined_iff.
Theorem c50_windows_defined_iff : forall lo hi : Z, windows_range lo hi <> None <-> in_int (lo + hi).
Proof. exact windows_defined_iff. Qed.
Print Assumptions c50_windows_defined_iff.
Example c50_cases :
  map (lookup (posix_table 0 1 99 1 9)) [1; 5; 6; 9] = [Some 0; Some 0; Some 1; Some 4] /\
  map (lookup (posix_table 0 1 2 9 1)) [9; 5; 4; 3; 1] = [Some 0; Some 0; Some 1; Some 2; Some 2] /\
  map (lookup (windows_table 1 9)) [1; 2; 3; 4; 5; 6; 7; 8; 9] =
    [Some (-15); Some (-2); Some (-2); Some (-1); Some 0; Some 1; Some 2; Some 2; Some 15].
Proof. repeat split. Qed.
