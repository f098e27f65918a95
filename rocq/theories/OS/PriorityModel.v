(** Model of the priority arithmetic of Thread (mechanism/OSWrapper/Thread.cpp:193-230) and of the priority tables of
    platform/PosixOSWrapper/PosixThreadFactory.cpp:70-130 and platform/WindowsOSWrapper/WindowsThreadFactory.cpp:58-124.
    int is 32 bits wide; an int operation whose result does not fit is undefined behaviour: None.
    The tables are std::unordered_map<int, int>: association lists, insert leaving an existing key alone. *)
From Coq Require Import List ZArith Bool.
Import ListNotations.
From Verif Require Import Spec.PrioritySpec.
Open Scope Z_scope.

Definition iadd (a b : Z) : option Z := if in_intb (a + b) then Some (a + b) else None.
Definition isub (a b : Z) : option Z := if in_intb (a - b) then Some (a - b) else None.

(** getMaxPriority, getMinPriority: PosixThreadFactory.cpp:114-130, WindowsThreadFactory.cpp:108-124;
    Itron (ItronThreadFactory.cpp:359-377) and StdCpp (StdCppThreadFactory.cpp:240-258) return constants of that form *)
Definition max_priority (lowest highest : Z) : Z := if lowest <? highest then highest else lowest.
Definition min_priority (lowest highest : Z) : Z := if lowest <? highest then lowest else highest.
(** Thread.cpp:193-197 *)
Definition normal_priority (lowest highest : Z) : option Z :=
  match iadd (min_priority lowest highest) (max_priority lowest highest) with Some s => Some (Z.quot s 2) | None => None end.
(** Thread.cpp:211-230 *)
Definition priority_higher_than (lowest highest base d : Z) : option Z :=
  match (if lowest <? highest then iadd base d else isub base d) with
  | None => None
  | Some ret =>
      let mn := min_priority lowest highest in
      if ret <=? mn then Some mn
      else let mx := max_priority lowest highest in
      if ret >=? mx then Some mx else Some ret
  end.

Definition pmap := list (Z * Z).
Fixpoint lookup (m : pmap) (k : Z) : option Z :=
  match m with [] => None | (k', v) :: m' => if k' =? k then Some v else lookup m' k end.
(** unordered_map::insert *)
Definition insert (m : pmap) (k v : Z) : pmap := match lookup m k with Some _ => m | None => (k, v) :: m end.

(** for (int i = from; i < from + n; ++i) { insert(i, val(x)); x = next(x) } *)
Fixpoint up (n : nat) (i x : Z) (val next : Z -> Z) (m : pmap) : pmap :=
  match n with O => m | S n' => up n' (i + 1) (next x) val next (insert m i (val x)) end.
(** for (int i = from; i > from - n; --i) ... *)
Fixpoint down (n : nat) (i x : Z) (val next : Z -> Z) (m : pmap) : pmap :=
  match n with O => m | S n' => down n' (i - 1) (next x) val next (insert m i (val x)) end.
Definition count (x : Z) : nat := Z.to_nat x.
Definition keep (x : Z) : Z := x.

(** PosixThreadFactory.cpp:70-107; [dflt]: m_defaultPriority, [pmin], [pmax]: sched_get_priority_min / max of SCHED_RR *)
Definition posix_table (dflt pmin pmax lowest highest : Z) : pmap :=
  let mid := Z.quot (lowest + highest) 2 in
  let bump := fun p => if p <? pmax then p + 1 else p in
  if lowest <? highest then
    let m := up (count (highest - mid)) (mid + 1) pmin keep bump [] in                                   (* 83-89 *)
    down (count (mid - lowest + 1)) mid dflt keep keep m                                                 (* 91-93 *)
  else
    let m := up (count (lowest - mid + 1)) mid dflt keep keep [] in                                      (* 95-97 *)
    down (count (mid - highest)) (mid - 1) pmin keep bump m.                                             (* 99-105 *)

(** winbase.h *)
Definition TIME_CRITICAL : Z := 15.
Definition HIGHEST : Z := 2.
Definition NORMAL : Z := 0.
Definition LOWEST : Z := -2.
Definition IDLE : Z := -15.
(** WindowsThreadFactory.cpp:58-101 *)
Definition windows_table (lowest highest : Z) : pmap :=
  let m := insert (insert [] highest TIME_CRITICAL) lowest IDLE in                                       (* 64-65 *)
  let mid := Z.quot (lowest + highest) 2 in                                                              (* 67 *)
  let more := fun d => if NORMAL + d <? HIGHEST then d + 1 else d in
  let less := fun d => if NORMAL - d >? LOWEST then d + 1 else d in
  if lowest <? highest then
    let m := up (count (highest - mid)) mid 0 (fun d => NORMAL + d) more m in                            (* 69-75 *)
    down (count (mid - 1 - lowest)) (mid - 1) 1 (fun d => NORMAL - d) less m                             (* 77-83 *)
  else
    let m := up (count (lowest - mid)) mid 0 (fun d => NORMAL - d) less m in                             (* 85-91 *)
    down (count (mid - 1 - highest)) (mid - 1) 1 (fun d => NORMAL + d) more m.                           (* 93-99 *)

(** what setPriorityRange does with int arithmetic: 80-105 evaluate lowest + highest and step one past either end *)
Definition posix_range (dflt pmin pmax lowest highest : Z) : option pmap :=
  if in_intb (lowest + highest) && in_intb (max_priority lowest highest + 1) && in_intb (min_priority lowest highest - 1)
  then Some (posix_table dflt pmin pmax lowest highest) else None.
(** WindowsThreadFactory.cpp:67; the loops stay inside the range *)
Definition windows_range (lowest highest : Z) : option pmap :=
  if in_intb (lowest + highest) then Some (windows_table lowest highest) else None.
