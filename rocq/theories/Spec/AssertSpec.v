(** Specification of assertion messages.  A C string is a list of non-zero character codes. *)
From Coq Require Import String Ascii List Arith NArith Bool.
Import ListNotations.

Definition cstring (l : list nat) : Prop := ~ In 0 l.
Fixpoint chars (s : string) : list nat := match s with EmptyString => [] | String a s' => nat_of_ascii a :: chars s' end.

(** the string a NUL-terminated buffer holds; None when there is no terminator in the buffer *)
Fixpoint c_str (buf : list nat) : option (list nat) :=
  match buf with
  | [] => None
  | c :: b => if c =? 0 then Some [] else match c_str b with Some s => Some (c :: s) | None => None end
  end.

(** [s] is the decimal representation of [n]: digits, no leading zero, value n *)
Definition is_digit (c : nat) : Prop := 48 <= c <= 57.
Definition dec_value (s : list nat) : N := fold_left (fun a c => 10 * a + N.of_nat (c - 48))%N s 0%N.
Definition is_decimal (s : list nat) (n : N) : Prop :=
  s <> [] /\ (forall c, In c s -> is_digit c) /\ (hd 48 s = 48 -> length s = 1) /\ dec_value s = n.

Definition full_message (file ls expr : list nat) : list nat :=
  file ++ chars "(" ++ ls ++ chars "): Assertion failed (" ++ expr ++ chars ")".
