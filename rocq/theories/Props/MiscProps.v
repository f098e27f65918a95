(** Properties of BitPattern (C23), Array (C08, C24) and Assertion (C25-C27). *)
From Coq Require Import String List ZArith NArith Bool Lia.
Import ListNotations.
From Verif Require Import Spec.Exn Spec.BitSpec Spec.AssertSpec Container.BitPatternModel Container.BitPatternProofs
  Container.ArrayModel Container.ArrayProofs Assertion.AssertionModel Assertion.AssertionProofs Assertion.AssertionMore.
Open Scope Z_scope.

(** C23: for every width w of T (8, 16, 32, 64 and any other), every stored pattern and every history of calls with
    positions below w, no undefined behaviour happens and the object behaves as the list of its bits. *)
Theorem c23_bitpattern_is_a_list_of_bits :
  forall (w : Z), 0 < w -> forall (dbg : bool) (l : list bool) (os : list bop),
    Z.of_nat (length l) = w -> (forall o, In o os -> bpre w o) ->
    exists l' rs, length l' = length l /\ b_run w dbg (value l) os = BOk (value l', rs) /\ bspec_run l os l' rs.
Proof. exact b_run_spec. Qed.
Print Assumptions c23_bitpattern_is_a_list_of_bits.
Theorem c23_stored_value_in_range :
  forall (w : Z), 0 < w -> forall (dbg : bool) (os : list bop) (d : Z),
    0 <= d < 2 ^ w -> (forall o, In o os -> bpre w o) ->
    exists d' rs, b_run w dbg d os = BOk (d', rs) /\ 0 <= d' < 2 ^ w /\ bspec_run (bits w d) os (bits w d') rs.
Proof. exact b_run_ok. Qed.
Print Assumptions c23_stored_value_in_range.
(** a position outside the pattern is caught in a debug build *)
Theorem c23_bad_position_asserts :
  forall (w d pos : Z) (o : bop), w <= pos -> (o = BSet pos \/ o = BReset pos \/ o = BFlip pos \/ o = BTest pos) ->
    b_step w true d o = BAssertFail.
Proof. exact b_debug_assert. Qed.
Print Assumptions c23_bad_position_asserts.
Example c23_case :
  b_run 8 true 0 [BSet 7; BFlipAll; BTest 7; BReset 0; BValue; BSetAll; BAll; BFlip 3; BAll; BAny; BNone; BAssign 200; BValue; BSize] =
  BOk (200, [OUnitB; OUnitB; OBoolB false; OUnitB; OValB 126; OUnitB; OBoolB true; OUnitB; OBoolB false; OBoolB true; OBoolB false; OUnitB; OValB 200; OValB 8]) /\
  b_run 64 true 0 [BSet 63; BValue; BFlipAll; BValue] = BOk (9223372036854775807, [OUnitB; OValB 9223372036854775808; OUnitB; OValB 9223372036854775807]).
Proof. split; reflexivity. Qed.

(** C08 (Array) *)
Theorem c08_array_at :
  forall (V : Type) (Size : Z) (m : list V), Z.of_nat (length m) = Size -> forall (idx : Z) (d : V), 0 <= idx ->
    arr_at Size m idx = if idx <? Size then ArrOk (nth (Z.to_nat idx) m d) else ArrThrow OutOfRange.
Proof. exact @at_ok. Qed.
Print Assumptions c08_array_at.

(** C24 *)
Theorem c24_array_fill :
  forall (V : Type) (Size : Z) (m : list V) (d : V) (fuel : nat), Z.of_nat (length m) = Size -> (length m <= fuel)%nat ->
    arr_fill Size fuel m d = ArrOk (repeat d (length m)).
Proof. exact @fill_ok. Qed.
Print Assumptions c24_array_fill.
Theorem c24_array_equality :
  forall (V : Type) (Size : Z) (eqb : V -> V -> bool), (forall a b, eqb a b = true <-> a = b) ->
    forall (x y : list V) (fuel : nat), Z.of_nat (length x) = Size -> Z.of_nat (length y) = Size -> (length x <= fuel)%nat ->
    exists b, arr_eq Size eqb fuel x y = ArrOk b /\ (b = true <-> x = y) /\ arr_neq Size eqb fuel x y = ArrOk (negb b).
Proof. exact @arr_eq_ok. Qed.
Print Assumptions c24_array_equality.
Theorem c24_array_index :
  forall (V : Type) (Size : Z) (m : list V), Z.of_nat (length m) = Size -> forall (idx : Z) (d : V), 0 <= idx < Size ->
    arr_index m idx = ArrOk (nth (Z.to_nat idx) m d).
Proof. exact @index_ok. Qed.
Print Assumptions c24_array_index.
Theorem c24_array_iteration :
  forall (V : Type) (Size : Z) (m : list V), Z.of_nat (length m) = Size -> forall d : V,
    arr_size Size = Z.of_nat (length m) /\ arr_empty Size = match m with [] => true | _ => false end /\
    arr_end Size - arr_begin = Z.of_nat (length m) /\
    forall k, (k < length m)%nat -> a_load m (arr_begin + Z.of_nat k) = ArrOk (nth k m d).
Proof. exact @iteration_ok. Qed.
Print Assumptions c24_array_iteration.
Theorem c24_array_front_back :
  forall (V : Type) (Size : Z) (m : list V), Z.of_nat (length m) = Size -> forall d : V, 0 < Size ->
    arr_front m = ArrOk (hd d m) /\ arr_back Size m = ArrOk (last m d).
Proof. exact @front_back_ok. Qed.
Print Assumptions c24_array_front_back.
Example c24_case :
  arr_fill 3 3 [1; 2; 3] 7 = ArrOk [7; 7; 7] /\ arr_eq 3 Z.eqb 3 [1; 2; 3] [1; 2; 4] = ArrOk false /\
  arr_back 3 [1; 2; 3] = ArrOk 3 /\ arr_at 3 [1; 2; 3] 3 = ArrThrow OutOfRange.
Proof. repeat split. Qed.

(** C25: [None] would be a write outside a buffer; the message is the longest prefix of the full text that fits *)
Theorem c25_message_is_safe_truncation :
  forall (bufsize : nat) (lineBuf0 tmp0 file : list nat) (line : Z) (expr : list nat),
    (1 <= bufsize)%nat -> length lineBuf0 = 16%nat -> length tmp0 = 16%nat -> cstring file -> cstring expr ->
    1 <= line < 2 ^ 31 ->
    exists buf ls, failure_buf bufsize lineBuf0 tmp0 file line expr = Some buf /\ length buf = bufsize /\
      is_decimal ls (Z.to_N line) /\ c_str buf = Some (firstn (bufsize - 1) (full_message file ls expr)).
Proof. exact failure_message_line. Qed.
Print Assumptions c25_message_is_safe_truncation.
(** also for the line numbers a program can only make with #line or a direct call *)
Theorem c25_no_overflow_for_any_line :
  forall (bufsize : nat) (lineBuf0 tmp0 file : list nat) (line : Z) (expr : list nat),
    (1 <= bufsize)%nat -> length lineBuf0 = 16%nat -> length tmp0 = 16%nat -> cstring file -> cstring expr ->
    exists buf s, failure_buf bufsize lineBuf0 tmp0 file line expr = Some buf /\ length buf = bufsize /\ c_str buf = Some s /\ (length s < bufsize)%nat.
Proof. exact failure_safe. Qed.
Print Assumptions c25_no_overflow_for_any_line.
(** the copying of each part: behind any text [A], into any room [C] *)
Theorem c25_copy_into_any_room :
  forall (A C s junk : list nat), cstring s ->
    exists C', copyCString (A ++ C) (length A) (length C) (s ++ 0%nat :: junk) = Some (A ++ C', Nat.min (length s) (length C - 1)) /\
      length C' = length C /\ (C <> [] -> c_str C' = Some (firstn (length C - 1) s)).
Proof. exact copyCString_any. Qed.
Print Assumptions c25_copy_into_any_room.
Example c25_case :
  match failure_buf 512 (repeat 7%nat 16) (repeat 9%nat 16) (chars "a.cpp") 120 (chars "x > 0") with
  | Some b => c_str b = Some (chars "a.cpp(120): Assertion failed (x > 0)") | None => False end /\
  match failure_buf 8 (repeat 7%nat 16) (repeat 9%nat 16) (chars "a.cpp") 120 (chars "x > 0") with
  | Some b => c_str b = Some (chars "a.cpp(1") | None => False end.
Proof. split; vm_compute; reflexivity. Qed.

(** C26 *)
Theorem c26_line_in_decimal_partial :
  forall (lineBuf0 tmp0 : list nat) (line : Z),
    length lineBuf0 = 16%nat -> length tmp0 = 16%nat -> 1 <= line < 2 ^ 32 ->
    exists ls junk, toCString lineBuf0 16 (to_unsigned line) tmp0 = Some (ls ++ 0%nat :: junk) /\ is_decimal ls (Z.to_N line).
Proof. exact line_decimal. Qed.
Print Assumptions c26_line_in_decimal_partial.
(** line 0 is printed as the empty string, which is not a decimal representation of anything *)
Theorem c26_line_zero_refuted :
  forall (lineBuf0 tmp0 : list nat), length lineBuf0 = 16%nat -> length tmp0 = 16%nat ->
    exists buf, toCString lineBuf0 16 (to_unsigned 0) tmp0 = Some buf /\ c_str buf = Some [] /\ ~ is_decimal [] 0%N.
Proof. exact line_zero. Qed.
Print Assumptions c26_line_zero_refuted.
(** the conversion for every buffer, not only the 16 bytes of the library: the digits that fit, terminated, if there are not exactly as many
    digits as bytes *)
Theorem c26_any_buffer_partial :
  forall (buf tmp0 : list nat) (val : N), length tmp0 = 16%nat -> (1 <= val < 2 ^ 32)%N ->
    exists ls, is_decimal ls val /\
      (buf = [] -> toCString buf (length buf) val tmp0 = Some buf) /\
      (buf <> [] -> length ls <> length buf ->
         exists b, toCString buf (length buf) val tmp0 = Some b /\ length b = length buf /\ c_str b = Some (firstn (length buf - 1) ls)) /\
      (length ls = length buf -> toCString buf (length buf) val tmp0 = None).
Proof. exact toCString_any. Qed.
Print Assumptions c26_any_buffer_partial.
(** with as many digits as bytes the terminator is written one byte behind the buffer (a 32-bit line has at most 10 digits, so not with 16) *)
Theorem c26_any_buffer_refuted :
  ~ (forall (buf tmp0 : list nat) (val : N), length tmp0 = 16%nat -> (1 <= val < 2 ^ 32)%N -> exists b, toCString buf (length buf) val tmp0 = Some b).
Proof. intros H. destruct (H [7; 7; 7]%nat (repeat 9%nat 16) 120%N eq_refl ltac:(lia)) as (b & E). discriminate E. Qed.
Print Assumptions c26_any_buffer_refuted.
Example c26_any_case : toCString [7; 7]%nat 2 120%N (repeat 9%nat 16) = Some [49; 0]%nat /\ toCString [7]%nat 1 12%N (repeat 9%nat 16) = Some [0]%nat.
Proof. split; reflexivity. Qed.
Example c26_case :
  match toCString (repeat 7%nat 16) 16 (to_unsigned 4294967295) (repeat 9%nat 16) with
  | Some b => c_str b = Some (chars "4294967295") | None => False end /\ is_decimal (chars "120") 120.
Proof.
  split; [vm_compute; reflexivity|]. split; [discriminate|]. split; [|split; [discriminate|reflexivity]].
  intros c H. cbn in H. unfold is_digit. lia.
Qed.

(** C27: [current pre None] is the handler most recently registered in [pre].  [nox]: CPPELIB_NO_EXCEPTIONS. *)
Theorem c27_failing_check :
  forall (nox : bool) (beh : nat -> hbeh) (pre post : list acall) (msg : list nat),
    (forall ev r, In (ev, r) (a_run nox beh None pre) -> r <> ANoReturn) ->
    nth_error (a_run nox beh None (pre ++ ACheck false msg :: post)) (length pre) =
    Some (match current pre None with
          | None => ([], if nox then AContinue else AThrowFailure msg)
          | Some h => ([ECall h msg],
                       match beh h with
                       | HReturns => if nox then AContinue else AThrowFailure msg
                       | HThrows e => AThrowHandler e
                       | HNever => ANoReturn
                       end)
          end).
Proof. exact failing_check. Qed.
Print Assumptions c27_failing_check.
Theorem c27_control_continues_only_if :
  forall (nox : bool) (beh : nat -> hbeh) (pre post : list acall) (msg : list nat) (ev : list aevent),
    (forall ev r, In (ev, r) (a_run nox beh None pre) -> r <> ANoReturn) ->
    nth_error (a_run nox beh None (pre ++ ACheck false msg :: post)) (length pre) = Some (ev, AContinue) ->
    nox = true /\ (current pre None = None \/ exists h, current pre None = Some h /\ beh h = HReturns).
Proof. exact continues_only_if. Qed.
Print Assumptions c27_control_continues_only_if.
Theorem c27_passing_check :
  forall (nox : bool) (beh : nat -> hbeh) (pre post : list acall) (msg : list nat),
    (forall ev r, In (ev, r) (a_run nox beh None pre) -> r <> ANoReturn) ->
    nth_error (a_run nox beh None (pre ++ ACheck true msg :: post)) (length pre) = Some ([], AContinue) /\
    firstn (length pre) (a_run nox beh None (pre ++ ACheck true msg :: post)) ++ skipn (S (length pre)) (a_run nox beh None (pre ++ ACheck true msg :: post)) =
    a_run nox beh None (pre ++ post).
Proof. exact passing_check. Qed.
Print Assumptions c27_passing_check.
Example c27_case :
  let beh := fun h => match h with 1%nat => HReturns | 2%nat => HThrows 5 | _ => HNever end in
  a_run false beh None [ACheck false [1%nat]; ASetHandler (Some 1%nat); ACheck true [2%nat]; ACheck false [3%nat]; ASetHandler (Some 2%nat); ACheck false [4%nat]] =
  [([], AThrowFailure [1%nat]); ([], AContinue); ([], AContinue); ([ECall 1 [3%nat]], AThrowFailure [3%nat]); ([], AContinue); ([ECall 2 [4%nat]], AThrowHandler 5)].
Proof. reflexivity. Qed.
