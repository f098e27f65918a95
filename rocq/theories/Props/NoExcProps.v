(** C64: containers in a build with CPPELIB_NO_EXCEPTIONS.
    [nx_run step s os]: a program without exceptions makes the calls [os]; [true] at the end = the program was ended by a failed assertion whose
    handler did not return; None = undefined behaviour.  [stop_run] (Spec/StopSpec.v): the same on a mathematical sequence. *)
From Verif Require Import Base.ZList Spec.SeqSpec Spec.StopSpec Container.Mem Container.VectorModel Container.VectorTheorems
  Container.DequeModel Container.DequeTheorems Container.ArrayModel Container.NoExcModel Container.NoExcProofs Assertion.AssertionModel.

(** With an AssertHandler that never returns: every history is that of the bounded sequence, up to the first call that would throw; that call
    ends the program and leaves the contents as they were.  Missing from the full property: the same without such a handler (refuted below). *)
Theorem c64_vector_no_exceptions_partial :
  forall (V : Type) (cap : Z) (torn dflt : V) (dbg : bool) (beh : nat -> hbeh) (h : nat) (os : list (op V)),
    0 <= cap < 2 ^ 63 -> beh h = HNever -> stop_pres dflt cap dbg false [] os ->
    exists s, nx_run (v_step_nx beh (Some h) cap torn dflt dbg) v_init os =
                Some (fst (fst (stop_run dflt cap [] os)), s, snd (stop_run dflt cap [] os)) /\
              v_holds cap s (snd (fst (stop_run dflt cap [] os))).
Proof. exact @v_nx_history. Qed.
Print Assumptions c64_vector_no_exceptions_partial.
Theorem c64_deque_no_exceptions_partial :
  forall (V : Type) (cap : Z) (torn dflt : V) (dbg : bool) (beh : nat -> hbeh) (h : nat) (os : list (op V)),
    0 <= cap /\ cap + 1 < 2 ^ 63 -> beh h = HNever -> stop_pres dflt cap dbg true [] os ->
    exists s, nx_run (d_step_nx beh (Some h) cap torn dflt dbg) d_init os =
                Some (fst (fst (stop_run dflt cap [] os)), s, snd (stop_run dflt cap [] os)) /\
              d_holds cap s (snd (fst (stop_run dflt cap [] os))).
Proof. exact @d_nx_history. Qed.
Print Assumptions c64_deque_no_exceptions_partial.
Example c64_case :
  let os := [PushBack 1; PushBack 2; At 1; InsertN 0 2 9; Size] in
  stop_pres 0 3 true false [] os /\ stop_pres 0 3 true true [] os /\
  stop_run 0 3 [] os = ([OUnit; OUnit; OVal 2], [1; 2], true) /\
  (fun _ : nat => HNever) 0%nat = HNever.
Proof. repeat split; vm_compute; repeat split; congruence. Qed.

(** Any call with any arguments in a debug build, with such a handler: it does what it should, or ends the program before anything is changed,
    and that only for a broken precondition or where the other build throws.  Deque: iterators within the ring, as in C53. *)
Theorem c64_vector_misuse_ends_the_program :
  forall (V : Type) (cap : Z) (torn dflt : V) (beh : nat -> hbeh) (h : nat) (s : st V) (l : list V) (o : op V),
    0 <= cap < 2 ^ 63 -> beh h = HNever -> v_holds cap s l -> fuse s = None -> v_typed o ->
    match v_step_nx beh (Some h) cap torn dflt true o s with
    | Ok r s' => seq_pre true false l o /\ r = fst (seq_step dflt cap l o) /\ v_holds cap s' (snd (seq_step dflt cap l o))
    | AssertFail s' => (~ seq_pre true false l o \/ exists e, fst (seq_step dflt cap l o) = OExn e) /\ v_holds cap s' l
    | _ => False
    end.
Proof. exact @v_nx_debug. Qed.
Print Assumptions c64_vector_misuse_ends_the_program.
Theorem c64_deque_misuse_ends_the_program_partial :
  forall (V : Type) (cap : Z) (torn dflt : V) (beh : nat -> hbeh) (h : nat) (s : st V) (l : list V) (o : op V),
    0 <= cap /\ cap + 1 < 2 ^ 63 -> beh h = HNever -> d_holds cap s l -> fuse s = None -> d_typed cap o ->
    match d_step_nx beh (Some h) cap torn dflt true o s with
    | Ok r s' => seq_pre true true l o /\ r = fst (seq_step dflt cap l o) /\ d_holds cap s' (snd (seq_step dflt cap l o))
    | AssertFail s' => (~ seq_pre true true l o \/ exists e, fst (seq_step dflt cap l o) = OExn e) /\ d_holds cap s' l
    | _ => False
    end.
Proof. exact @d_nx_debug. Qed.
Print Assumptions c64_deque_misuse_ends_the_program_partial.

(** Array::at *)
Theorem c64_array_at :
  forall (V : Type) (beh : nat -> hbeh) (handler : option nat) (Size : Z) (m : list V) (idx : Z) (d : V),
    Z.of_nat (length m) = Size -> 0 <= idx ->
    arr_at_nx beh handler Size m idx =
      if idx <? Size then Some (ArrOk (nth (Z.to_nat idx) m d))
      else match handler with
           | Some h => match beh h with HReturns => Some ArrUB | _ => None end
           | None => Some ArrUB
           end.
Proof. exact @arr_nx_at. Qed.
Print Assumptions c64_array_at.

(** Without a handler, or with one that returns, the call goes on: push_back on any full vector constructs beyond the buffer, at() beyond
    size() reads there or reads raw memory. *)
Theorem c64_vector_without_handler_refuted :
  forall (V : Type) (beh : nat -> hbeh) (handler : option nat) (cap : Z) (torn dflt : V) (dbg : bool) (s : st V) (l : list V) (v : V) (i : Z),
    goes_on beh handler -> v_holds cap s l ->
    (lenz l = cap -> v_step_nx beh handler cap torn dflt dbg (PushBack v) s = UB) /\
    (lenz l <= i -> v_step_nx beh handler cap torn dflt dbg (At i) s = UB).
Proof. exact (fun V beh handler cap torn dflt dbg s l v i G H =>
  conj (v_nx_push_full beh handler cap torn dflt dbg s l v G H) (v_nx_at beh handler cap torn dflt dbg s l i G H)). Qed.
Print Assumptions c64_vector_without_handler_refuted.
(** push_back or push_front on any full deque uses the spare slot and returns normally with size() = 0: every element is lost (and never
    destroyed). *)
Theorem c64_deque_without_handler_refuted :
  forall (V : Type) (beh : nat -> hbeh) (handler : option nat) (cap : Z) (torn dflt : V) (dbg front : bool) (s : st V) (l : list V) (v : V),
    0 <= cap /\ cap + 1 < 2 ^ 63 -> goes_on beh handler -> d_holds cap s l -> fuse s = None -> lenz l = cap ->
    exists s', d_step_nx beh handler cap torn dflt dbg (if front then PushFront v else PushBack v) s = Ok OUnit s' /\
      d_size (cap + 1) s' = Ok 0 s' /\ forall i, 0 <= i <= cap -> mem s' i <> None.
Proof. exact @d_nx_push_full. Qed.
Print Assumptions c64_deque_without_handler_refuted.
Example c64_case_without_handler :
  goes_on (fun _ => HReturns) None /\
  nx_run (v_step_nx (fun _ => HReturns) None 2 0 0 true) v_init [PushBack 1; PushBack 2; PushBack 3] = None /\
  option_map (fun x => fst (fst x)) (nx_run (d_step_nx (fun _ => HReturns) None 2 0 0 true) d_init [PushBack 1; PushBack 2; PushBack 3; Size; ReadAll])
    = Some [OUnit; OUnit; OUnit; ONum 0; OList []].
Proof. repeat split. Qed.
