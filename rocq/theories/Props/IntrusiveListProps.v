(** Properties of IntrusiveList (C19-C22, C54).  Spec: Spec/ListFamSpec.v.  [after os] is the family of lists the
    history [os] gives on mathematical sequences; [l_run dbg N h0 os] executes it on links, every loop being given at
    most N iterations; dbg: assertions compiled in. *)
From Coq Require Import List Arith Bool Lia.
Import ListNotations.
From Verif Require Import Spec.ListFamSpec Container.IntrusiveListModel Container.IntrusiveListTheorems.

(** C19 *)
Theorem c19_list_refines_sequences :
  forall (dbg : bool) (os : list lop), lpres dbg F0 os ->
    exists N0, forall N, N0 <= N -> exists h, l_run dbg N h0 os = Some (fst (lspec_run F0 os), h).
Proof. exact history. Qed.
Print Assumptions c19_list_refines_sequences.
Example c19_case :
  lpres true F0 (sample ++ [LForward 0; LErase 0 10; LPopBack 1; LSpliceAll 0 11 1; LSize 0; LEmpty 1; LFront 0; LBack 0; LForward 0]) /\
  match l_run true 20 h0 (sample ++ [LForward 0; LErase 0 10; LPopBack 1; LSpliceAll 0 11 1; LSize 0; LEmpty 1; LFront 0; LBack 0; LForward 0]) with
  | Some (outs, _) => skipn 8 outs = [LSeq [12; 10; 13; 11]; LIter 13; LUnit; LUnit; LNum 4; LBool true; LIter 12; LIter 11; LSeq [12; 13; 20; 11]]
  | None => False
  end.
Proof. split; [|vm_compute; reflexivity]. solve_pre. Qed.

(** C20: a list that is not an argument of a call is not changed by it, in either direction of traversal *)
Theorem c20_other_lists_unchanged :
  forall (dbg : bool) (os : list lop) (o : lop) (u : nat),
    lpres dbg F0 (os ++ [o]) -> live (after os) u -> ~ In u (largs o) ->
    exists N0, forall N, N0 <= N -> exists r l h,
      l_run dbg N h0 (os ++ [LForward u; LBackward u; o; LForward u; LBackward u]) =
      Some (fst (lspec_run F0 os) ++ [LSeq l; LSeq (rev l); r; LSeq l; LSeq (rev l)], h).
Proof. exact frame. Qed.
Print Assumptions c20_other_lists_unchanged.
Theorem c20_each_element_in_one_place :
  forall (dbg : bool) (os : list lop), lpres dbg F0 os ->
    (forall t l, after os t = Some l -> NoDup (t :: l)) /\
    (forall t u l m n, t <> u -> after os t = Some l -> after os u = Some m -> In n (t :: l) -> ~ In n (u :: m)).
Proof. exact disjoint. Qed.
Print Assumptions c20_each_element_in_one_place.
(** an erased element is in no list, so it may be inserted again: [unused] is the precondition of insert *)
Theorem c20_erased_can_be_reinserted :
  forall (dbg : bool) (os : list lop) (t pos u q : nat),
    lpres dbg F0 (os ++ [LErase t pos]) -> live (after (os ++ [LErase t pos])) u -> is_pos (after (os ++ [LErase t pos])) u q ->
    exists N0, forall N, N0 <= N -> exists outs h,
      l_run dbg N h0 ((os ++ [LErase t pos]) ++ [LInsert u q pos; LForward u]) =
      Some (outs ++ [LIter pos; LSeq (before q (contents (after (os ++ [LErase t pos])) u) ++ pos :: from q (contents (after (os ++ [LErase t pos])) u))], h).
Proof. exact reinsert. Qed.
Print Assumptions c20_erased_can_be_reinserted.
Example c20_case :
  lpres true F0 (sample ++ [LErase 0 10]) /\ live (after sample) 1 /\ ~ In 1 (largs (LErase 0 10)) /\
  live (after (sample ++ [LErase 0 10])) 1 /\ is_pos (after (sample ++ [LErase 0 10])) 1 21 /\
  match l_run true 20 h0 ((sample ++ [LErase 0 10]) ++ [LInsert 1 21 10; LForward 1; LForward 0]) with
  | Some (outs, _) => skipn 9 outs = [LIter 10; LSeq [20; 10; 21]; LSeq [12; 13; 11]]
  | None => False
  end.
Proof. split; [solve_pre|]. split; [solve_pre|]. split; [cbn; lia|]. split; [solve_pre|]. split; [solve_pre|]. vm_compute. reflexivity. Qed.

(** C21: the range M of x is moved before position pos of t (pos = end() when D is empty), whatever surrounds it *)
Theorem c21_splice_from_another_list :
  forall (dbg : bool) (os : list lop) (t x : nat) (P M R C D : list nat),
    lpres dbg F0 os -> t <> x -> after os x = Some (P ++ M ++ R) -> after os t = Some (C ++ D) -> M <> [] ->
    exists N0, forall N, N0 <= N -> exists h,
      l_run dbg N h0 (os ++ [LSpliceRange t (hd t D) x (hd x M) (hd x R); LForward t; LForward x]) =
      Some (fst (lspec_run F0 os) ++ [LUnit; LSeq (C ++ M ++ D); LSeq (P ++ R)], h).
Proof. exact splice_other. Qed.
Print Assumptions c21_splice_from_another_list.
Theorem c21_splice_backward_in_same_list :
  forall (dbg : bool) (os : list lop) (t : nat) (P Q M R : list nat),
    lpres dbg F0 os -> after os t = Some (P ++ Q ++ M ++ R) -> Q <> [] -> M <> [] ->
    exists N0, forall N, N0 <= N -> exists h,
      l_run dbg N h0 (os ++ [LSpliceRange t (hd t Q) t (hd t M) (hd t R); LForward t]) =
      Some (fst (lspec_run F0 os) ++ [LUnit; LSeq (P ++ M ++ Q ++ R)], h).
Proof. exact splice_same_backward. Qed.
Print Assumptions c21_splice_backward_in_same_list.
Theorem c21_splice_forward_in_same_list :
  forall (dbg : bool) (os : list lop) (t : nat) (P M Q R : list nat),
    lpres dbg F0 os -> after os t = Some (P ++ M ++ Q ++ R) -> M <> [] ->
    exists N0, forall N, N0 <= N -> exists h,
      l_run dbg N h0 (os ++ [LSpliceRange t (hd t R) t (hd t M) (hd t (Q ++ R)); LForward t]) =
      Some (fst (lspec_run F0 os) ++ [LUnit; LSeq (P ++ Q ++ M ++ R)], h).
Proof. exact splice_same_forward. Qed.
Print Assumptions c21_splice_forward_in_same_list.
Theorem c21_splice_one_element :
  forall (dbg : bool) (os : list lop) (t x i : nat) (P R C D : list nat),
    lpres dbg F0 os -> t <> x -> after os x = Some (P ++ i :: R) -> after os t = Some (C ++ D) ->
    exists N0, forall N, N0 <= N -> exists h,
      l_run dbg N h0 (os ++ [LSpliceOne t (hd t D) x i; LForward t; LForward x]) =
      Some (fst (lspec_run F0 os) ++ [LUnit; LSeq (C ++ i :: D); LSeq (P ++ R)], h).
Proof. exact splice_one_other. Qed.
Print Assumptions c21_splice_one_element.
Theorem c21_splice_whole_list :
  forall (dbg : bool) (os : list lop) (t x : nat) (M C D : list nat),
    lpres dbg F0 os -> t <> x -> after os x = Some M -> after os t = Some (C ++ D) ->
    exists N0, forall N, N0 <= N -> exists h,
      l_run dbg N h0 (os ++ [LSpliceAll t (hd t D) x; LForward t; LForward x]) =
      Some (fst (lspec_run F0 os) ++ [LUnit; LSeq (C ++ M ++ D); LSeq []], h).
Proof. exact splice_whole. Qed.
Print Assumptions c21_splice_whole_list.
Theorem c21_swap :
  forall (dbg : bool) (os : list lop) (t x tmp : nat) (lt lx : list nat),
    lpres dbg F0 os -> after os t = Some lt -> after os x = Some lx -> unused (after os) tmp ->
    exists N0, forall N, N0 <= N -> exists h,
      l_run dbg N h0 (os ++ [LSwap t x tmp; LForward t; LForward x]) =
      Some (fst (lspec_run F0 os) ++ [LUnit; LSeq lx; LSeq lt], h).
Proof. exact swap_exchanges. Qed.
Print Assumptions c21_swap.
Example c21_case :
  lpres true F0 sample /\ after sample 0 = Some [12; 10; 13; 11] /\ after sample 1 = Some [20; 21] /\ unused (after sample) 2 /\
  match l_run true 20 h0 (sample ++ [LSpliceRange 0 12 0 13 0; LForward 0; LSwap 0 1 2; LForward 0; LForward 1; LSpliceOne 1 10 0 21; LForward 1]) with
  | Some (outs, _) => skipn 8 outs = [LUnit; LSeq [13; 11; 12; 10]; LUnit; LSeq [20; 21]; LSeq [13; 11; 12; 10]; LUnit; LSeq [13; 11; 12; 21; 10]]
  | None => False
  end.
Proof. split; [solve_pre|]. split; [reflexivity|]. split; [reflexivity|]. split; [solve_pre|]. vm_compute. reflexivity. Qed.
(** In a debug build, splicing an empty range at end() (which std::list allows) is rejected by an assertion *)
Theorem c21_empty_range_at_end_asserts :
  forall h t pos x, l_splice_range true t (Some pos) x (Some x) (Some x) h = LAssert h.
Proof. exact empty_range_at_end. Qed.
Print Assumptions c21_empty_range_at_end_asserts.

(** C22 *)
Theorem c22_backward_is_reverse_of_forward :
  forall (dbg : bool) (os : list lop) (t : nat) (l : list nat), lpres dbg F0 os -> after os t = Some l ->
    exists N0, forall N, N0 <= N -> exists h,
      l_run dbg N h0 (os ++ [LForward t; LBackward t; LSize t; LEmpty t]) =
      Some (fst (lspec_run F0 os) ++ [LSeq l; LSeq (rev l); LNum (length l); LBool (match l with [] => true | _ => false end)], h).
Proof. exact traversals. Qed.
Print Assumptions c22_backward_is_reverse_of_forward.
Example c22_case : lpres false F0 sample /\ after sample 0 = Some [12; 10; 13; 11].
Proof. split; [solve_pre|reflexivity]. Qed.

(** C54: copying an element into a new object (d is in no list) does not disturb any list; assigning to an element
    that is in a list does *)
Theorem c54_copy_into_new_object_partial :
  forall (dbg : bool) (os : list lop) (d s : nat), lpres dbg F0 os -> unused (after os) d ->
    forall t, live (after os) t ->
    exists N0, forall N, N0 <= N -> exists outs h h' h'', l_run dbg N h0 os = Some (outs, h) /\
      l_node_assign d s h = LOk tt h' /\
      l_run dbg N h' [LForward t; LBackward t] = Some ([LSeq (contents (after os) t); LSeq (rev (contents (after os) t))], h'').
Proof. exact copy_construct. Qed.
Print Assumptions c54_copy_into_new_object_partial.
(** after [e10 = e11] (both in list 0) the list has lost an element without any list operation being called *)
Theorem c54_assigning_an_element_refuted :
  lpres true F0 sample /\ after sample 0 = Some [12; 10; 13; 11] /\
  match l_run true 20 h0 sample with
  | Some (_, h) => match l_node_assign 10 11 h with
                   | LOk _ h' => match l_run true 20 h' [LForward 0] with Some (r, _) => r = [LSeq [12; 10]] | None => False end
                   | _ => False
                   end
  | None => False
  end.
Proof. exact assign_breaks. Qed.
Print Assumptions c54_assigning_an_element_refuted.
