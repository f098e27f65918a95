(** Property C78: IntrusiveList in debug builds.  As in Props/IntrusiveListProps: [after os] is the family of lists the history [os] gives on
    mathematical sequences, [l_run true N h0 os] executes it on links with assertions compiled in; [lpre true F o] is the contract of call [o].
    LAssert h: an assertion failed, the links of all nodes being [h]. *)
From Coq Require Import List Arith Bool Lia.
Import ListNotations.
From Verif Require Import Spec.ListFamSpec Spec.ListMisuseSpec Container.IntrusiveListModel Container.IntrusiveListTheorems Container.IntrusiveListMisuse.

(** an assertion fails only when the contract was violated, and before the call has changed anything *)
Theorem c78_assertion_means_misuse :
  forall (os : list lop) (N : nat) (outs : list lout) (h : heap), lpres true F0 os -> l_run true N h0 os = Some (outs, h) ->
  forall (o : lop) (h' : heap), (forall t x tmp, o <> LSwap t x tmp) -> l_step true N o h = LAssert h' -> ~ lpre true (after os) o /\ h' = h.
Proof. exact only_misuse. Qed.
Print Assumptions c78_assertion_means_misuse.
(** exactly the violations in Spec/ListMisuseSpec.[caught] are noticed: a call that needs an element, on an empty list; a list spliced into
    itself; an element, or a range that begins, at end() *)
Theorem c78_what_is_caught_partial :
  forall (os : list lop) (N : nat) (outs : list lout) (h : heap), lpres true F0 os -> l_run true N h0 os = Some (outs, h) ->
  forall o : lop, (forall t x tmp, o <> LSwap t x tmp) -> on_live_lists (after os) o -> (l_step true N o h = LAssert h <-> caught (after os) o).
Proof. exact caught_iff. Qed.
Print Assumptions c78_what_is_caught_partial.
(** every use of an iterator that points to nothing (None), which is undefined behaviour (LUB) in release builds *)
Theorem c78_null_iterator_caught :
  forall (h : heap) (d t x : nat) (p q : option nat),
    i_inc true None h = LAssert h /\ i_dec true None h = LAssert h /\ i_deref true None h = LAssert h /\ l_insert true None d h = LAssert h /\ l_erase true t None h = LAssert h /\
    l_splice_range true t None x p q h = LAssert h /\ l_splice_range true t p x None q h = LAssert h /\ l_splice_range true t p x q None h = LAssert h.
Proof. exact null_caught. Qed.
Print Assumptions c78_null_iterator_caught.
Theorem c78_null_iterator_in_release_builds :
  forall (h : heap) (d t : nat),
    i_inc false None h = LUB /\ i_dec false None h = LUB /\ i_deref false None h = LUB /\ l_insert false None d h = LUB /\ l_erase false t None h = LUB.
Proof. exact null_unchecked. Qed.
Print Assumptions c78_null_iterator_in_release_builds.
(** what is not caught: erase(end()) of a list that is not empty - here with one element; size() never ends afterwards ... *)
Theorem c78_erase_end_caught_refuted :
  lpres true F0 [LNew 0; LPushBack 0 10] /\ ~ lpre true (after [LNew 0; LPushBack 0 10]) (LErase 0 0) /\
  forall N, exists outs h, l_run true N h0 [LNew 0; LPushBack 0 10; LErase 0 0] = Some (outs, h) /\ l_step true N (LSize 0) h = LDiverge.
Proof.
  split; [solve_pre|]. split; [|exact erase_end_hangs]. cbn. intros (_ & [X|[]]). discriminate.
Qed.
Print Assumptions c78_erase_end_caught_refuted.
(** ... and inserting an element that is in the list already: of 10, 11 and again 10 only 10 is left *)
Theorem c78_insert_twice_caught_refuted :
  lpres true F0 [LNew 0; LPushBack 0 10; LPushBack 0 11] /\ ~ lpre true (after [LNew 0; LPushBack 0 10; LPushBack 0 11]) (LPushBack 0 10) /\
  exists h, l_run true 9 h0 [LNew 0; LPushBack 0 10; LPushBack 0 11; LPushBack 0 10; LForward 0] = Some ([LUnit; LUnit; LUnit; LUnit; LSeq [10]], h).
Proof.
  split; [solve_pre|]. split.
  - cbn. intros (_ & X). destruct (X 0 [10; 11] eq_refl) as (_ & Y). apply Y. now left.
  - destruct (l_run true 9 h0 [LNew 0; LPushBack 0 10; LPushBack 0 11; LPushBack 0 10; LForward 0]) as [[outs h]|] eqn:E; [|vm_compute in E; discriminate].
    exists h. vm_compute in E. injection E as <- <-. reflexivity.
Qed.
Print Assumptions c78_insert_twice_caught_refuted.
Example c78_case :
  lpres true F0 (sample ++ [LPopFront 1; LPopFront 1]) /\ after (sample ++ [LPopFront 1; LPopFront 1]) 1 = Some [] /\
  on_live_lists (after (sample ++ [LPopFront 1; LPopFront 1])) (LSpliceOne 0 10 1 1) /\
  match l_run true 20 h0 (sample ++ [LPopFront 1; LPopFront 1]) with
  | Some (outs, h) => match l_step true 20 (LPopFront 1) h with LAssert _ => True | _ => False end /\
                      match l_step true 20 (LSpliceOne 0 10 1 1) h with LAssert _ => True | _ => False end
  | None => False
  end.
Proof.
  split; [solve_pre|]. split; [reflexivity|]. split; [|vm_compute; split; exact I].
  split; [discriminate|]. split; [discriminate|]. exists 1. split; [discriminate|now left].
Qed.
