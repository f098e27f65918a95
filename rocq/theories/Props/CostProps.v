(** Property theorems C80: what the operations of FixedVector, PreallocatedVector, FixedDeque and PreallocatedDeque cost
    and what they leave alone.
    [arm (Some k) s] is object s whose element type allows k more copies (constructions and assignments): the next one
    throws ElemExn.  [copies deque cap l o] and [stays deque cap l o i] (Spec/CopySpec.v) are the prescribed number of
    copies and the elements to be left alone.  [same_but z s t]: t is equal to s but for what slot z holds, which may be
    anything, raw storage included.  Slot i of a vector is data()[i], slot (mb s + i) mod (cap + 1) is the address of
    element i of a deque. *)
From Verif Require Import Base.ZList Spec.SeqSpec Spec.CopySpec Container.Mem Container.VectorModel Container.VectorTheorems
  Container.DequeModel Container.DequeTheorems Container.CostTheorems Container.CostRuns.

(** C80: exactly [copies] elements are copied by a call: with fewer allowed it fails for the element's reason, with that
    many it completes and exactly so many are used up; a call that reports BadAlloc or OutOfRange uses none *)
Theorem c80_vector_copies_exact :
  forall (V : Type) (cap : Z) (torn dflt : V) (dbg : bool) (s : st V) (l : list V) (o : op V) (k : nat),
    0 <= cap < 2 ^ 63 -> v_holds cap s l -> seq_pre dbg false l o ->
    match v_step cap torn dflt dbg o (arm (Some k) s) with
    | Ok r s' => r = fst (seq_step dflt cap l o) /\ v_holds cap s' (snd (seq_step dflt cap l o)) /\
                 copies false cap l o <= Z.of_nat k /\
                 fuse s' = Some (Z.to_nat (Z.of_nat k - copies false cap l o))
    | Thr ElemExn _ => Z.of_nat k < copies false cap l o
    | Thr e s' => fst (seq_step dflt cap l o) = OExn e /\ copies false cap l o = 0 /\ s' = arm (Some k) s
    | _ => False
    end.
Proof. exact (fun V cap torn dflt dbg s l o k H => v_copies_exact torn dflt dbg cap H s l o k). Qed.
Print Assumptions c80_vector_copies_exact.

Theorem c80_deque_copies_exact :
  forall (V : Type) (cap : Z) (torn dflt : V) (dbg : bool) (s : st V) (l : list V) (o : op V) (k : nat),
    0 <= cap /\ cap + 1 < 2 ^ 63 -> d_holds cap s l -> seq_pre dbg true l o ->
    match d_step cap (cap + 1) torn dflt dbg o (arm (Some k) s) with
    | Ok r s' => r = fst (seq_step dflt cap l o) /\ d_holds cap s' (snd (seq_step dflt cap l o)) /\
                 copies true cap l o <= Z.of_nat k /\
                 fuse s' = Some (Z.to_nat (Z.of_nat k - copies true cap l o))
    | Thr ElemExn _ => Z.of_nat k < copies true cap l o
    | Thr e s' => fst (seq_step dflt cap l o) = OExn e /\ copies true cap l o = 0 /\ s' = arm (Some k) s
    | _ => False
    end.
Proof. exact (fun V cap torn dflt dbg s l o k H => d_copies_exact torn dflt dbg cap H s l o k). Qed.
Print Assumptions c80_deque_copies_exact.

(** a deque of five elements lying across the end of its ring of eight slots *)
Definition ex_ring : st Z :=
  match d_run 7 8 77 0 true d_init
          [PushBack 1; PushBack 2; PushBack 3; PushBack 4; PushBack 5; PopFront; PopFront; PopFront; PushBack 6; PushBack 7; PushBack 8] with
  | Some (_, s) => s
  | None => d_init
  end.
Example c80_ring_case : mb ex_ring = 3 /\ me ex_ring = 0 /\
  map (mem ex_ring) [0; 1; 2; 3; 4; 5; 6; 7] = [None; None; None; Some 4; Some 5; Some 6; Some 7; Some 8].
Proof. vm_compute. repeat split. Qed.
Example c80_copies_case :
  (* near the front a deque moves one element, a vector four (and default-constructs one) *)
  copies true 7 [4; 5; 6; 7; 8] (InsertOne 1 9) = 2 /\ copies false 7 [4; 5; 6; 7; 8] (InsertOne 1 9) = 6 /\
  copies true 7 [4; 5; 6; 7; 8] (EraseRange 3 4) = 1 /\ copies true 7 [4; 5; 6; 7; 8] (EraseOne 1) = 1 /\
  match d_step 7 8 77 0 true (InsertOne 1 9) (arm (Some 2%nat) ex_ring) with
  | Ok r s' => r = OPos 1 /\ mb s' = 2 /\ fuse s' = Some 0%nat
  | _ => False
  end /\
  match d_step 7 8 77 0 true (InsertOne 1 9) (arm (Some 1%nat) ex_ring) with Thr ElemExn _ => True | _ => False end.
Proof. vm_compute. repeat split. Qed.

(** C80: an element that [stays] is neither read nor written nor moved: run from two objects that differ only in that
    element (or in which one has raw storage there), a call does the same, throwing copies included, and leaves the
    element's slot as it was; afterwards that slot is element j's *)
Theorem c80_vector_leaves_alone :
  forall (V : Type) (cap : Z) (torn dflt : V) (dbg : bool) (s : st V) (l : list V) (o : op V) (i j : Z) (f : option nat) (t : st V),
    0 <= cap < 2 ^ 63 -> v_holds cap s l -> seq_pre dbg false l o -> 0 <= i < lenz l -> stays false cap l o i = Some j ->
    same_but i (arm f s) t ->
    match v_step cap torn dflt dbg o (arm f s), v_step cap torn dflt dbg o t with
    | Ok r s1, Ok r2 s2 => r2 = r /\ same_but i s1 s2 /\ mem s1 i = mem s i /\ mem s2 i = mem t i /\ j = i
    | Thr e s1, Thr e2 s2 => e2 = e /\ mem s1 i = mem s i /\ mem s2 i = mem t i
    | _, _ => False
    end.
Proof. exact (fun V cap torn dflt dbg s l o i j f t H => v_untouched torn dflt dbg cap H s l o i j f t). Qed.
Print Assumptions c80_vector_leaves_alone.

Theorem c80_deque_leaves_alone :
  forall (V : Type) (cap : Z) (torn dflt : V) (dbg : bool) (s : st V) (l : list V) (o : op V) (i j : Z) (f : option nat) (t : st V),
    0 <= cap /\ cap + 1 < 2 ^ 63 -> d_holds cap s l -> seq_pre dbg true l o -> 0 <= i < lenz l -> stays true cap l o i = Some j ->
    let z := (mb s + i) mod (cap + 1) in
    same_but z (arm f s) t ->
    match d_step cap (cap + 1) torn dflt dbg o (arm f s), d_step cap (cap + 1) torn dflt dbg o t with
    | Ok r s1, Ok r2 s2 => r2 = r /\ same_but z s1 s2 /\ mem s1 z = mem s z /\ mem s2 z = mem t z /\
                           (mb s1 + j) mod (cap + 1) = z
    | Thr e s1, Thr e2 s2 => e2 = e /\ mem s1 z = mem s z /\ mem s2 z = mem t z
    | _, _ => False
    end.
Proof. exact (fun V cap torn dflt dbg s l o i j f t H => d_untouched torn dflt dbg cap H s l o i j f t). Qed.
Print Assumptions c80_deque_leaves_alone.
(** the element keeps its value as well: the sequence has at j what it had at i *)
Theorem c80_left_alone_keeps_its_value :
  forall (V : Type) (cap : Z) (dflt : V) (dbg deque : bool) (l : list V) (o : op V) (i j : Z),
    seq_pre dbg deque l o -> 0 <= i < lenz l -> stays deque cap l o i = Some j ->
    0 <= j < lenz (snd (seq_step dflt cap l o)) /\ nthz dflt (snd (seq_step dflt cap l o)) j = nthz dflt l i.
Proof. exact (fun V cap dflt dbg deque l o i j => stays_in dflt dbg cap deque l o i j). Qed.
Print Assumptions c80_left_alone_keeps_its_value.
Example c80_stays_case :
  (* insert(begin()+1, 9) into 4 5 6 7 8: the deque leaves 5 6 7 8 where they are, the vector only 4 *)
  map (stays true 7 [4; 5; 6; 7; 8] (InsertOne 1 9)) [0; 1; 2; 3; 4] = [None; Some 2; Some 3; Some 4; Some 5] /\
  map (stays false 7 [4; 5; 6; 7; 8] (InsertOne 1 9)) [0; 1; 2; 3; 4] = [Some 0; None; None; None; None] /\
  (* with element 3 (slot 6) scrapped, the deque's insert does the same *)
  match d_step 7 8 77 0 true (InsertOne 1 9) (mkst (upd (mem ex_ring) 6 None) 3 0 None) with
  | Ok r s' => r = OPos 1 /\ mb s' = 2 /\ mem s' 6 = None /\ mem s' 2 = Some 4 /\ mem s' 3 = Some 9
  | _ => False
  end.
Proof. vm_compute. repeat split. Qed.

(** C80 over histories: [copies_run] copies in all, and an element that stays throughout is where it was *)
Theorem c80_vector_history_copies :
  forall (V : Type) (cap : Z) (torn dflt : V) (dbg : bool) (os : list (op V)) (s : st V) (l : list V) (k : nat),
    0 <= cap < 2 ^ 63 -> v_holds cap s l -> fuse s = Some k -> seq_pres dflt cap dbg false l os ->
    copies_run false cap dflt l os <= Z.of_nat k ->
    exists s', v_run cap torn dflt dbg s os = Some (fst (seq_run dflt cap l os), s') /\
      v_holds cap s' (snd (seq_run dflt cap l os)) /\
      fuse s' = Some (Z.to_nat (Z.of_nat k - copies_run false cap dflt l os)).
Proof. exact (fun V cap torn dflt dbg os s l k H => v_run_budget torn dflt dbg cap H os s l k). Qed.
Print Assumptions c80_vector_history_copies.
Theorem c80_deque_history_copies :
  forall (V : Type) (cap : Z) (torn dflt : V) (dbg : bool) (os : list (op V)) (s : st V) (l : list V) (k : nat),
    0 <= cap /\ cap + 1 < 2 ^ 63 -> d_holds cap s l -> fuse s = Some k -> seq_pres dflt cap dbg true l os ->
    copies_run true cap dflt l os <= Z.of_nat k ->
    exists s', d_run cap (cap + 1) torn dflt dbg s os = Some (fst (seq_run dflt cap l os), s') /\
      d_holds cap s' (snd (seq_run dflt cap l os)) /\
      fuse s' = Some (Z.to_nat (Z.of_nat k - copies_run true cap dflt l os)).
Proof. exact (fun V cap torn dflt dbg os s l k H => d_run_budget torn dflt dbg cap H os s l k). Qed.
Print Assumptions c80_deque_history_copies.
Theorem c80_vector_history_leaves_alone :
  forall (V : Type) (cap : Z) (torn dflt : V) (dbg : bool) (os : list (op V)) (s t : st V) (l : list V) (i j : Z),
    0 <= cap < 2 ^ 63 -> v_holds cap s l -> fuse s = None -> seq_pres dflt cap dbg false l os ->
    0 <= i < lenz l -> stays_run false cap dflt l os i = Some j -> same_but i s t ->
    exists s' t', v_run cap torn dflt dbg s os = Some (fst (seq_run dflt cap l os), s') /\
      v_run cap torn dflt dbg t os = Some (fst (seq_run dflt cap l os), t') /\
      same_but i s' t' /\ mem s' i = mem s i /\ mem t' i = mem t i /\ j = i.
Proof. exact (fun V cap torn dflt dbg os s t l i j H => v_run_untouched torn dflt dbg cap H os s t l i j). Qed.
Print Assumptions c80_vector_history_leaves_alone.
Theorem c80_deque_history_leaves_alone :
  forall (V : Type) (cap : Z) (torn dflt : V) (dbg : bool) (os : list (op V)) (s t : st V) (l : list V) (i j : Z),
    0 <= cap /\ cap + 1 < 2 ^ 63 -> d_holds cap s l -> fuse s = None -> seq_pres dflt cap dbg true l os ->
    0 <= i < lenz l -> stays_run true cap dflt l os i = Some j -> same_but ((mb s + i) mod (cap + 1)) s t ->
    exists s' t', d_run cap (cap + 1) torn dflt dbg s os = Some (fst (seq_run dflt cap l os), s') /\
      d_run cap (cap + 1) torn dflt dbg t os = Some (fst (seq_run dflt cap l os), t') /\
      same_but ((mb s + i) mod (cap + 1)) s' t' /\
      mem s' ((mb s + i) mod (cap + 1)) = mem s ((mb s + i) mod (cap + 1)) /\
      mem t' ((mb s + i) mod (cap + 1)) = mem t ((mb s + i) mod (cap + 1)) /\
      (mb s' + j) mod (cap + 1) = (mb s + i) mod (cap + 1).
Proof. exact (fun V cap torn dflt dbg os s t l i j H => d_run_untouched torn dflt dbg cap H os s t l i j). Qed.
Print Assumptions c80_deque_history_leaves_alone.
Definition ex_costs : list (op Z) :=
  [InsertOne 1 9; PushFront 3; PushBack 2; PopFront; EraseOne 1; InsertRange 0 [10; 11]; EraseRange 4 5; Resize 4 0; Size].
Example c80_history_case :
  seq_pres 0 8 true true [4; 5; 6; 7; 8] ex_costs /\
  map (stays_run true 8 0 [4; 5; 6; 7; 8] ex_costs) [0; 1; 2; 3; 4] = [None; Some 3; None; None; None] /\
  snd (seq_run 0 8 [4; 5; 6; 7; 8] ex_costs) = [10; 11; 4; 5] /\
  copies_run true 8 0 [4; 5; 6; 7; 8] ex_costs = 10.
Proof. split; [repeat split; vm_compute; repeat split; congruence|vm_compute; repeat split]. Qed.

(** C80, what the counts amount to.  A deque inserts and erases one element by copying no more than half of the others *)
Theorem c80_deque_insert_copies_at_most_half :
  forall (V : Type) (cap : Z) (torn dflt : V) (dbg : bool) (s : st V) (l : list V) (p : Z) (v : V) (k : nat),
    0 <= cap /\ cap + 1 < 2 ^ 63 -> d_holds cap s l -> lenz l < cap -> 0 <= p <= lenz l -> lenz l / 2 + 2 <= Z.of_nat k ->
    exists s', d_step cap (cap + 1) torn dflt dbg (InsertOne p v) (arm (Some k) s) = Ok (OPos p) s' /\
               d_holds cap s' (insert_seq l p [v]).
Proof. exact (fun V cap torn dflt dbg s l p v k => d_insert_half torn dflt dbg cap s l p v k). Qed.
Print Assumptions c80_deque_insert_copies_at_most_half.
Theorem c80_deque_erase_copies_at_most_half :
  forall (V : Type) (cap : Z) (torn dflt : V) (dbg : bool) (s : st V) (l : list V) (p : Z) (k : nat),
    0 <= cap /\ cap + 1 < 2 ^ 63 -> d_holds cap s l -> 0 <= p < lenz l -> (lenz l - 1) / 2 <= Z.of_nat k ->
    exists s', d_step cap (cap + 1) torn dflt dbg (EraseOne p) (arm (Some k) s) = Ok (OPos p) s' /\
               d_holds cap s' (erase_seq l p (p + 1)).
Proof. exact (fun V cap torn dflt dbg s l p k => d_erase_half torn dflt dbg cap s l p k). Qed.
Print Assumptions c80_deque_erase_copies_at_most_half.
(** inserting a range at the end of a vector, or at either end of a deque, copies the range and nothing else *)
Theorem c80_vector_insert_at_end :
  forall (V : Type) (cap : Z) (torn dflt : V) (dbg : bool) (s : st V) (l xs : list V) (k : nat),
    0 <= cap < 2 ^ 63 -> v_holds cap s l -> lenz l + lenz xs <= cap ->
    (exists s', v_step cap torn dflt dbg (InsertRange (lenz l) xs) (arm (Some k) s) = Ok OUnit s' /\
                v_holds cap s' (l ++ xs)) <-> lenz xs <= Z.of_nat k.
Proof. exact (fun V cap torn dflt dbg s l xs k => v_insert_end torn dflt dbg cap s l xs k). Qed.
Print Assumptions c80_vector_insert_at_end.
Theorem c80_deque_insert_at_ends :
  forall (V : Type) (cap : Z) (torn dflt : V) (dbg : bool) (s : st V) (l : list V) (p : Z) (xs : list V) (k : nat),
    0 <= cap /\ cap + 1 < 2 ^ 63 -> d_holds cap s l -> lenz l + lenz xs <= cap -> p = 0 \/ p = lenz l ->
    (exists s', d_step cap (cap + 1) torn dflt dbg (InsertRange p xs) (arm (Some k) s) = Ok OUnit s' /\
                d_holds cap s' (insert_seq l p xs)) <-> lenz xs <= Z.of_nat k.
Proof. exact (fun V cap torn dflt dbg s l p xs k => d_insert_end torn dflt dbg cap s l p xs k). Qed.
Print Assumptions c80_deque_insert_at_ends.
(** a deque never needs more copies than a vector with the same contents *)
Theorem c80_deque_never_costlier :
  forall (V : Type) (cap : Z) (torn dflt : V) (dbg : bool) (sv sd : st V) (l : list V) (o : op V) (k : nat) (s' : st V),
    0 <= cap < 2 ^ 63 -> cap + 1 < 2 ^ 63 -> v_holds cap sv l -> d_holds cap sd l -> seq_pre dbg false l o ->
    d_step cap (cap + 1) torn dflt dbg o (arm (Some k) sd) = Thr ElemExn s' ->
    exists s'', v_step cap torn dflt dbg o (arm (Some k) sv) = Thr ElemExn s''.
Proof. exact (fun V cap torn dflt dbg sv sd l o k s' => deque_beats_vector torn dflt dbg cap sv sd l o k s'). Qed.
Print Assumptions c80_deque_never_costlier.
(** push_back and push_front of a deque leave every element at its address: references to elements stay valid *)
Theorem c80_deque_push_keeps_references :
  forall (V : Type) (cap : Z) (torn dflt : V) (dbg : bool) (s : st V) (l : list V) (o : op V) (i : Z) (f : option nat),
    0 <= cap /\ cap + 1 < 2 ^ 63 -> d_holds cap s l -> (exists v, o = PushBack v \/ o = PushFront v) -> 0 <= i < lenz l ->
    exists s' j, (d_step cap (cap + 1) torn dflt dbg o (arm f s) = Ok OUnit s' \/
                  exists e, d_step cap (cap + 1) torn dflt dbg o (arm f s) = Thr e s') /\
      mem s' ((mb s + i) mod (cap + 1)) = mem s ((mb s + i) mod (cap + 1)) /\
      (d_step cap (cap + 1) torn dflt dbg o (arm f s) = Ok OUnit s' ->
       (mb s' + j) mod (cap + 1) = (mb s + i) mod (cap + 1) /\ j = match o with PushFront _ => i + 1 | _ => i end).
Proof. exact (fun V cap torn dflt dbg s l o i f => d_push_keeps torn dflt dbg cap s l o i f). Qed.
Print Assumptions c80_deque_push_keeps_references.
Example c80_bounds_case :
  match d_step 7 8 77 0 true (InsertOne 2 9) (arm (Some 4%nat) ex_ring), d_step 7 8 77 0 true (InsertOne 2 9) (arm (Some 3%nat) ex_ring),
        d_step 7 8 77 0 true (EraseOne 2) (arm (Some 2%nat) ex_ring), d_step 7 8 77 0 true (PushFront 1) (arm (Some 1%nat) ex_ring) with
  | Ok r s1, Thr ElemExn _, Ok r2 s2, Ok r3 s3 =>
      r = OPos 2 /\ fuse s1 = Some 0%nat /\ r2 = OPos 2 /\ fuse s2 = Some 0%nat /\ r3 = OUnit /\ mb s3 = 2 /\
      map (mem s3) [2; 3; 4; 5; 6; 7] = [Some 1; Some 4; Some 5; Some 6; Some 7; Some 8]
  | _, _, _, _ => False
  end.
Proof. vm_compute. repeat split. Qed.

(** C80, a finding.  Calls that insert or erase nothing are not free: insert(pos, 0, x) at position 0 of a vector still assigns every
    element to itself (so it can fail, and costs as much as a real insertion); the same goes for an empty range and, with
    assertions compiled out, for erase(p, p) *)
Theorem c80_inserting_nothing_still_copies :
  copies false 7 [4; 5; 6] (InsertN 0 0 9) = 3 /\ copies false 7 [4; 5; 6] (EraseRange 0 0) = 3 /\
  match v_run 7 77 0 false v_init [PushBack 4; PushBack 5; PushBack 6] with
  | Some (_, s) =>
      match v_step 7 77 0 false (InsertN 0 0 9) (arm (Some 2%nat) s), v_step 7 77 0 false (EraseRange 0 0) (arm (Some 2%nat) s) with
      | Thr ElemExn _, Thr ElemExn _ => True
      | _, _ => False
      end
  | None => False
  end.
Proof. vm_compute. repeat split. Qed.
Print Assumptions c80_inserting_nothing_still_copies.
