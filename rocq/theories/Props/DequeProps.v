(** Property theorems about FixedDeque / PreallocatedDeque.
    [d_run cap (cap+1) torn dflt dbg d_init os] executes the history [os] on the modelled code from a
    default-constructed deque of capacity [cap] (ring of cap+1 slots); [seq_run]/[seq_pres] (Spec/SeqSpec.v) is the
    mathematical sequence; [d_holds cap s l] says that going round the ring from m_begin the first length(l) slots
    are live with l's elements and all the other slots are raw. *)
From Verif Require Import Base.ZList Spec.SeqSpec Container.Mem Container.DequeModel Container.VectorTheorems
  Container.DequeTheorems.

(** a history that wraps the ring in both directions *)
Definition exd_ops : list (op Z) :=
  [PushFront 1; PushFront 2; PushBack 3; InsertOne 1 9; InsertN 3 1 8; ReadAll; PushFront 7; EraseRange 0 2; EraseOne 2;
   PopFront; PushBack 5; PushBack 6; InsertRange 1 [4; 4]; InsertInt 0 (-1) 4; ReadAll; PopBack; At 3; At 4; Resize 5 0;
   ReadAll; AssignRange [1; 2]; Index 1; Front; Back; Size; AvailableSize; IsFull; Clear; IsEmpty].
Ltac ex_pre := repeat split; vm_compute; repeat split; try congruence; try discriminate; auto.

(** C10 *)
Theorem c10_deque_refines_bounded_sequence :
  forall (V : Type) (cap : Z) (torn dflt : V) (dbg : bool) (os : list (op V)),
    0 <= cap /\ cap + 1 < 2 ^ 63 -> seq_pres dflt cap dbg true [] os ->
    exists s, d_run cap (cap + 1) torn dflt dbg d_init os = Some (fst (seq_run dflt cap [] os), s) /\
              d_holds cap s (snd (seq_run dflt cap [] os)).
Proof. exact (fun V cap torn dflt dbg os H => d_refines cap torn dflt dbg H os). Qed.
Print Assumptions c10_deque_refines_bounded_sequence.
Theorem c10_deque_call_from_any_state :
  forall (V : Type) (cap : Z) (torn dflt : V) (dbg : bool) (s : st V) (l : list V) (os : list (op V)),
    0 <= cap /\ cap + 1 < 2 ^ 63 -> d_holds cap s l -> fuse s = None -> seq_pres dflt cap dbg true l os ->
    exists s', d_run cap (cap + 1) torn dflt dbg s os = Some (fst (seq_run dflt cap l os), s') /\
               d_holds cap s' (snd (seq_run dflt cap l os)) /\ fuse s' = None.
Proof. exact (fun V cap torn dflt dbg s l os H => d_run_from cap torn dflt dbg H s l os). Qed.
Print Assumptions c10_deque_call_from_any_state.
Example c10_case :
  seq_pres 0 5 true true [] exd_ops /\
  fst (seq_run 0 5 [] exd_ops) =
    [OUnit; OUnit; OUnit; OPos 1; OUnit; OList [2; 9; 1; 8; 3]; OExn BadAlloc; OPos 0; OPos 2; OUnit; OUnit; OUnit;
     OUnit; OExn BadAlloc; OList [8; 4; 4; 5; 6]; OUnit; OVal 5; OExn OutOfRange; OUnit; OList [8; 4; 4; 5; 0]; OUnit;
     OVal 2; OVal 1; OVal 2; ONum 2; ONum 3; OBool false; OUnit; OBool true].
Proof. split; [ex_pre|reflexivity]. Qed.

(** C11: iterators.  [iter_at (cap+1) b k] is the iterator at logical position k of a deque whose begin index is b. *)
Theorem c11_iterator_arithmetic :
  forall cap b k n, 0 <= cap /\ cap + 1 < 2 ^ 63 -> 0 <= k <= cap -> 0 <= k + n <= cap ->
    it_add (cap + 1) (iter_at (cap + 1) b k) n = iter_at (cap + 1) b (k + n) /\
    it_sub (cap + 1) (iter_at (cap + 1) b k) (- n) = iter_at (cap + 1) b (k + n).
Proof. exact (fun cap b k n H => iter_add cap H b k n). Qed.
Print Assumptions c11_iterator_arithmetic.
Theorem c11_iterator_order :
  forall cap b j k, 0 <= cap /\ cap + 1 < 2 ^ 63 -> 0 <= b <= cap -> 0 <= j <= cap -> 0 <= k <= cap ->
    it_diff (cap + 1) b (iter_at (cap + 1) b j) (iter_at (cap + 1) b k) = j - k /\
    it_lt (cap + 1) b (iter_at (cap + 1) b j) (iter_at (cap + 1) b k) = (j <? k) /\
    it_le (cap + 1) b (iter_at (cap + 1) b j) (iter_at (cap + 1) b k) = (j <=? k) /\
    it_ge (cap + 1) b (iter_at (cap + 1) b j) (iter_at (cap + 1) b k) = (k <=? j) /\
    (iter_at (cap + 1) b j =? iter_at (cap + 1) b k) = (j =? k).
Proof. exact (fun cap b j k H => iter_order cap H b j k). Qed.
Print Assumptions c11_iterator_order.
Theorem c11_begin_end :
  forall (V : Type) cap (s : st V) (l : list V), 0 <= cap /\ cap + 1 < 2 ^ 63 -> d_holds cap s l ->
    mb s = iter_at (cap + 1) (mb s) 0 /\ me s = iter_at (cap + 1) (mb s) (lenz l) /\
    it_diff (cap + 1) (mb s) (me s) (mb s) = lenz l.
Proof. exact (fun V cap s l H => iter_begin_end cap H s l). Qed.
Print Assumptions c11_begin_end.
(** it[n] *)
Theorem c11_iterator_element :
  forall (V : Type) cap (dflt : V) (s : st V) (l : list V) k n,
    0 <= cap /\ cap + 1 < 2 ^ 63 -> d_holds cap s l -> 0 <= k <= lenz l -> 0 <= k + n < lenz l ->
    rd (cap + 1) (it_add (cap + 1) (iter_at (cap + 1) (mb s) k) n) s = Ok (nthz dflt l (k + n)) s.
Proof. exact (fun V cap dflt s l k n H => iter_deref cap H dflt s l k n). Qed.
Print Assumptions c11_iterator_element.
(** a ring of 6 slots whose begin is at 4: position 3 is slot 1, behind the wrap *)
Example c11_case :
  iter_at 6 4 3 = 1 /\ it_add 6 (iter_at 6 4 1) 2 = 1 /\ it_diff 6 4 (iter_at 6 4 3) (iter_at 6 4 1) = 2 /\
  it_lt 6 4 5 1 = true /\ it_sub 6 1 3 = 4.
Proof. repeat split; reflexivity. Qed.

(** C12 *)
Theorem c12_deque_size_bounded :
  forall (V : Type) (cap : Z) (torn dflt : V) (dbg : bool) (os : list (op V)) rs s,
    0 <= cap /\ cap + 1 < 2 ^ 63 -> seq_pres dflt cap dbg true [] os ->
    d_run cap (cap + 1) torn dflt dbg d_init os = Some (rs, s) ->
    exists n, d_size (cap + 1) s = Ok n s /\ 0 <= n <= cap.
Proof. exact (fun V cap torn dflt dbg os rs s H => d_run_bound cap torn dflt dbg H os rs s). Qed.
Print Assumptions c12_deque_size_bounded.
Theorem c12_deque_overflow_atomic :
  forall (V : Type) (cap : Z) (torn dflt : V) (dbg : bool) (s : st V) (l : list V) (o : op V),
    0 <= cap /\ cap + 1 < 2 ^ 63 -> d_holds cap s l -> seq_pre dbg true l o ->
    fst (seq_step dflt cap l o) = OExn BadAlloc ->
    d_step cap (cap + 1) torn dflt dbg o s = Thr BadAlloc s.
Proof. exact (fun V cap torn dflt dbg s l o H => d_overflow cap torn dflt dbg H s l o). Qed.
Print Assumptions c12_deque_overflow_atomic.
Example c12_case :
  seq_pre true true [1; 2; 3] (InsertN 1 (2 ^ 64 - 1) 7) /\
  fst (seq_step 0 3 [1; 2; 3] (InsertN 1 (2 ^ 64 - 1) 7)) = OExn BadAlloc /\
  option_map fst (d_run 3 4 0 0 true d_init [PushFront 1; PushBack 2; PushBack 3; InsertN 1 (2 ^ 64 - 1) 7]) =
    Some [OUnit; OUnit; OUnit; OExn BadAlloc].
Proof. split; [ex_pre|]. split; reflexivity. Qed.

(** C13: no history reaches UB (a raw slot read or destroyed, a live one constructed, an access outside the ring)
    and the destructor leaves every slot of the ring raw.  (Exactly which slots are live is [d_holds] in C10.) *)
Theorem c13_deque_lifetimes :
  forall (V : Type) (cap : Z) (torn dflt : V) (dbg : bool) (os : list (op V)) (f : option nat),
    0 <= cap /\ cap + 1 < 2 ^ 63 -> seq_pres dflt cap dbg true [] os ->
    exists rs s s', d_run cap (cap + 1) torn dflt dbg d_init os = Some (rs, s) /\
      d_destruct (cap + 1) (arm f s) = Ok tt s' /\ (forall i, 0 <= i <= cap -> mem s' i = None).
Proof. exact (fun V cap torn dflt dbg os f H => d_history_destroyed cap torn dflt dbg H os f). Qed.
Print Assumptions c13_deque_lifetimes.

(** C14 *)
Theorem c14_deque_survives_throwing_copy :
  forall (V : Type) (cap : Z) (torn dflt : V) (dbg : bool) (f : option nat) (s : st V) (l : list V) (o : op V),
    0 <= cap /\ cap + 1 < 2 ^ 63 -> d_holds cap s l -> seq_pre dbg true l o ->
    match d_step cap (cap + 1) torn dflt dbg o (arm f s) with
    | Ok r s' => r = fst (seq_step dflt cap l o) /\ d_holds cap s' (snd (seq_step dflt cap l o))
    | Thr ElemExn s' => exists l', d_holds cap s' l'
    | Thr e s' => fst (seq_step dflt cap l o) = OExn e /\ d_holds cap s' l
    | _ => False
    end.
Proof. exact (fun V cap torn dflt dbg f s l o H => d_step_fused cap torn dflt dbg H f s l o). Qed.
Print Assumptions c14_deque_survives_throwing_copy.
Theorem c14_deque_always_valid :
  forall (V : Type) (cap : Z) (torn dflt : V) (dbg : bool) (os : list (option nat * op V)) (s : st V) (l : list V),
    0 <= cap /\ cap + 1 < 2 ^ 63 -> d_holds cap s l -> d_safe cap torn dflt dbg s os.
Proof. exact (fun V cap torn dflt dbg os s l H => d_always_safe cap torn dflt dbg H os s l). Qed.
Print Assumptions c14_deque_always_valid.
Theorem c14_push_strong_guarantee :
  forall (V : Type) (cap : Z) (torn dflt : V) (dbg back : bool) (f : option nat) (s : st V) (l : list V) (v : V),
    0 <= cap /\ cap + 1 < 2 ^ 63 -> d_holds cap s l ->
    match d_step cap (cap + 1) torn dflt dbg (if back then PushBack v else PushFront v) (arm f s) with
    | Ok r s' => r = OUnit /\ lenz l < cap /\ d_holds cap s' (if back then l ++ [v] else v :: l)
    | Thr BadAlloc s' => lenz l = cap /\ s' = arm f s
    | Thr ElemExn s' => f <> None /\ d_holds cap s' l
    | _ => False
    end.
Proof. exact (fun V cap torn dflt dbg back f s l v H => d_push_strong cap torn dflt dbg H back f s l v). Qed.
Print Assumptions c14_push_strong_guarantee.
(** a throwing assignment in the middle of an insert on the begin side *)
Example c14_case :
  match d_run 5 6 77 0 true d_init [PushBack 1; PushBack 2; PushBack 3; PushBack 4] with
  | Some (_, s) =>
      match d_step 5 6 77 0 true (InsertOne 2 9) (arm (Some 2%nat) s) with
      | Thr ElemExn s' =>
          mb s' = 5 /\ me s' = 4 /\
          map (mem s') [5; 0; 1; 2; 3; 4] = [Some 1; Some 77; Some 2; Some 3; Some 4; None]
      | _ => False
      end
  | None => False
  end.
Proof. vm_compute. repeat split; reflexivity. Qed.

(** C05, deque part *)
Theorem c05_deque_constructor_leaks_refuted :
  ~ (forall (V : Type) (cap n : Z) (v : V) (f : option nat) (s' : st V),
       0 <= n <= cap -> d_construct_n cap (cap + 1) f n v = Thr ElemExn s' -> forall i, mem s' i = None).
Proof.
  exact (fun H => match d_construct_n_leak 7 with
                  | ex_intro _ s' (conj H1 H2) =>
                      match eq_trans (eq_sym H2) (H Z 3 2 7 (Some 1%nat) s' ltac:(lia) H1 0) with end
                  end).
Qed.
Print Assumptions c05_deque_constructor_leaks_refuted.

(** C08, deque part *)
Theorem c08_deque_at :
  forall (V : Type) (cap : Z) (dflt : V) (s : st V) (l : list V) (i : Z),
    0 <= cap /\ cap + 1 < 2 ^ 63 -> d_holds cap s l -> szt i ->
    d_at (cap + 1) i s = (if i <? lenz l then Ok (nthz dflt l i) s else Thr OutOfRange s).
Proof. exact (fun V cap dflt s l i H => d_at_exact cap dflt H s l i). Qed.
Print Assumptions c08_deque_at.

(** C15: a reference to own element i is the slot (m_begin + i) mod ring *)
Theorem c15_push_own_element :
  forall (V : Type) (cap : Z) (dflt : V) (back : bool) (s : st V) (l : list V) (i : Z),
    0 <= cap /\ cap + 1 < 2 ^ 63 -> d_holds cap s l -> fuse s = None -> 0 <= i < lenz l -> lenz l < cap ->
    exists s', (if back then d_push_back else d_push_front) cap (cap + 1) (RSlot ((mb s + i) mod (cap + 1))) s = Ok tt s' /\
      d_holds cap s' (if back then l ++ [nthz dflt l i] else nthz dflt l i :: l).
Proof. exact (fun V cap dflt back s l i H => d_push_alias cap dflt H back s l i). Qed.
Print Assumptions c15_push_own_element.
Theorem c15_resize_own_element :
  forall (V : Type) (cap : Z) (dflt : V) (s : st V) (l : list V) (n i : Z),
    0 <= cap /\ cap + 1 < 2 ^ 63 -> d_holds cap s l -> fuse s = None -> 0 <= i < lenz l -> 0 <= n <= cap ->
    exists s', d_resize cap (cap + 1) n (RSlot ((mb s + i) mod (cap + 1))) s = Ok tt s' /\
      d_holds cap s' (if n <=? lenz l then takez n l else l ++ repz (nthz dflt l i) (n - lenz l)).
Proof. exact (fun V cap dflt s l n i H => d_resize_alias cap dflt H s l n i). Qed.
Print Assumptions c15_resize_own_element.
(** insert(pos, n, d[i]) stores the value of d[i] exactly in these cases: the end side moves and i < pos + n, or the
    begin side moves and pos - n <= i, or the element read instead happens to be equal; false for every other i *)
Theorem c15_insert_own_element_partial :
  forall (V : Type) (cap : Z) (torn dflt : V) (dbg : bool) (s : st V) (l : list V) (p n i : Z),
    0 <= cap /\ cap + 1 < 2 ^ 63 -> d_holds cap s l -> fuse s = None -> 0 <= p <= lenz l -> 0 <= i < lenz l ->
    0 <= n <= cap - lenz l ->
    exists s', d_insert_cnt cap (cap + 1) torn dflt dbg ((mb s + p) mod (cap + 1)) n (RSlot ((mb s + i) mod (cap + 1))) s = Ok tt s' /\
      (d_holds cap s' (insert_seq l p (repz (nthz dflt l i) n)) <->
       if lenz l / 2 <? p then i < p + n \/ nthz dflt l (i - n) = nthz dflt l i
       else p - n <= i \/ nthz dflt l (i + n) = nthz dflt l i).
Proof. exact (fun V cap torn dflt dbg s l p n i H => d_insert_alias_iff cap torn dflt dbg H s l p n i). Qed.
Print Assumptions c15_insert_own_element_partial.
(** what is stored in every case *)
Theorem c15_insert_own_element_stores :
  forall (V : Type) (cap : Z) (torn dflt : V) (dbg : bool) (s : st V) (l : list V) (p n i : Z),
    0 <= cap /\ cap + 1 < 2 ^ 63 -> d_holds cap s l -> fuse s = None -> 0 <= p <= lenz l -> 0 <= i < lenz l ->
    0 <= n <= cap - lenz l ->
    exists s', d_insert_cnt cap (cap + 1) torn dflt dbg ((mb s + p) mod (cap + 1)) n (RSlot ((mb s + i) mod (cap + 1))) s = Ok tt s' /\
      d_holds cap s' (insert_seq l p (repz (nthz dflt l
        (if lenz l / 2 <? p then (if p + n <=? i then i - n else i) else (if i <? p - n then i + n else i))) n)).
Proof. exact (fun V cap torn dflt dbg s l p n i H => d_insert_alias cap torn dflt dbg H s l p n i). Qed.
Print Assumptions c15_insert_own_element_stores.
(** d = {1,2,3,4,5}; d.insert(d.begin()+3, d[4]) gives {1,2,3,4,4,5}, not {1,2,3,5,4,5} *)
Theorem c15_insert_own_element_refuted :
  match d_run 6 7 0 0 true d_init [PushBack 1; PushBack 2; PushBack 3; PushBack 4; PushBack 5] with
  | Some (_, s) =>
      match (d_insert_one 6 7 0 0 true ((mb s + 3) mod 7) (RSlot ((mb s + 4) mod 7)) ;;; d_read_all 7) s with
      | Ok l _ => l = [1; 2; 3; 4; 4; 5] /\ l <> insert_seq [1; 2; 3; 4; 5] 3 [5]
      | _ => False
      end
  | None => False
  end.
Proof. exact d_insert_alias_wrong. Qed.
Print Assumptions c15_insert_own_element_refuted.

(** C16, deque part *)
Theorem c16_deque_insert_iterator :
  forall (V : Type) (cap : Z) (torn dflt : V) (dbg : bool) (s : st V) (l : list V) (p : Z) (v : V),
    0 <= cap /\ cap + 1 < 2 ^ 63 -> d_holds cap s l -> fuse s = None -> 0 <= p <= lenz l -> lenz l < cap ->
    exists (it : Z) (s' : st V),
      d_insert_one cap (cap + 1) torn dflt dbg (it_add (cap + 1) (mb s) p) (RVal v) s = Ok it s' /\
      rd (cap + 1) it s' = Ok v s' /\ it_diff (cap + 1) (mb s') it (mb s') = p /\ d_holds cap s' (insert_seq l p [v]).
Proof. exact (fun V cap torn dflt dbg s l p v H => d_insert_one_iter cap torn dflt dbg H s l p v). Qed.
Print Assumptions c16_deque_insert_iterator.
Theorem c16_deque_erase_iterator :
  forall (V : Type) (cap : Z) (torn dflt : V) (dbg : bool) (s : st V) (l : list V) (p q : Z),
    0 <= cap /\ cap + 1 < 2 ^ 63 -> d_holds cap s l -> fuse s = None -> 0 <= p < q -> q <= lenz l ->
    exists (it : Z) (s' : st V),
      d_erase_range (cap + 1) torn dbg (it_add (cap + 1) (mb s) p) (it_add (cap + 1) (mb s) q) s = Ok it s' /\
      d_holds cap s' (erase_seq l p q) /\ it_diff (cap + 1) (mb s') it (mb s') = p /\
      (if q <? lenz l then rd (cap + 1) it s' = Ok (nthz dflt l q) s' else it = me s').
Proof. exact (fun V cap torn dflt dbg s l p q H => d_erase_iter cap torn dflt dbg H s l p q). Qed.
Print Assumptions c16_deque_erase_iterator.

(** C17: buffers of at least sizeof(T) bytes (missing: smaller ones, where it is false, see below) *)
Theorem c17_preallocated_deque_partial :
  forall (V : Type) (torn dflt : V) (dbg : bool) (bytes sizeofT b : Z) (os : list (op V)),
    0 < sizeofT -> sizeofT <= bytes < 2 ^ 63 ->
    let x := @pd_construct V (Some b) bytes in
    let c := bytes / sizeofT - 1 in
    pd_max_size sizeofT x = c /\ 0 <= c /\ (c + 1) * sizeofT <= bytes /\ bytes < (c + 2) * sizeofT /\
    (seq_pres dflt c dbg true [] os ->
     exists s, pd_run torn dflt dbg sizeofT x os = Some (fst (seq_run dflt c [] os), s) /\
               d_holds c s (snd (seq_run dflt c [] os))).
Proof. exact (fun V torn dflt dbg bytes sizeofT b os => pd_refines torn dflt dbg bytes sizeofT b os). Qed.
Print Assumptions c17_preallocated_deque_partial.
(** every smaller buffer: max_size() wraps to 2^64-1 and the first push_back writes outside the buffer, in debug
    builds too *)
Theorem c17_preallocated_deque_small_buffer_refuted :
  forall (V : Type) (torn dflt : V) (dbg : bool) (bytes sizeofT : Z) (buf : option Z) (v : V),
    0 <= bytes < sizeofT ->
    pd_max_size sizeofT (@pd_construct V buf bytes) = 2 ^ 64 - 1 /\
    d_step (pd_max_size sizeofT (@pd_construct V buf bytes)) (pd_num_elems sizeofT (@pd_construct V buf bytes))
      torn dflt dbg (PushBack v) (pd_st (pd_construct buf bytes)) = UB.
Proof. exact (fun V torn dflt dbg bytes sizeofT buf v => pd_small torn dflt dbg bytes sizeofT buf v). Qed.
Print Assumptions c17_preallocated_deque_small_buffer_refuted.
(** an object that was given no memory yet is such a case *)
Theorem c17_without_memory_refuted :
  forall (V : Type) (torn dflt : V) (dbg : bool) (sizeofT : Z) (v : V),
    0 < sizeofT ->
    pd_max_size sizeofT (@pd_default V) = 2 ^ 64 - 1 /\
    d_step (pd_max_size sizeofT (@pd_default V)) (pd_num_elems sizeofT (@pd_default V)) torn dflt dbg (PushBack v) (pd_st pd_default) = UB.
Proof. exact (fun V torn dflt dbg sizeofT v P => pd_small torn dflt dbg 0 sizeofT None v (conj (Z.le_refl 0) P)). Qed.
Print Assumptions c17_without_memory_refuted.
Theorem c17_init_only_once :
  forall (V : Type) (b1 b2 : Z) (buf3 : option Z) (n1 n2 n3 : Z),
    pd_init buf3 n3 (@pd_construct V (Some b1) n1) = pd_construct (Some b1) n1 /\
    pd_init (Some b2) n2 (@pd_default V) = pd_construct (Some b2) n2 /\
    pd_init buf3 n3 (pd_init (Some b2) n2 (@pd_default V)) = pd_construct (Some b2) n2.
Proof. exact (fun V b1 b2 buf3 n1 n2 n3 => conj eq_refl (conj eq_refl eq_refl)). Qed.
Print Assumptions c17_init_only_once.
Example c17_case : pd_max_size 4 (@pd_construct Z (Some 4096) 27) = 5 /\ seq_pres 0 5 true true [] exd_ops.
Proof. split; [reflexivity|ex_pre]. Qed.

(** C18, deque part *)
Theorem c18_deque_copy :
  forall (V : Type) (cap : Z) (dflt : V) (x : st V) (l : list V),
    0 <= cap /\ cap + 1 < 2 ^ 63 -> d_holds cap x l ->
    exists s', d_construct_copy cap (cap + 1) None x = Ok tt s' /\ d_holds cap s' l.
Proof. exact (fun V cap dflt x l H => d_copy_exact cap dflt H x l). Qed.
Print Assumptions c18_deque_copy.
Theorem c18_deque_assign :
  forall (V : Type) (cap : Z) (dflt : V) (self : bool) (x : st V) (lx : list V) (s : st V) (l : list V),
    0 <= cap /\ cap + 1 < 2 ^ 63 -> d_holds cap x lx -> d_holds cap s l -> fuse s = None -> (self = true -> lx = l) ->
    exists s', d_operator_assign cap (cap + 1) self x s = Ok tt s' /\ d_holds cap s' lx.
Proof. exact (fun V cap dflt self x lx s l H => d_operator_assign_exact cap dflt H self x lx s l). Qed.
Print Assumptions c18_deque_assign.
Theorem c18_deque_equality :
  forall (V : Type) (dflt : V) (eqb : V -> V -> bool) (capx capy : Z) (x y : st V) (lx ly : list V),
    (forall a b, eqb a b = true <-> a = b) ->
    0 <= capx /\ capx + 1 < 2 ^ 63 -> 0 <= capy /\ capy + 1 < 2 ^ 63 ->
    d_holds capx x lx -> d_holds capy y ly ->
    exists b, d_eq eqb (capx + 1) (capy + 1) x y = Ok b x /\ (b = true <-> lx = ly) /\
              d_neq eqb (capx + 1) (capy + 1) x y = Ok (negb b) x.
Proof. exact (fun V dflt eqb capx capy x y lx ly H => d_eq_exact dflt eqb H capx capy x y lx ly). Qed.
Print Assumptions c18_deque_equality.
Theorem c18_preallocated_deque_equality :
  forall (V : Type) (dflt : V) (eqb : V -> V -> bool) (capx capy : Z) (x y : st V) (lx ly : list V),
    (forall a b, eqb a b = true <-> a = b) ->
    0 <= capx /\ capx + 1 < 2 ^ 63 -> 0 <= capy /\ capy + 1 < 2 ^ 63 ->
    d_holds capx x lx -> d_holds capy y ly ->
    exists b, pd_eq eqb (capx + 1) (capy + 1) x y = Ok b x /\ (b = true <-> capx = capy /\ lx = ly).
Proof. exact (fun V dflt eqb capx capy x y lx ly H => pd_eq_exact dflt eqb H capx capy x y lx ly). Qed.
Print Assumptions c18_preallocated_deque_equality.

(** C53: every position inside the ring is checked (missing: iterators outside the ring) *)
Theorem c53_deque_debug_catches_misuse_partial :
  forall (V : Type) (cap : Z) (torn dflt : V) (f : option nat) (s : st V) (l : list V) (o : op V),
    0 <= cap /\ cap + 1 < 2 ^ 63 -> d_holds cap s l -> d_typed cap o ->
    match d_step cap (cap + 1) torn dflt true o (arm f s) with
    | Ok r s' => seq_pre true true l o /\ r = fst (seq_step dflt cap l o) /\ d_holds cap s' (snd (seq_step dflt cap l o))
    | Thr ElemExn s' => seq_pre true true l o /\ exists l', d_holds cap s' l'
    | Thr e s' => seq_pre true true l o /\ fst (seq_step dflt cap l o) = OExn e /\ d_holds cap s' l
    | AssertFail s' => ~ seq_pre true true l o /\ s' = arm f s
    | UB | Diverge => False
    end.
Proof. exact (fun V cap torn dflt f s l o H => d_debug_safe cap torn dflt H f s l o). Qed.
Print Assumptions c53_deque_debug_catches_misuse_partial.
Example c53_case :
  d_typed 5 (InsertOne 4 7) /\
  match d_run 5 6 0 0 true d_init [PushFront 1] with
  | Some (_, s) => (match d_step 5 6 0 0 true (InsertOne 4 7) s with AssertFail _ => True | _ => False end) /\
                   d_step 5 6 0 0 false (EraseOne 4) s = UB
  | None => False
  end.
Proof. split; [vm_compute; split; congruence|]. vm_compute. split; [exact I|reflexivity]. Qed.
(** an iterator that has left the ring, begin()+7 in a deque of 3 elements, passes the assertions of a debug build
    and the insert reads memory outside the buffer *)
Theorem c53_out_of_ring_iterator_refuted :
  match d_run 4 5 0 0 true d_init [PushFront 1; PushBack 2; PushBack 3] with
  | Some (_, s) => d_step 4 5 0 0 true (InsertOne 7 9) s = UB
  | None => False
  end.
Proof. exact eq_refl. Qed.
Print Assumptions c53_out_of_ring_iterator_refuted.

(** states that meet the hypotheses of the theorems about one state *)
Example deque_state_case :
  exists s, d_run 5 6 0 0 true d_init [PushFront 1; PushFront 2; PushBack 3] = Some ([OUnit; OUnit; OUnit], s) /\
            d_holds 5 s [2; 1; 3] /\ fuse s = None /\ mb s = 4 /\ me s = 1.
Proof.
  destruct (d_run_from 5 0 0 true ltac:(lia) d_init [] [PushFront 1; PushFront 2; PushBack 3]
              (d_init_holds 5 ltac:(lia)) eq_refl) as (s & H1 & H2 & H3); [ex_pre|].
  exists s. split; [exact H1|]. split; [exact H2|]. split; [exact H3|].
  vm_compute in H1. injection H1 as <-. split; reflexivity.
Qed.
