(** Property theorems about FixedVector / PreallocatedVector.
    [v_run cap torn dflt dbg v_init os] executes the history [os] on the modelled code from a default-constructed
    object; [seq_run]/[seq_pres] (Spec/SeqSpec.v) is the mathematical sequence; [v_holds cap s l] says that object
    [s] holds exactly [l]: size() = length, slots below size() live with l's values, all other slots raw. *)
From Verif Require Import Base.ZList Spec.SeqSpec Container.Mem Container.VectorModel Container.VectorTheorems.

(** a history used in the examples *)
Definition ex_ops : list (op Z) :=
  [PushBack 1; PushBack 2; InsertOne 0 3; InsertN 1 2 9; EraseRange 0 1; At 1; At 7; ReadAll; PushBack 5;
   InsertInt 0 (-1) 4; Resize 1 0; AssignRange [4; 5]; InsertRange 1 [6; 7]; ReadAll; Clear; Size].
Ltac ex_pre := repeat split; vm_compute; repeat split; try congruence; try discriminate; auto.

(** C01 *)
Theorem c01_vector_refines_bounded_sequence :
  forall (V : Type) (cap : Z) (torn dflt : V) (dbg : bool) (os : list (op V)),
    0 <= cap < 2 ^ 63 -> seq_pres dflt cap dbg false [] os ->
    exists s, v_run cap torn dflt dbg v_init os = Some (fst (seq_run dflt cap [] os), s) /\
              v_holds cap s (snd (seq_run dflt cap [] os)).
Proof. exact (fun V cap torn dflt dbg os H => v_refines cap torn dflt dbg H os). Qed.
Print Assumptions c01_vector_refines_bounded_sequence.
Example c01_case :
  seq_pres 0 5 true false [] ex_ops /\
  fst (seq_run 0 5 [] ex_ops) =
    [OUnit; OUnit; OPos 0; OUnit; OPos 0; OVal 9; OExn OutOfRange; OList [9; 9; 1; 2]; OUnit; OExn BadAlloc; OUnit;
     OUnit; OUnit; OList [4; 6; 7; 5]; OUnit; ONum 0].
Proof. split; [ex_pre|reflexivity]. Qed.

(** C01, from any valid object (not only a new one) *)
Theorem c01_vector_call_from_any_state :
  forall (V : Type) (cap : Z) (torn dflt : V) (dbg : bool) (s : st V) (l : list V) (os : list (op V)),
    0 <= cap < 2 ^ 63 -> v_holds cap s l -> fuse s = None -> seq_pres dflt cap dbg false l os ->
    exists s', v_run cap torn dflt dbg s os = Some (fst (seq_run dflt cap l os), s') /\
               v_holds cap s' (snd (seq_run dflt cap l os)) /\ fuse s' = None.
Proof. exact (fun V cap torn dflt dbg s l os H => v_run_from cap torn dflt dbg H s l os). Qed.
Print Assumptions c01_vector_call_from_any_state.

(** C02: the bound *)
Theorem c02_vector_size_bounded :
  forall (V : Type) (cap : Z) (torn dflt : V) (dbg : bool) (os : list (op V)) rs s,
    0 <= cap < 2 ^ 63 -> seq_pres dflt cap dbg false [] os ->
    v_run cap torn dflt dbg v_init os = Some (rs, s) -> 0 <= me s <= cap.
Proof. exact (fun V cap torn dflt dbg os rs s H => v_run_bound cap torn dflt dbg H os rs s). Qed.
Print Assumptions c02_vector_size_bounded.
(** C02: an over-capacity call changes nothing whatever, even the fuse: no element is copied or assigned *)
Theorem c02_vector_overflow_atomic :
  forall (V : Type) (cap : Z) (torn dflt : V) (dbg : bool) (s : st V) (l : list V) (o : op V),
    0 <= cap < 2 ^ 63 -> v_holds cap s l -> seq_pre dbg false l o ->
    fst (seq_step dflt cap l o) = OExn BadAlloc ->
    v_step cap torn dflt dbg o s = Thr BadAlloc s.
Proof. exact (fun V cap torn dflt dbg s l o H => v_overflow cap torn dflt dbg H s l o). Qed.
Print Assumptions c02_vector_overflow_atomic.
Example c02_case :
  seq_pre true false [1; 2; 3] (InsertN 1 (2 ^ 64 - 1) 7) /\
  fst (seq_step 0 3 [1; 2; 3] (InsertN 1 (2 ^ 64 - 1) 7)) = OExn BadAlloc /\
  option_map fst (v_run 3 0 0 true v_init [PushBack 1; PushBack 2; PushBack 3]) = Some [OUnit; OUnit; OUnit].
Proof. split; [ex_pre|]. split; reflexivity. Qed.

(** C03: no history reaches UB (double construction, use of raw slots, out-of-buffer access) and the destructor
    leaves every slot raw.  (Exactly the slots below size() being live is [v_holds] in C01.) *)
Theorem c03_vector_lifetimes :
  forall (V : Type) (cap : Z) (torn dflt : V) (dbg : bool) (os : list (op V)) (f : option nat),
    0 <= cap < 2 ^ 63 -> seq_pres dflt cap dbg false [] os ->
    exists rs s s', v_run cap torn dflt dbg v_init os = Some (rs, s) /\ v_destruct cap (arm f s) = Ok tt s' /\
      (forall i, 0 <= i < cap -> mem s' i = None).
Proof. exact (fun V cap torn dflt dbg os f H => v_history_destroyed cap torn dflt dbg H os f). Qed.
Print Assumptions c03_vector_lifetimes.

(** C04: any call, any throwing point, from any valid state *)
Theorem c04_vector_survives_throwing_copy :
  forall (V : Type) (cap : Z) (torn dflt : V) (dbg : bool) (f : option nat) (s : st V) (l : list V) (o : op V),
    0 <= cap < 2 ^ 63 -> v_holds cap s l -> seq_pre dbg false l o ->
    match v_step cap torn dflt dbg o (arm f s) with
    | Ok r s' => r = fst (seq_step dflt cap l o) /\ v_holds cap s' (snd (seq_step dflt cap l o))
    | Thr ElemExn s' => exists l', v_holds cap s' l'
    | Thr e s' => fst (seq_step dflt cap l o) = OExn e /\ v_holds cap s' l
    | _ => False
    end.
Proof. exact (fun V cap torn dflt dbg f s l o H => v_step_fused cap torn dflt dbg H f s l o). Qed.
Print Assumptions c04_vector_survives_throwing_copy.
(** C04: the vector stays usable through any sequence of calls with any throwing points *)
Theorem c04_vector_always_valid :
  forall (V : Type) (cap : Z) (torn dflt : V) (dbg : bool) (os : list (option nat * op V)) (s : st V) (l : list V),
    0 <= cap < 2 ^ 63 -> v_holds cap s l -> v_safe cap torn dflt dbg s os.
Proof. exact (fun V cap torn dflt dbg os s l H => v_always_safe cap torn dflt dbg H os s l). Qed.
Print Assumptions c04_vector_always_valid.
(** C04: push_back has the strong guarantee *)
Theorem c04_push_back_strong_guarantee :
  forall (V : Type) (cap : Z) (torn dflt : V) (dbg : bool) (f : option nat) (s : st V) (l : list V) (v : V),
    0 <= cap < 2 ^ 63 -> v_holds cap s l ->
    match v_step cap torn dflt dbg (PushBack v) (arm f s) with
    | Ok r s' => r = OUnit /\ lenz l < cap /\ v_holds cap s' (l ++ [v])
    | Thr BadAlloc s' => lenz l = cap /\ s' = arm f s
    | Thr ElemExn s' => f <> None /\ v_holds cap s' l
    | _ => False
    end.
Proof. exact (fun V cap torn dflt dbg f s l v H => v_push_back_strong cap torn dflt dbg H f s l v). Qed.
Print Assumptions c04_push_back_strong_guarantee.
(** a throwing assignment in the middle of an insert really occurs in the model: the torn element (77) is kept and
    the vector has 4 live elements *)
Example c04_case :
  match v_run 5 77 0 true v_init [PushBack 1; PushBack 2; PushBack 3] with
  | Some (_, s) =>
      match v_step 5 77 0 true (InsertOne 0 9) (arm (Some 2%nat) s) with
      | Thr ElemExn s' => me s' = 4 /\ map (mem s') [0; 1; 2; 3; 4] = [Some 1; Some 2; Some 77; Some 3; None]
      | _ => False
      end
  | None => False
  end.
Proof. vm_compute. split; reflexivity. Qed.

(** C05 does not hold: FixedVector(2, v) whose second element copy throws leaves the first one constructed, and no
    destructor runs for an object whose constructor threw. *)
Theorem c05_constructor_leaks_refuted :
  ~ (forall (V : Type) (cap n : Z) (v : V) (f : option nat) (s' : st V),
       0 <= n <= cap -> v_construct_n cap f n v = Thr ElemExn s' -> forall i, mem s' i = None).
Proof.
  exact (fun H => match v_construct_n_leak 7 with
                  | ex_intro _ s' (conj H1 H2) =>
                      match eq_trans (eq_sym H2) (H Z 3 2 7 (Some 1%nat) s' ltac:(lia) H1 0) with end
                  end).
Qed.
Print Assumptions c05_constructor_leaks_refuted.

(** C06: push_back and resize with a reference to an own element *)
Theorem c06_push_back_own_element :
  forall (V : Type) (cap : Z) (dflt : V) (s : st V) (l : list V) (i : Z),
    0 <= cap < 2 ^ 63 -> v_holds cap s l -> fuse s = None -> 0 <= i < lenz l -> lenz l < cap ->
    exists s', v_push_back cap (RSlot i) s = Ok tt s' /\ v_holds cap s' (l ++ [nthz dflt l i]).
Proof. exact (fun V cap dflt s l i H => v_push_back_alias cap dflt H s l i). Qed.
Print Assumptions c06_push_back_own_element.
Theorem c06_resize_own_element :
  forall (V : Type) (cap : Z) (dflt : V) (s : st V) (l : list V) (n i : Z),
    0 <= cap < 2 ^ 63 -> v_holds cap s l -> fuse s = None -> 0 <= i < lenz l -> 0 <= n <= cap ->
    exists s', v_resize cap n (RSlot i) s = Ok tt s' /\
      v_holds cap s' (if n <=? lenz l then takez n l else l ++ repz (nthz dflt l i) (n - lenz l)).
Proof. exact (fun V cap dflt s l n i H => v_resize_alias cap dflt H s l n i). Qed.
Print Assumptions c06_resize_own_element.
(** insert(pos, n, v[i]) stores the value of v[i] exactly when i < pos + n or the element n places before i is equal
    to it (so insert(pos, v[i]) is right for every i <= pos); for every other i the property is false, see below *)
Theorem c06_insert_own_element_partial :
  forall (V : Type) (cap : Z) (torn dflt : V) (dbg : bool) (s : st V) (l : list V) (p n i : Z),
    0 <= cap < 2 ^ 63 -> v_holds cap s l -> fuse s = None ->
    0 <= p <= lenz l -> 0 <= i < lenz l -> 0 <= n <= cap - lenz l ->
    exists s', v_insert_cnt cap torn dflt dbg p n (RSlot i) s = Ok tt s' /\
      (v_holds cap s' (insert_seq l p (repz (nthz dflt l i) n)) <->
       i < p + n \/ nthz dflt l (i - n) = nthz dflt l i).
Proof. exact (fun V cap torn dflt dbg s l p n i H => v_insert_alias_iff cap torn dflt dbg H s l p n i). Qed.
Print Assumptions c06_insert_own_element_partial.
(** what is stored in every case: no element outside l, nothing lost *)
Theorem c06_insert_own_element_stores :
  forall (V : Type) (cap : Z) (torn dflt : V) (dbg : bool) (s : st V) (l : list V) (p n i : Z),
    0 <= cap < 2 ^ 63 -> v_holds cap s l -> fuse s = None ->
    0 <= p <= lenz l -> 0 <= i < lenz l -> 0 <= n <= cap - lenz l ->
    exists s', v_insert_cnt cap torn dflt dbg p n (RSlot i) s = Ok tt s' /\
      v_holds cap s' (insert_seq l p (repz (nthz dflt l (if p + n <=? i then i - n else i)) n)).
Proof. exact (fun V cap torn dflt dbg s l p n i H => v_insert_alias cap torn dflt dbg H s l p n i). Qed.
Print Assumptions c06_insert_own_element_stores.
(** v = {1,2,3}; v.insert(v.begin(), v[2]) gives {2,1,2,3}, not {3,1,2,3} *)
Theorem c06_insert_own_element_refuted :
  exists s s', v_holds 5 s [1; 2; 3] /\ fuse s = None /\
    v_insert_one 5 0 0 true 0 (RSlot 2) s = Ok 0 s' /\ v_holds 5 s' [2; 1; 2; 3] /\ ~ v_holds 5 s' [3; 1; 2; 3].
Proof. exact v_insert_alias_wrong. Qed.
Print Assumptions c06_insert_own_element_refuted.

(** C07 *)
Theorem c07_vector_debug_catches_misuse :
  forall (V : Type) (cap : Z) (torn dflt : V) (f : option nat) (s : st V) (l : list V) (o : op V),
    0 <= cap < 2 ^ 63 -> v_holds cap s l -> v_typed o ->
    match v_step cap torn dflt true o (arm f s) with
    | Ok r s' => seq_pre true false l o /\ r = fst (seq_step dflt cap l o) /\ v_holds cap s' (snd (seq_step dflt cap l o))
    | Thr ElemExn s' => seq_pre true false l o /\ exists l', v_holds cap s' l'
    | Thr e s' => seq_pre true false l o /\ fst (seq_step dflt cap l o) = OExn e /\ v_holds cap s' l
    | AssertFail s' => ~ seq_pre true false l o /\ s' = arm f s
    | UB | Diverge => False
    end.
Proof. exact (fun V cap torn dflt f s l o H => v_debug_safe cap torn dflt H f s l o). Qed.
Print Assumptions c07_vector_debug_catches_misuse.
Example c07_case :
  v_typed (InsertOne (-3) 7) /\
  match v_run 3 0 0 true v_init [PushBack 1] with
  | Some (_, s) => (match v_step 3 0 0 true (InsertOne (-3) 7) s with AssertFail _ => True | _ => False end) /\
                   v_step 3 0 0 false (EraseOne 2) s = UB
  | None => False
  end.
Proof. split; [exact I|]. vm_compute. split; [exact I|reflexivity]. Qed.

(** C08, vector part *)
Theorem c08_vector_at :
  forall (V : Type) (cap : Z) (dflt : V) (s : st V) (l : list V) (i : Z),
    v_holds cap s l -> szt i ->
    v_at cap i s = (if i <? lenz l then Ok (nthz dflt l i) s else Thr OutOfRange s).
Proof. exact (fun V cap dflt s l i => v_at_exact cap dflt s l i). Qed.
Print Assumptions c08_vector_at.

(** C09 *)
Theorem c09_preallocated_vector :
  forall (V : Type) (torn dflt : V) (dbg : bool) (bytes sizeofT b : Z) (os : list (op V)),
    0 < sizeofT -> 0 <= bytes < 2 ^ 63 ->
    let x := @pv_construct V (Some b) bytes in
    let c := bytes / sizeofT in
    pv_max_size sizeofT x = c /\ 0 <= c * sizeofT <= bytes /\ bytes < (c + 1) * sizeofT /\
    (seq_pres dflt c dbg false [] os ->
     exists s, pv_run torn dflt dbg sizeofT x os = Some (fst (seq_run dflt c [] os), s) /\
               v_holds c s (snd (seq_run dflt c [] os))).
Proof. exact (fun V torn dflt dbg bytes sizeofT b os => pv_refines torn dflt dbg bytes sizeofT b os). Qed.
Print Assumptions c09_preallocated_vector.
Theorem c09_init_only_once :
  forall (V : Type) (b1 b2 : Z) (buf3 : option Z) (n1 n2 n3 : Z),
    pv_init buf3 n3 (@pv_construct V (Some b1) n1) = pv_construct (Some b1) n1 /\
    pv_init (Some b2) n2 (@pv_default V) = pv_construct (Some b2) n2 /\
    pv_init buf3 n3 (pv_init (Some b2) n2 (@pv_default V)) = pv_construct (Some b2) n2.
Proof. exact (fun V b1 b2 buf3 n1 n2 n3 => conj eq_refl (conj eq_refl eq_refl)). Qed.
Print Assumptions c09_init_only_once.
(** an object that was given no memory yet holds nothing and refuses every insertion *)
Theorem c09_without_memory :
  forall (V : Type) (torn dflt : V) (dbg : bool) (sizeofT : Z) (os : list (op V)),
    0 < sizeofT ->
    pv_max_size sizeofT (@pv_default V) = 0 /\
    (seq_pres dflt 0 dbg false [] os ->
     exists s, pv_run torn dflt dbg sizeofT (@pv_default V) os = Some (fst (seq_run dflt 0 [] os), s) /\
    v_holds 0 s (snd (seq_run dflt 0 [] os))).
Proof.
  exact (fun V torn dflt dbg sizeofT os P =>
    conj eq_refl (proj2 (proj2 (proj2 (pv_refines torn dflt dbg 0 sizeofT 0 os P (conj (Z.le_refl 0) eq_refl)))))).
Qed.
Print Assumptions c09_without_memory.
Example c09_case : pv_max_size 4 (@pv_construct Z (Some 4096) 21) = 5 /\ seq_pres 0 5 true false [] ex_ops.
Proof. split; [reflexivity|ex_pre]. Qed.

(** C16, vector part *)
Theorem c16_vector_insert_iterator :
  forall (V : Type) (cap : Z) (torn dflt : V) (dbg : bool) (s : st V) (l : list V) (p : Z) (v : V),
    0 <= cap < 2 ^ 63 -> v_holds cap s l -> fuse s = None -> 0 <= p <= lenz l -> lenz l < cap ->
    exists s', v_insert_one cap torn dflt dbg p (RVal v) s = Ok p s' /\ v_index cap p s' = Ok v s' /\
      v_holds cap s' (insert_seq l p [v]).
Proof. exact (fun V cap torn dflt dbg s l p v H => v_insert_one_iter cap torn dflt dbg H s l p v). Qed.
Print Assumptions c16_vector_insert_iterator.
Theorem c16_vector_erase_iterator :
  forall (V : Type) (cap : Z) (torn dflt : V) (dbg : bool) (s : st V) (l : list V) (p q : Z),
    0 <= cap < 2 ^ 63 -> v_holds cap s l -> fuse s = None -> 0 <= p < q -> q <= lenz l ->
    exists s', v_erase_range cap torn dbg p q s = Ok p s' /\ v_holds cap s' (erase_seq l p q) /\
      (if q <? lenz l then v_index cap p s' = Ok (nthz dflt l q) s' else me s' = p).
Proof. exact (fun V cap torn dflt dbg s l p q H => v_erase_iter cap torn dflt dbg H s l p q). Qed.
Print Assumptions c16_vector_erase_iterator.

(** C18, vector part *)
Theorem c18_vector_copy :
  forall (V : Type) (cap : Z) (dflt : V) (x : st V) (l : list V),
    0 <= cap < 2 ^ 63 -> v_holds cap x l ->
    exists s', v_construct_copy cap None x = Ok tt s' /\ v_holds cap s' l.
Proof. exact (fun V cap dflt x l H => v_copy_exact cap dflt H x l). Qed.
Print Assumptions c18_vector_copy.
Theorem c18_vector_assign :
  forall (V : Type) (cap : Z) (dflt : V) (self : bool) (x : st V) (lx : list V) (s : st V) (l : list V),
    0 <= cap < 2 ^ 63 -> v_holds cap x lx -> v_holds cap s l -> fuse s = None -> (self = true -> lx = l) ->
    exists s', v_operator_assign cap self x s = Ok tt s' /\ v_holds cap s' lx.
Proof. exact (fun V cap dflt self x lx s l H => v_operator_assign_exact cap dflt H self x lx s l). Qed.
Print Assumptions c18_vector_assign.
Theorem c18_vector_equality :
  forall (V : Type) (dflt : V) (eqb : V -> V -> bool) (cap : Z) (x y : st V) (lx ly : list V),
    (forall a b, eqb a b = true <-> a = b) -> v_holds cap x lx -> v_holds cap y ly ->
    exists b, v_eq eqb cap cap x y = Ok b x /\ (b = true <-> lx = ly) /\ v_neq eqb cap cap x y = Ok (negb b) x.
Proof. exact (fun V dflt eqb cap x y lx ly H => v_eq_neq dflt eqb H cap x y lx ly). Qed.
Print Assumptions c18_vector_equality.
Theorem c18_preallocated_vector_equality :
  forall (V : Type) (dflt : V) (eqb : V -> V -> bool) (capx capy : Z) (x y : st V) (lx ly : list V),
    (forall a b, eqb a b = true <-> a = b) -> v_holds capx x lx -> v_holds capy y ly ->
    exists b, pv_eq eqb capx capy x y = Ok b x /\ (b = true <-> capx = capy /\ lx = ly).
Proof. exact (fun V dflt eqb capx capy x y lx ly H => pv_eq_exact dflt eqb H capx capy x y lx ly). Qed.
Print Assumptions c18_preallocated_vector_equality.
(** states that meet the hypotheses of the C06, C08, C16 and C18 theorems *)
Example vector_state_case :
  exists s, v_run 5 0 0 true v_init [PushBack 1; PushBack 2; PushBack 3] = Some ([OUnit; OUnit; OUnit], s) /\
            v_holds 5 s [1; 2; 3] /\ fuse s = None.
Proof.
  destruct (v_run_from 5 0 0 true ltac:(lia) v_init [] [PushBack 1; PushBack 2; PushBack 3]
              (v_init_holds 5 ltac:(lia)) eq_refl) as (s & H1 & H2 & H3); [ex_pre|].
  exists s. auto.
Qed.
