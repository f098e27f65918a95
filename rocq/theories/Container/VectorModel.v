(** Model of mechanism/Container/FixedVector.h and PreallocatedVector.h.
    The two headers have the same member functions, text for text, apart from where the storage comes from, the
    constructors, max_size() and operator==; line numbers cite FixedVector.h, "P:" cites PreallocatedVector.h.
    Iterators are pointers into m_virtualBuf: an iterator is modelled by its element offset (an integer).
    [insert_n] compares with [pos - 1], which for pos = begin() is a pointer before the array; we treat pointer
    values as integers there. *)
From Verif Require Import Base.ZList Spec.SeqSpec Container.Mem.

Section Vector.
  Context {V : Type}.
  Variable cap : Z.        (* max_size(): 103-106; P:115-118 *)
  Variable torn dflt : V.
  Variable dbg : bool.

  Notation rd := (@rd V cap).
  Notation ctor := (@ctor V cap).
  Notation ctor_default := (@ctor_default V cap dflt).
  Notation asg := (@asg V cap torn).
  Notation dtor := (@dtor V cap).
  Notation deref := (@deref V cap).

  (** enough fuel for any loop over the buffer *)
  Definition vfuel : nat := S (Z.to_nat cap).

  (** 62-64 default constructor: raw storage, m_end = 0 *)
  Definition v_init : st V := mkst (fun _ => None) 0 0 None.

  (** 98-101 size *)
  Definition v_size : M V Z := get_me.
  (** 108-111 available_size (size_t subtraction) *)
  Definition v_available_size : M V Z := sz <- v_size ;; ret (w64 (cap - sz)).
  (** 113-116 empty *)
  Definition v_empty : M V bool := sz <- v_size ;; ret (sz =? 0).
  (** 118-121 full *)
  Definition v_full : M V bool := sz <- v_size ;; ret (sz =? cap).
  (** 164-172 begin *)
  Definition v_begin : Z := 0.
  (** 174-182 end = begin() + m_end *)
  Definition v_end : M V Z := e <- get_me ;; ret (v_begin + e).

  (** private/Construct.h:26-32 destroy_range *)
  Definition v_destroy_range (first last : Z) : M V unit :=
    loop vfuel (fun it => ret (negb (it =? last)))
               (fun it => dtor it ;;; ret (it + 1)) first ;;; ret tt.

  (** 123-127 clear *)
  Definition v_clear : M V unit :=
    e <- v_end ;; v_destroy_range v_begin e ;;; set_me 0.

  (** 129-137 operator[] (unchecked) *)
  Definition v_index (idx : Z) : M V V := rd (v_begin + idx).
  (** 139-153 at *)
  Definition v_at (idx : Z) : M V V :=
    sz <- v_size ;; if sz <=? idx then throw OutOfRange else rd (v_begin + idx).
  (** 206-216 front *)
  Definition v_front : M V V :=
    em <- v_empty ;; dassert dbg (negb em) ;;; rd v_begin.
  (** 218-228 back *)
  Definition v_back : M V V :=
    em <- v_empty ;; dassert dbg (negb em) ;;; e <- v_end ;; rd (e - 1).

  (** [++m_end] *)
  Definition v_inc_end : M V unit := e <- get_me ;; set_me (w64 (e + 1)).

  (** 248-255 push_back *)
  Definition v_push_back (data : ref V) : M V unit :=
    f <- v_full ;;
    if f then throw BadAlloc else
    e <- v_end ;; x <- deref data ;; ctor e x ;;; v_inc_end.

  (** 257-262 pop_back *)
  Definition v_pop_back : M V unit :=
    em <- v_empty ;; dassert dbg (negb em) ;;;
    e <- v_end ;; dtor (e - 1) ;;;
    e' <- get_me ;; set_me (w64 (e' - 1)).

  (** 230-246 resize *)
  Definition v_resize (n : Z) (data : ref V) : M V unit :=
    sz <- v_size ;;
    if n <=? sz then
      e <- v_end ;; v_destroy_range (v_begin + n) e ;;; set_me n
    else if cap <? n then throw BadAlloc
    else
      let rest := w64 (n - sz) in
      loop vfuel (fun i => ret (i <? rest)) (fun i => v_push_back data ;;; ret (i + 1)) 0 ;;; ret tt.

  (** 264-271 assign(n, data) *)
  Definition v_assign_n (n : Z) (data : ref V) : M V unit :=
    if cap <? n then throw BadAlloc else v_clear ;;; v_resize n data.

  (** 273-287 assign(first, last); the counting loop is [List.length], as a size_t *)
  Definition v_assign_range (xs : list V) : M V unit :=
    let n := w64 (lenz xs) in
    if cap <? n then throw BadAlloc else
    v_clear ;;;
    loop (length xs) (fun i => ret (negb (i =? lenz xs)))
                     (fun i => x <- rdin xs i ;; v_push_back (RVal x) ;;; ret (i + 1)) 0 ;;; ret tt.

  (** 346-378 insert_n; [v_insert_n_rest] is what follows the capacity check (351-377) *)
  Definition v_insert_n_rest (pos n : Z) (data : ref V) : M V unit :=
    e <- v_end ;;
    let num := w64 (e - pos) in
    let old_end := e in
    if n <? num then
      loop vfuel (fun i => ret (i <? n))
                 (fun i => e <- v_end ;; ctor_default e ;;; v_inc_end ;;; ret (i + 1)) 0 ;;;
      loop vfuel (fun it => ret (negb (it =? pos - 1)))
                 (fun it => x <- rd it ;; asg (it + n) x ;;; ret (it - 1)) (old_end - 1) ;;;
      loop vfuel (fun it => ret (negb (it =? pos + n)))
                 (fun it => x <- deref data ;; asg it x ;;; ret (it + 1)) pos ;;; ret tt
    else
      loop vfuel (fun i => ret (i <? w64 (n - num)))
                 (fun i => e <- v_end ;; x <- deref data ;; ctor e x ;;; v_inc_end ;;; ret (i + 1)) 0 ;;;
      loop vfuel (fun it => ret (negb (it =? pos + num)))
                 (fun it => e <- v_end ;; x <- rd it ;; ctor e x ;;; v_inc_end ;;; ret (it + 1)) pos ;;;
      loop vfuel (fun it => ret (negb (it =? old_end)))
                 (fun it => x <- deref data ;; asg it x ;;; ret (it + 1)) pos ;;; ret tt.
  Definition v_insert_n (pos n : Z) (data : ref V) : M V unit :=
    av <- v_available_size ;;
    if av <? n then throw BadAlloc else v_insert_n_rest pos n data.

  (** 380-422 insert_range; [v_insert_range_rest] is what follows the capacity check, n = 382-387 the length of the range *)
  Definition v_insert_range_rest (pos n : Z) (xs : list V) : M V unit :=
    e <- v_end ;;
    let num := w64 (e - pos) in
    let old_end := e in
    if n <? num then
      loop vfuel (fun i => ret (i <? n))
                 (fun i => e <- v_end ;; ctor_default e ;;; v_inc_end ;;; ret (i + 1)) 0 ;;;
      loop vfuel (fun it => ret (negb (it =? pos - 1)))
                 (fun it => x <- rd it ;; asg (it + n) x ;;; ret (it - 1)) (old_end - 1) ;;;
      loop vfuel (fun pf => ret (negb (snd pf =? lenz xs)))
                 (fun pf => x <- rdin xs (snd pf) ;; asg (fst pf) x ;;; ret (fst pf + 1, snd pf + 1)) (pos, 0) ;;;
      ret tt
    else
      (* [mid] is advanced num times, then n - num times while constructing *)
      im <- loop vfuel (fun im => ret (fst im <? num))
                 (fun im => ret (fst im + 1, snd im + 1)) (0, 0) ;;
      loop vfuel (fun im => ret (fst im <? w64 (n - num)))
                 (fun im => e <- v_end ;; x <- rdin xs (snd im) ;; ctor e x ;;;
                            v_inc_end ;;; ret (fst im + 1, snd im + 1)) (0, snd im) ;;;
      loop vfuel (fun it => ret (negb (it =? pos + num)))
                 (fun it => e <- v_end ;; x <- rd it ;; ctor e x ;;; v_inc_end ;;; ret (it + 1)) pos ;;;
      loop vfuel (fun pf => ret (negb (fst pf =? old_end)))
                 (fun pf => x <- rdin xs (snd pf) ;; asg (fst pf) x ;;; ret (fst pf + 1, snd pf + 1)) (pos, 0) ;;;
      ret tt.
  Definition v_insert_range (pos : Z) (xs : list V) : M V unit :=
    let n := w64 (lenz xs) in
    av <- v_available_size ;;
    if av <? n then throw BadAlloc else v_insert_range_rest pos n xs.

  (** 289-294 insert(pos, data); 296-300 insert(pos, n, data); 302-308 insert(pos, first, last) *)
  Definition v_pos_ok (pos : Z) : M V bool :=
    e <- v_end ;; ret ((v_begin <=? pos) && (pos <=? e)).
  Definition v_insert_one (pos : Z) (data : ref V) : M V Z :=
    ok <- v_pos_ok pos ;; dassert dbg ok ;;; v_insert_n pos 1 data ;;; ret pos.
  Definition v_insert_cnt (pos n : Z) (data : ref V) : M V unit :=
    ok <- v_pos_ok pos ;; dassert dbg ok ;;; v_insert_n pos n data.
  Definition v_insert_rng (pos : Z) (xs : list V) : M V unit :=
    ok <- v_pos_ok pos ;; dassert dbg ok ;;; v_insert_range pos xs.
  (** 302-308 with 334-338: insert(pos, int n, int x) dispatches to insert_n with n converted to size_t *)
  Definition v_insert_int (pos n : Z) (x : V) : M V unit :=
    ok <- v_pos_ok pos ;; dassert dbg ok ;;; v_insert_n pos (w64 n) (RVal x).

  (** 316-328 erase(first, last) *)
  Definition v_erase_range (first last : Z) : M V Z :=
    dassert dbg (first <? last) ;;;
    e <- v_end ;;
    dassert dbg ((v_begin <=? first) && (first <? e)) ;;;
    dassert dbg ((v_begin <=? last) && (last <=? e)) ;;;
    let n := last - first in
    loop vfuel (fun it => e <- v_end ;; ret (negb (it =? e)))
               (fun it => x <- rd it ;; asg (it - n) x ;;; ret (it + 1)) last ;;;
    e <- v_end ;;
    v_destroy_range (e - n) e ;;;
    m <- get_me ;; set_me (w64 (m - n)) ;;;
    ret first.

  (** 310-314 erase(pos) *)
  Definition v_erase_one (pos : Z) : M V Z :=
    e <- v_end ;; dassert dbg ((v_begin <=? pos) && (pos <? e)) ;;;
    v_erase_range pos (pos + 1).

  (** 82-85 destructor *)
  Definition v_destruct : M V unit :=
    e <- v_end ;; v_destroy_range v_begin e.

  (** iteration from begin() to end(), reading every element *)
  Definition v_read_all : M V (list V) :=
    r <- loop vfuel (fun ia => e <- v_end ;; ret (negb (fst ia =? e)))
                    (fun ia => x <- rd (fst ia) ;; ret (fst ia + 1, snd ia ++ [x])) (v_begin, []) ;;
    ret (snd r).

  (** 66-80 constructors: assign on a fresh object.  The object is *not* destroyed if assign throws. *)
  Definition v_construct_n (f : option nat) (n : Z) (data : V) : res V unit :=
    v_assign_n n (RVal data) (mkst (fun _ => None) 0 0 f).
  Definition v_construct_range (f : option nat) (xs : list V) : res V unit :=
    v_assign_range xs (mkst (fun _ => None) 0 0 f).
  Definition v_construct_copy (f : option nat) (x : st V) : res V unit :=
    match v_read_all x with
    | Ok xs _ => v_construct_range f xs
    | _ => UB
    end.

  (** 87-93 operator=; [self] is the test this == &x *)
  Definition v_operator_assign (self : bool) (x : st V) : M V unit :=
    if self then ret tt
    else match v_read_all x with
         | Ok xs _ => v_assign_range xs
         | _ => ub
         end.

  (** One call of the public interface, as a user makes it: positions are given as begin() + offset and returned
      iterators are reported as [it - begin()]. *)
  Definition v_step (o : op V) : M V (out V) :=
    match o with
    | PushBack v => v_push_back (RVal v) ;;; ret OUnit
    | PopBack => v_pop_back ;;; ret OUnit
    | PushFront _ | PopFront => ub            (* not members of the vector *)
    | InsertOne p v => it <- v_insert_one (v_begin + p) (RVal v) ;; ret (OPos (it - v_begin))
    | InsertN p n v => v_insert_cnt (v_begin + p) n (RVal v) ;;; ret OUnit
    | InsertInt p n v => v_insert_int (v_begin + p) n v ;;; ret OUnit
    | InsertRange p xs => v_insert_rng (v_begin + p) xs ;;; ret OUnit
    | EraseOne p => it <- v_erase_one (v_begin + p) ;; ret (OPos (it - v_begin))
    | EraseRange p q => it <- v_erase_range (v_begin + p) (v_begin + q) ;; ret (OPos (it - v_begin))
    | AssignN n v => v_assign_n n (RVal v) ;;; ret OUnit
    | AssignRange xs => v_assign_range xs ;;; ret OUnit
    | Resize n v => v_resize n (RVal v) ;;; ret OUnit
    | Clear => v_clear ;;; ret OUnit
    | At i => x <- v_at i ;; ret (OVal x)
    | Index i => x <- v_index i ;; ret (OVal x)
    | Front => x <- v_front ;; ret (OVal x)
    | Back => x <- v_back ;; ret (OVal x)
    | Size => n <- v_size ;; ret (ONum n)
    | AvailableSize => n <- v_available_size ;; ret (ONum n)
    | IsEmpty => b <- v_empty ;; ret (OBool b)
    | IsFull => b <- v_full ;; ret (OBool b)
    | ReadAll => l <- v_read_all ;; ret (OList l)
    end.

  (** A history of calls; an exception is reported to the caller, who carries on with the same object.
      Undefined behaviour, a failed assertion or divergence give None. *)
  Fixpoint v_run (s : st V) (os : list (op V)) : option (list (out V) * st V) :=
    match os with
    | [] => Some ([], s)
    | o :: os' =>
        match v_step o s with
        | Ok r s' => match v_run s' os' with Some (rs, s'') => Some (r :: rs, s'') | None => None end
        | Thr e s' => match v_run s' os' with Some (rs, s'') => Some (OExn e :: rs, s'') | None => None end
        | _ => None
        end
    end.
  (** The same where before each call the fuse is set: call i throws at its (k+1)-th element operation. *)
  Fixpoint v_run_fused (s : st V) (os : list (option nat * op V)) : option (list (out V) * st V) :=
    match os with
    | [] => Some ([], s)
    | (f, o) :: os' =>
        match v_step o (mkst (mem s) (mb s) (me s) f) with
        | Ok r s' => match v_run_fused s' os' with Some (rs, s'') => Some (r :: rs, s'') | None => None end
        | Thr e s' => match v_run_fused s' os' with Some (rs, s'') => Some (OExn e :: rs, s'') | None => None end
        | _ => None
        end
    end.
End Vector.

(** 426-439 operator== ; capacities are template arguments of the type, hence equal.
    P:436-455 the Preallocated version first compares max_size(). *)
Definition v_eq {V} (eqb : V -> V -> bool) (capx capy : Z) (x y : st V) : res V bool :=
  if negb (me x =? me y) then Ok false x
  else
    match
      loop (Z.to_nat (me x)) (fun ib : Z * bool => ret ((fst ib <? me x) && snd ib))
           (fun ib => match v_index capx (fst ib) x, v_index capy (fst ib) y with
                      | Ok a _, Ok b _ => if eqb a b then ret (fst ib + 1, true) else ret (fst ib, false)
                      | _, _ => ub
                      end) (0, true) x
    with
    | Ok ib s => Ok (snd ib) s
    | Thr e s => Thr e s
    | AssertFail s => AssertFail s
    | UB => UB
    | Diverge => Diverge
    end.
Definition pv_eq {V} (eqb : V -> V -> bool) (capx capy : Z) (x y : st V) : res V bool :=
  if negb (capx =? capy) then Ok false x else v_eq eqb capx capy x y.
(** 441-445 operator!= *)
Definition v_neq {V} (eqb : V -> V -> bool) (capx capy : Z) (x y : st V) : res V bool :=
  match v_eq eqb capx capy x y with Ok b s => Ok (negb b) s | r => r end.

(** PreallocatedVector.h:43-45 data members, 63-77 constructors; [pv_buf] is m_buf (None = null pointer) *)
Record pvec (V : Type) := mkpv { pv_buf : option Z; pv_bytes : Z; pv_st : st V }.
Arguments mkpv {V}. Arguments pv_buf {V}. Arguments pv_bytes {V}. Arguments pv_st {V}.
Definition pv_default {V} : pvec V := mkpv None 0 (@v_init V).
Definition pv_construct {V} (buf : option Z) (bytes : Z) : pvec V := mkpv buf bytes v_init.
(** PreallocatedVector.h:96-103 init *)
Definition pv_init {V} (buf : option Z) (bytes : Z) (x : pvec V) : pvec V :=
  match pv_buf x with
  | Some _ => x
  | None => mkpv buf bytes (pv_st x)
  end.
(** PreallocatedVector.h:118-121 max_size *)
Definition pv_max_size {V} (sizeofT : Z) (x : pvec V) : Z := pv_bytes x / sizeofT.
(** a history of calls on a PreallocatedVector: the member functions are those of FixedVector *)
Definition pv_run {V} (torn dflt : V) (dbg : bool) (sizeofT : Z) (x : pvec V) (os : list (op V)) :=
  v_run (pv_max_size sizeofT x) torn dflt dbg (pv_st x) os.
