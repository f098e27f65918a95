(** Model of mechanism/Container/FixedDeque.h and PreallocatedDeque.h.
    The two headers have the same member functions, text for text, apart from where the storage comes from, the
    constructors, max_size() and operator==; line numbers cite FixedDeque.h.
    An iterator is its m_idx; all iterators belong to the deque at hand, so m_deq is left out and the checks
    [DEBUG_ASSERT(m_deq != 0)], [m_deq == x.m_deq] always pass. *)
From Verif Require Import Base.ZList Spec.SeqSpec Container.Mem.

Section DequeIdx.
  Variable bufsize : Z.

  (** 531-538 next_idx (size_t arithmetic) *)
  Definition next_idx (idx un : Z) : Z :=
    if w64 (idx + un) <? bufsize then w64 (idx + un) else w64 (w64 (idx + un) - bufsize).
  (** 540-547 prev_idx *)
  Definition prev_idx (idx un : Z) : Z :=
    if un <=? idx then w64 (idx - un) else w64 (w64 (bufsize + idx) - un).
  (** 549-556 distance_idx *)
  Definition distance_idx (first_idx last_idx : Z) : Z :=
    if first_idx <=? last_idx then w64 (last_idx - first_idx)
    else w64 (w64 (bufsize - first_idx) + last_idx).

  (** 48-64 operator+=, operator+ ; n is a ptrdiff_t *)
  Definition it_add (i n : Z) : Z := if n <? 0 then prev_idx i (- n) else next_idx i n.
  (** 66-76, 88-92 operator-=, operator- *)
  Definition it_sub (i n : Z) : Z := if n <? 0 then next_idx i (- n) else prev_idx i n.
  (** 135-143 operator==, operator!= : on m_idx.  145-152 operator< : distance from m_begin *)
  Definition it_lt (m_begin i j : Z) : bool := distance_idx m_begin i <? distance_idx m_begin j.
  (** 154-167 operator>, <=, >= *)
  Definition it_le (m_begin i j : Z) : bool := negb (it_lt m_begin j i).
  Definition it_ge (m_begin i j : Z) : bool := negb (it_lt m_begin i j).
  (** 78-86 operator- between iterators *)
  Definition it_diff (m_begin i j : Z) : Z :=
    if it_ge m_begin i j then s64 (distance_idx j i) else - s64 (distance_idx i j).
End DequeIdx.

Section Deque.
  Context {V : Type}.
  Variable cap : Z.        (* max_size(): 280-283 *)
  Variable bufsize : Z.    (* BufSize: 218 *)
  Variable torn dflt : V.
  Variable dbg : bool.

  Notation rd := (@rd V bufsize).
  Notation ctor := (@ctor V bufsize).
  Notation ctor_default := (@ctor_default V bufsize dflt).
  Notation asg := (@asg V bufsize torn).
  Notation dtor := (@dtor V bufsize).
  Notation deref := (@deref V bufsize).
  Notation next := (next_idx bufsize).
  Notation prev := (prev_idx bufsize).
  Notation dist := (distance_idx bufsize).
  Notation "i +' n" := (it_add bufsize i (s64 n)) (at level 50, left associativity).
  Notation "i -' n" := (it_sub bufsize i (s64 n)) (at level 50, left associativity).

  Definition dfuel : nat := S (Z.to_nat bufsize).

  (** 239-241 default constructor *)
  Definition d_init : st V := mkst (fun _ => None) 0 0 None.

  (** 332-350 begin, end *)
  Definition d_begin : M V Z := get_mb.
  Definition d_end : M V Z := get_me.

  (** 275-278 size *)
  Definition d_size : M V Z := b <- get_mb ;; e <- get_me ;; ret (dist b e).
  (** 285-288 available_size *)
  Definition d_available_size : M V Z := sz <- d_size ;; ret (w64 (cap - sz)).
  (** 290-293 empty *)
  Definition d_empty : M V bool := b <- get_mb ;; e <- get_me ;; ret (b =? e).
  (** 295-298 full *)
  Definition d_full : M V bool := sz <- d_size ;; ret (sz =? cap).

  (** private/Construct.h:26-32 destroy_range over deque iterators *)
  Definition d_destroy_range (first last : Z) : M V unit :=
    loop dfuel (fun it => ret (negb (it =? last)))
               (fun it => dtor it ;;; ret (it +' 1)) first ;;; ret tt.

  (** 300-304 clear *)
  Definition d_clear : M V unit :=
    b <- d_begin ;; e <- d_end ;; d_destroy_range b e ;;; b' <- get_mb ;; set_me b'.

  (** 306-314 operator[] *)
  Definition d_index (idx : Z) : M V V := b <- d_begin ;; rd (b +' idx).
  (** 316-330 at *)
  Definition d_at (idx : Z) : M V V :=
    sz <- d_size ;; if sz <=? idx then throw OutOfRange else b <- d_begin ;; rd (b +' idx).
  (** 374-384 front *)
  Definition d_front : M V V :=
    em <- d_empty ;; dassert dbg (negb em) ;;; b <- d_begin ;; rd b.
  (** 386-396 back *)
  Definition d_back : M V V :=
    em <- d_empty ;; dassert dbg (negb em) ;;; e <- d_end ;; rd (e -' 1).

  (** [m_end = next_idx(m_end)], [m_begin = prev_idx(m_begin)] *)
  Definition d_inc_end : M V unit := e <- get_me ;; set_me (next e 1).
  Definition d_dec_begin : M V unit := b <- get_mb ;; set_mb (prev b 1).

  (** 415-422 push_back *)
  Definition d_push_back (data : ref V) : M V unit :=
    f <- d_full ;;
    if f then throw BadAlloc else
    e <- d_end ;; x <- deref data ;; ctor e x ;;; d_inc_end.
  (** 424-429 pop_back *)
  Definition d_pop_back : M V unit :=
    em <- d_empty ;; dassert dbg (negb em) ;;;
    e <- d_end ;; dtor (e -' 1) ;;;
    e' <- get_me ;; set_me (prev e' 1).
  (** 431-438 push_front *)
  Definition d_push_front (data : ref V) : M V unit :=
    f <- d_full ;;
    if f then throw BadAlloc else
    b <- d_begin ;; x <- deref data ;; ctor (b -' 1) x ;;; d_dec_begin.
  (** 440-445 pop_front *)
  Definition d_pop_front : M V unit :=
    em <- d_empty ;; dassert dbg (negb em) ;;;
    b <- d_begin ;; dtor b ;;;
    b' <- get_mb ;; set_mb (next b' 1).

  (** 398-413 resize *)
  Definition d_resize (n : Z) (data : ref V) : M V unit :=
    sz <- d_size ;;
    if n <=? sz then
      b <- d_begin ;; e <- d_end ;; d_destroy_range (b +' n) e ;;;
      e' <- get_me ;; sz' <- d_size ;; set_me (prev e' (w64 (sz' - n)))
    else if cap <? n then throw BadAlloc
    else
      let rest := w64 (n - sz) in
      loop dfuel (fun i => ret (i <? rest)) (fun i => d_push_back data ;;; ret (i + 1)) 0 ;;; ret tt.

  (** 447-454 assign(n, data) *)
  Definition d_assign_n (n : Z) (data : ref V) : M V unit :=
    if cap <? n then throw BadAlloc else d_clear ;;; d_resize n data.

  (** 456-470 assign(first, last); the counting loop is [List.length], as a size_t *)
  Definition d_assign_range (xs : list V) : M V unit :=
    let n := w64 (lenz xs) in
    if cap <? n then throw BadAlloc else
    d_clear ;;;
    loop (length xs) (fun i => ret (negb (i =? lenz xs)))
                     (fun i => x <- rdin xs i ;; d_push_back (RVal x) ;;; ret (i + 1)) 0 ;;; ret tt.

  (** 570-635 insert_n; [d_insert_n_rest] is what follows the capacity check *)
  Definition d_insert_n_rest (pos n : Z) (data : ref V) : M V Z :=
    sz <- d_size ;; b <- d_begin ;;
    if sz / 2 <? w64 (it_diff bufsize b pos b) then
      (* move the end side: 577-604 *)
      e <- d_end ;;
      let num := w64 (it_diff bufsize b e pos) in
      let old_end := e in
      (if n <? num then
        loop dfuel (fun i => ret (i <? n))
                   (fun i => e <- d_end ;; ctor_default e ;;; d_inc_end ;;; ret (i + 1)) 0 ;;;
        loop dfuel (fun it => ret (negb (it =? pos -' 1)))
                   (fun it => x <- rd it ;; asg (it +' n) x ;;; ret (it -' 1)) (old_end -' 1) ;;;
        loop dfuel (fun it => ret (negb (it =? pos +' n)))
                   (fun it => x <- deref data ;; asg it x ;;; ret (it +' 1)) pos ;;; ret tt
      else
        loop dfuel (fun i => ret (i <? w64 (n - num)))
                   (fun i => e <- d_end ;; x <- deref data ;; ctor e x ;;; d_inc_end ;;; ret (i + 1)) 0 ;;;
        loop dfuel (fun it => ret (negb (it =? pos +' num)))
                   (fun it => e <- d_end ;; x <- rd it ;; ctor e x ;;; d_inc_end ;;; ret (it +' 1)) pos ;;;
        loop dfuel (fun it => ret (negb (it =? old_end)))
                   (fun it => x <- deref data ;; asg it x ;;; ret (it +' 1)) pos ;;; ret tt) ;;;
      ret pos
    else
      (* move the begin side: 606-633 *)
      let num := w64 (it_diff bufsize b pos b) in
      let old_begin := b in
      (if n <? num then
        loop dfuel (fun i => ret (i <? n))
                   (fun i => b <- d_begin ;; ctor_default (b -' 1) ;;; d_dec_begin ;;; ret (i + 1)) 0 ;;;
        loop dfuel (fun it => ret (negb (it =? pos)))
                   (fun it => x <- rd it ;; asg (it -' n) x ;;; ret (it +' 1)) old_begin ;;;
        loop dfuel (fun it => ret (negb (it =? pos)))
                   (fun it => x <- deref data ;; asg it x ;;; ret (it +' 1)) (pos -' n) ;;; ret tt
      else
        loop dfuel (fun i => ret (i <? w64 (n - num)))
                   (fun i => b <- d_begin ;; x <- deref data ;; ctor (b -' 1) x ;;; d_dec_begin ;;; ret (i + 1)) 0 ;;;
        loop dfuel (fun it => ret (negb (it =? old_begin -' 1)))
                   (fun it => b <- d_begin ;; x <- rd it ;; ctor (b -' 1) x ;;; d_dec_begin ;;; ret (it -' 1))
                   (pos -' 1) ;;;
        loop dfuel (fun it => ret (negb (it =? pos)))
                   (fun it => x <- deref data ;; asg it x ;;; ret (it +' 1)) old_begin ;;; ret tt) ;;;
      ret (pos -' n).
  Definition d_insert_n (pos n : Z) (data : ref V) : M V Z :=
    av <- d_available_size ;;
    if av <? n then throw BadAlloc else d_insert_n_rest pos n data.

  (** 637-715 insert_range; [d_insert_range_rest] is what follows the capacity check, n the length of the range *)
  Definition d_insert_range_rest (pos n : Z) (xs : list V) : M V unit :=
    sz <- d_size ;; b <- d_begin ;;
    if sz / 2 <? w64 (it_diff bufsize b pos b) then
      (* move the end side: 649-680 *)
      e <- d_end ;;
      let num := w64 (it_diff bufsize b e pos) in
      let old_end := e in
      if n <? num then
        loop dfuel (fun i => ret (i <? n))
                   (fun i => e <- d_end ;; ctor_default e ;;; d_inc_end ;;; ret (i + 1)) 0 ;;;
        loop dfuel (fun it => ret (negb (it =? pos -' 1)))
                   (fun it => x <- rd it ;; asg (it +' n) x ;;; ret (it -' 1)) (old_end -' 1) ;;;
        loop dfuel (fun pf => ret (negb (snd pf =? lenz xs)))
                   (fun pf => x <- rdin xs (snd pf) ;; asg (fst pf) x ;;; ret (fst pf +' 1, snd pf + 1)) (pos, 0) ;;;
        ret tt
      else
        im <- loop dfuel (fun im => ret (fst im <? num))
                   (fun im => ret (fst im + 1, snd im + 1)) (0, 0) ;;
        loop dfuel (fun im => ret (fst im <? w64 (n - num)))
                   (fun im => e <- d_end ;; x <- rdin xs (snd im) ;; ctor e x ;;;
                              d_inc_end ;;; ret (fst im + 1, snd im + 1)) (0, snd im) ;;;
        loop dfuel (fun it => ret (negb (it =? pos +' num)))
                   (fun it => e <- d_end ;; x <- rd it ;; ctor e x ;;; d_inc_end ;;; ret (it +' 1)) pos ;;;
        loop dfuel (fun pf => ret (negb (fst pf =? old_end)))
                   (fun pf => x <- rdin xs (snd pf) ;; asg (fst pf) x ;;; ret (fst pf +' 1, snd pf + 1)) (pos, 0) ;;;
        ret tt
    else
      (* move the begin side: 682-713 *)
      let num := w64 (it_diff bufsize b pos b) in
      let old_begin := b in
      if n <? num then
        loop dfuel (fun i => ret (i <? n))
                   (fun i => b <- d_begin ;; ctor_default (b -' 1) ;;; d_dec_begin ;;; ret (i + 1)) 0 ;;;
        loop dfuel (fun it => ret (negb (it =? pos)))
                   (fun it => x <- rd it ;; asg (it -' n) x ;;; ret (it +' 1)) old_begin ;;;
        loop dfuel (fun pf => ret (negb (fst pf =? pos)))
                   (fun pf => x <- rdin xs (snd pf) ;; asg (fst pf) x ;;; ret (fst pf +' 1, snd pf + 1))
                   (pos -' n, 0) ;;;
        ret tt
      else
        im <- loop dfuel (fun im => ret (fst im <? w64 (n - num)))
                   (fun im => ret (fst im + 1, snd im + 1)) (0, 0) ;;
        let mid := snd im in
        loop dfuel (fun ip => ret (fst ip <? w64 (n - num)))
                   (fun ip => b <- d_begin ;; let p := snd ip - 1 in x <- rdin xs p ;; ctor (b -' 1) x ;;;
                              d_dec_begin ;;; ret (fst ip + 1, p)) (0, mid) ;;;
        loop dfuel (fun it => ret (negb (it =? old_begin -' 1)))
                   (fun it => b <- d_begin ;; x <- rd it ;; ctor (b -' 1) x ;;; d_dec_begin ;;; ret (it -' 1))
                   (pos -' 1) ;;;
        loop dfuel (fun pf => ret (negb (fst pf =? pos)))
                   (fun pf => x <- rdin xs (snd pf) ;; asg (fst pf) x ;;; ret (fst pf +' 1, snd pf + 1))
                   (old_begin, mid) ;;;
        ret tt.
  Definition d_insert_range (pos : Z) (xs : list V) : M V unit :=
    let n := w64 (lenz xs) in
    av <- d_available_size ;;
    if av <? n then throw BadAlloc else d_insert_range_rest pos n xs.

  (** 472-490 insert *)
  Definition d_pos_ok (pos : Z) : M V bool :=
    b <- d_begin ;; e <- d_end ;; ret (it_le bufsize b b pos && it_le bufsize b pos e).
  Definition d_insert_one (pos : Z) (data : ref V) : M V Z :=
    ok <- d_pos_ok pos ;; dassert dbg ok ;;; d_insert_n pos 1 data.
  Definition d_insert_cnt (pos n : Z) (data : ref V) : M V unit :=
    ok <- d_pos_ok pos ;; dassert dbg ok ;;; d_insert_n pos n data ;;; ret tt.
  Definition d_insert_rng (pos : Z) (xs : list V) : M V unit :=
    ok <- d_pos_ok pos ;; dassert dbg ok ;;; d_insert_range pos xs.
  (** 484-490 with 558-562: integer arguments *)
  Definition d_insert_int (pos n : Z) (x : V) : M V unit :=
    ok <- d_pos_ok pos ;; dassert dbg ok ;;; d_insert_n pos (w64 n) (RVal x) ;;; ret tt.

  (** 498-522 erase(first, last) *)
  Definition d_erase_range (first last : Z) : M V Z :=
    b <- d_begin ;; e <- d_end ;;
    dassert dbg (it_lt bufsize b first last) ;;;
    dassert dbg (it_le bufsize b b first && it_lt bufsize b first e) ;;;
    dassert dbg (it_le bufsize b b last && it_le bufsize b last e) ;;;
    let n := w64 (it_diff bufsize b last first) in
    if it_diff bufsize b e last <=? it_diff bufsize b first b then
      (* move the end side: 505-511 *)
      loop dfuel (fun it => e <- d_end ;; ret (negb (it =? e)))
                 (fun it => x <- rd it ;; asg (it -' n) x ;;; ret (it +' 1)) last ;;;
      e <- d_end ;;
      d_destroy_range (e -' n) e ;;;
      m <- get_me ;; set_me (prev m n) ;;;
      ret first
    else
      (* move the begin side: 513-520 *)
      let stop := b -' 1 in
      loop dfuel (fun it => ret (negb (it =? stop)))
                 (fun it => x <- rd it ;; asg (it +' n) x ;;; ret (it -' 1)) (first -' 1) ;;;
      b <- d_begin ;;
      d_destroy_range b (b +' n) ;;;
      m <- get_mb ;; set_mb (next m n) ;;;
      ret last.

  (** 492-496 erase(pos) *)
  Definition d_erase_one (pos : Z) : M V Z :=
    b <- d_begin ;; e <- d_end ;;
    dassert dbg (it_le bufsize b b pos && it_lt bufsize b pos e) ;;;
    d_erase_range pos (pos +' 1).

  (** 262-265 destructor *)
  Definition d_destruct : M V unit :=
    b <- d_begin ;; e <- d_end ;; d_destroy_range b e.

  (** iteration from begin() to end(), reading every element *)
  Definition d_read_all : M V (list V) :=
    b <- d_begin ;;
    r <- loop dfuel (fun ia => e <- d_end ;; ret (negb (fst ia =? e)))
                    (fun ia => x <- rd (fst ia) ;; ret (fst ia +' 1, snd ia ++ [x])) (b, []) ;;
    ret (snd r).

  (** 243-260 constructors.  The object is *not* destroyed if assign throws. *)
  Definition d_construct_n (f : option nat) (n : Z) (data : V) : res V unit :=
    d_assign_n n (RVal data) (mkst (fun _ => None) 0 0 f).
  Definition d_construct_range (f : option nat) (xs : list V) : res V unit :=
    d_assign_range xs (mkst (fun _ => None) 0 0 f).
  Definition d_construct_copy (f : option nat) (x : st V) : res V unit :=
    match d_read_all x with
    | Ok xs _ => d_construct_range f xs
    | _ => UB
    end.

  (** 267-273 operator= ; [self] is the test this == &x *)
  Definition d_operator_assign (self : bool) (x : st V) : M V unit :=
    if self then ret tt
    else match d_read_all x with
         | Ok xs _ => d_assign_range xs
         | _ => ub
         end.

  (** One call of the public interface, as a user makes it: positions are given as [begin() + offset] and returned
      iterators are reported as [it - begin()]. *)
  Definition d_at_off (p : Z) : M V Z := b <- d_begin ;; ret (it_add bufsize b p).
  Definition d_off (it : Z) : M V Z := b <- d_begin ;; ret (it_diff bufsize b it b).
  Definition d_step (o : op V) : M V (out V) :=
    match o with
    | PushBack v => d_push_back (RVal v) ;;; ret OUnit
    | PopBack => d_pop_back ;;; ret OUnit
    | PushFront v => d_push_front (RVal v) ;;; ret OUnit
    | PopFront => d_pop_front ;;; ret OUnit
    | InsertOne p v => pos <- d_at_off p ;; it <- d_insert_one pos (RVal v) ;; k <- d_off it ;; ret (OPos k)
    | InsertN p n v => pos <- d_at_off p ;; d_insert_cnt pos n (RVal v) ;;; ret OUnit
    | InsertInt p n v => pos <- d_at_off p ;; d_insert_int pos n v ;;; ret OUnit
    | InsertRange p xs => pos <- d_at_off p ;; d_insert_rng pos xs ;;; ret OUnit
    | EraseOne p => pos <- d_at_off p ;; it <- d_erase_one pos ;; k <- d_off it ;; ret (OPos k)
    | EraseRange p q => i <- d_at_off p ;; j <- d_at_off q ;; it <- d_erase_range i j ;; k <- d_off it ;; ret (OPos k)
    | AssignN n v => d_assign_n n (RVal v) ;;; ret OUnit
    | AssignRange xs => d_assign_range xs ;;; ret OUnit
    | Resize n v => d_resize n (RVal v) ;;; ret OUnit
    | Clear => d_clear ;;; ret OUnit
    | At i => x <- d_at i ;; ret (OVal x)
    | Index i => x <- d_index i ;; ret (OVal x)
    | Front => x <- d_front ;; ret (OVal x)
    | Back => x <- d_back ;; ret (OVal x)
    | Size => n <- d_size ;; ret (ONum n)
    | AvailableSize => n <- d_available_size ;; ret (ONum n)
    | IsEmpty => b <- d_empty ;; ret (OBool b)
    | IsFull => b <- d_full ;; ret (OBool b)
    | ReadAll => l <- d_read_all ;; ret (OList l)
    end.
  (** a history of calls (as v_run) *)
  Fixpoint d_run (s : st V) (os : list (op V)) : option (list (out V) * st V) :=
    match os with
    | [] => Some ([], s)
    | o :: os' =>
        match d_step o s with
        | Ok r s' => match d_run s' os' with Some (rs, s'') => Some (r :: rs, s'') | None => None end
        | Thr e s' => match d_run s' os' with Some (rs, s'') => Some (OExn e :: rs, s'') | None => None end
        | _ => None
        end
    end.

  (** the size of another object *)
  Definition d_sizeof (x : st V) : Z := dist (mb x) (me x).
End Deque.

(** 719-731 operator== *)
Definition d_eq {V} (eqb : V -> V -> bool) (bufx bufy : Z) (x y : st V) : res V bool :=
  if negb (d_sizeof bufx x =? d_sizeof bufy y) then Ok false x
  else
    match
      loop (Z.to_nat (d_sizeof bufx x)) (fun ib : Z * bool => ret ((fst ib <? d_sizeof bufx x) && snd ib))
           (fun ib => match d_index bufx (fst ib) x, d_index bufy (fst ib) y with
                      | Ok a _, Ok b _ => if eqb a b then ret (fst ib + 1, true) else ret (fst ib, false)
                      | _, _ => ub
                      end) (0, true) x
    with
    | Ok ib s => Ok (snd ib) s
    | Thr e s => Thr e s
    | AssertFail s => AssertFail s
    | UB => UB
    | Diverge => Diverge
    end.
(** PreallocatedDeque.h:736-752 operator== first compares max_size() *)
Definition pd_eq {V} (eqb : V -> V -> bool) (bufx bufy : Z) (x y : st V) : res V bool :=
  if negb (w64 (bufx - 1) =? w64 (bufy - 1)) then Ok false x else d_eq eqb bufx bufy x y.
(** 733-737 operator!= *)
Definition d_neq {V} (eqb : V -> V -> bool) (bufx bufy : Z) (x y : st V) : res V bool :=
  match d_eq eqb bufx bufy x y with Ok b s => Ok (negb b) s | r => r end.

(** PreallocatedDeque.h:217-220 data members, 238-252 constructors; [pd_buf] is m_buf (None = null pointer) *)
Record pdeq (V : Type) := mkpd { pd_buf : option Z; pd_bytes : Z; pd_st : st V }.
Arguments mkpd {V}. Arguments pd_buf {V}. Arguments pd_bytes {V}. Arguments pd_st {V}.
Definition pd_default {V} : pdeq V := mkpd None 0 (@d_init V).
Definition pd_construct {V} (buf : option Z) (bytes : Z) : pdeq V := mkpd buf bytes d_init.
(** PreallocatedDeque.h:270-277 init *)
Definition pd_init {V} (buf : option Z) (bytes : Z) (x : pdeq V) : pdeq V :=
  match pd_buf x with
  | Some _ => x
  | None => mkpd buf bytes (pd_st x)
  end.
(** PreallocatedDeque.h:543-546 num_elems_in_buf *)
Definition pd_num_elems {V} (sizeofT : Z) (x : pdeq V) : Z := pd_bytes x / sizeofT.
(** PreallocatedDeque.h:292-295 max_size: size_t subtraction *)
Definition pd_max_size {V} (sizeofT : Z) (x : pdeq V) : Z := w64 (pd_bytes x / sizeofT - 1).
(** a history of calls on a PreallocatedDeque: the member functions are those of FixedDeque with BufSize replaced by
    num_elems_in_buf().  The element slots that fit in the buffer are [0, num_elems_in_buf()). *)
Definition pd_run {V} (torn dflt : V) (dbg : bool) (sizeofT : Z) (x : pdeq V) (os : list (op V)) :=
  d_run (pd_max_size sizeofT x) (pd_num_elems sizeofT x) torn dflt dbg (pd_st x) os.
