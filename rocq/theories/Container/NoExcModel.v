(** Model of the containers in a build with CPPELIB_NO_EXCEPTIONS.
    mechanism/Container/ContainerException.h:7-12: CPPELIB_CONTAINER_THROW(x) is then CHECK_ASSERT(false && #x), a statement after which
    the program goes on if Assertion::Failure::assertFail returns; mechanism/Assertion/Assertion.h:30-31, 105-115 (the model of assertFail is
    [assert_fail], Assertion/AssertionModel.v).
    Every member function that has a CPPELIB_CONTAINER_THROW or a DEBUG_ASSERT is written again with both as statements ([raise], [chk]);
    the parts without are those of VectorModel.v and DequeModel.v.  With [raise] a throw they are the functions of those files
    (NoExcProofs.v, [xv_step_exceptions], [xd_step_exceptions]). *)
From Verif Require Import Base.ZList Spec.SeqSpec Container.Mem Container.VectorModel Container.DequeModel Container.ArrayModel
  Assertion.AssertionModel.

(** a failed CHECK_ASSERT without exceptions: the handler is called, if there is one; the program goes on if it returns.
    [AssertFail]: it does not.  (A handler cannot throw in such a build; it is counted as not returning.) *)
Definition nx_fail {V} (beh : nat -> hbeh) (handler : option nat) : M V unit :=
  fun s => match snd (assert_fail true beh handler []) with AContinue => Ok tt s | _ => AssertFail s end.
Definition nx_raise {V} (beh : nat -> hbeh) (handler : option nat) (e : exn) : M V unit := nx_fail beh handler.
Definition nx_chk {V} (beh : nat -> hbeh) (handler : option nat) (dbg b : bool) : M V unit :=
  if dbg then (if b then ret tt else nx_fail beh handler) else ret tt.

(** * FixedVector.h, PreallocatedVector.h (line numbers: FixedVector.h) *)
Section XVector.
  Context {V : Type}.
  Variable cap : Z.
  Variable torn dflt : V.
  Variable raise : exn -> M V unit.     (* CPPELIB_CONTAINER_THROW *)
  Variable chk : bool -> M V unit.      (* DEBUG_ASSERT *)

  (** 139-153 at *)
  Definition xv_at (idx : Z) : M V V :=
    sz <- v_size ;; (if sz <=? idx then raise OutOfRange else ret tt) ;;; rd cap (v_begin + idx).
  (** 206-228 front, back *)
  Definition xv_front : M V V := em <- v_empty ;; chk (negb em) ;;; rd cap v_begin.
  Definition xv_back : M V V := em <- v_empty ;; chk (negb em) ;;; e <- v_end ;; rd cap (e - 1).
  (** 248-255 push_back *)
  Definition xv_push_back (data : ref V) : M V unit :=
    f <- v_full cap ;; (if f then raise BadAlloc else ret tt) ;;;
    e <- v_end ;; x <- deref cap data ;; ctor cap e x ;;; v_inc_end.
  (** 257-262 pop_back *)
  Definition xv_pop_back : M V unit :=
    em <- v_empty ;; chk (negb em) ;;;
    e <- v_end ;; dtor cap (e - 1) ;;; e' <- get_me ;; set_me (w64 (e' - 1)).
  (** 230-246 resize *)
  Definition xv_resize (n : Z) (data : ref V) : M V unit :=
    sz <- v_size ;;
    if n <=? sz then e <- v_end ;; v_destroy_range cap (v_begin + n) e ;;; set_me n
    else
      (if cap <? n then raise BadAlloc else ret tt) ;;;
      let rest := w64 (n - sz) in
      loop (vfuel cap) (fun i => ret (i <? rest)) (fun i => xv_push_back data ;;; ret (i + 1)) 0 ;;; ret tt.
  (** 264-287 assign *)
  Definition xv_assign_n (n : Z) (data : ref V) : M V unit :=
    (if cap <? n then raise BadAlloc else ret tt) ;;; v_clear cap ;;; xv_resize n data.
  Definition xv_assign_range (xs : list V) : M V unit :=
    (if cap <? w64 (lenz xs) then raise BadAlloc else ret tt) ;;;
    v_clear cap ;;;
    loop (length xs) (fun i => ret (negb (i =? lenz xs)))
                     (fun i => x <- rdin xs i ;; xv_push_back (RVal x) ;;; ret (i + 1)) 0 ;;; ret tt.
  (** 346-351, 380-389 insert_n, insert_range: the checks *)
  Definition xv_insert_n (pos n : Z) (data : ref V) : M V unit :=
    av <- v_available_size cap ;; (if av <? n then raise BadAlloc else ret tt) ;;; v_insert_n_rest cap torn dflt pos n data.
  Definition xv_insert_range (pos : Z) (xs : list V) : M V unit :=
    av <- v_available_size cap ;; (if av <? w64 (lenz xs) then raise BadAlloc else ret tt) ;;;
    v_insert_range_rest cap torn dflt pos (w64 (lenz xs)) xs.
  (** 289-308 insert *)
  Definition xv_insert_one (pos : Z) (data : ref V) : M V Z :=
    ok <- v_pos_ok pos ;; chk ok ;;; xv_insert_n pos 1 data ;;; ret pos.
  Definition xv_insert_cnt (pos n : Z) (data : ref V) : M V unit :=
    ok <- v_pos_ok pos ;; chk ok ;;; xv_insert_n pos n data.
  Definition xv_insert_rng (pos : Z) (xs : list V) : M V unit :=
    ok <- v_pos_ok pos ;; chk ok ;;; xv_insert_range pos xs.
  Definition xv_insert_int (pos n : Z) (x : V) : M V unit :=
    ok <- v_pos_ok pos ;; chk ok ;;; xv_insert_n pos (w64 n) (RVal x).
  (** 316-328 erase(first, last) *)
  Definition xv_erase_range (first last : Z) : M V Z :=
    chk (first <? last) ;;;
    e <- v_end ;;
    chk ((v_begin <=? first) && (first <? e)) ;;;
    chk ((v_begin <=? last) && (last <=? e)) ;;;
    let n := last - first in
    loop (vfuel cap) (fun it => e <- v_end ;; ret (negb (it =? e)))
               (fun it => x <- rd cap it ;; asg cap torn (it - n) x ;;; ret (it + 1)) last ;;;
    e <- v_end ;;
    v_destroy_range cap (e - n) e ;;;
    m <- get_me ;; set_me (w64 (m - n)) ;;;
    ret first.
  (** 310-314 erase(pos) *)
  Definition xv_erase_one (pos : Z) : M V Z :=
    e <- v_end ;; chk ((v_begin <=? pos) && (pos <? e)) ;;; xv_erase_range pos (pos + 1).
  (** one call, as [v_step] *)
  Definition xv_step (o : op V) : M V (out V) :=
    match o with
    | PushBack v => xv_push_back (RVal v) ;;; ret OUnit
    | PopBack => xv_pop_back ;;; ret OUnit
    | PushFront _ | PopFront => ub
    | InsertOne p v => it <- xv_insert_one (v_begin + p) (RVal v) ;; ret (OPos (it - v_begin))
    | InsertN p n v => xv_insert_cnt (v_begin + p) n (RVal v) ;;; ret OUnit
    | InsertInt p n v => xv_insert_int (v_begin + p) n v ;;; ret OUnit
    | InsertRange p xs => xv_insert_rng (v_begin + p) xs ;;; ret OUnit
    | EraseOne p => it <- xv_erase_one (v_begin + p) ;; ret (OPos (it - v_begin))
    | EraseRange p q => it <- xv_erase_range (v_begin + p) (v_begin + q) ;; ret (OPos (it - v_begin))
    | AssignN n v => xv_assign_n n (RVal v) ;;; ret OUnit
    | AssignRange xs => xv_assign_range xs ;;; ret OUnit
    | Resize n v => xv_resize n (RVal v) ;;; ret OUnit
    | Clear => v_clear cap ;;; ret OUnit
    | At i => x <- xv_at i ;; ret (OVal x)
    | Index i => x <- v_index cap i ;; ret (OVal x)
    | Front => x <- xv_front ;; ret (OVal x)
    | Back => x <- xv_back ;; ret (OVal x)
    | Size => n <- v_size ;; ret (ONum n)
    | AvailableSize => n <- v_available_size cap ;; ret (ONum n)
    | IsEmpty => b <- v_empty ;; ret (OBool b)
    | IsFull => b <- v_full cap ;; ret (OBool b)
    | ReadAll => l <- v_read_all cap ;; ret (OList l)
    end.
End XVector.

(** * FixedDeque.h, PreallocatedDeque.h (line numbers: FixedDeque.h) *)
Section XDeque.
  Context {V : Type}.
  Variable cap bufsize : Z.
  Variable torn dflt : V.
  Variable raise : exn -> M V unit.
  Variable chk : bool -> M V unit.
  Notation "i +' n" := (it_add bufsize i (s64 n)) (at level 50, left associativity).
  Notation "i -' n" := (it_sub bufsize i (s64 n)) (at level 50, left associativity).

  (** 316-330 at *)
  Definition xd_at (idx : Z) : M V V :=
    sz <- d_size bufsize ;; (if sz <=? idx then raise OutOfRange else ret tt) ;;; b <- d_begin ;; rd bufsize (b +' idx).
  (** 374-396 front, back *)
  Definition xd_front : M V V := em <- d_empty ;; chk (negb em) ;;; b <- d_begin ;; rd bufsize b.
  Definition xd_back : M V V := em <- d_empty ;; chk (negb em) ;;; e <- d_end ;; rd bufsize (e -' 1).
  (** 415-422 push_back, 424-429 pop_back, 431-438 push_front, 440-445 pop_front *)
  Definition xd_push_back (data : ref V) : M V unit :=
    f <- d_full cap bufsize ;; (if f then raise BadAlloc else ret tt) ;;;
    e <- d_end ;; x <- deref bufsize data ;; ctor bufsize e x ;;; d_inc_end bufsize.
  Definition xd_pop_back : M V unit :=
    em <- d_empty ;; chk (negb em) ;;;
    e <- d_end ;; dtor bufsize (e -' 1) ;;; e' <- get_me ;; set_me (prev_idx bufsize e' 1).
  Definition xd_push_front (data : ref V) : M V unit :=
    f <- d_full cap bufsize ;; (if f then raise BadAlloc else ret tt) ;;;
    b <- d_begin ;; x <- deref bufsize data ;; ctor bufsize (b -' 1) x ;;; d_dec_begin bufsize.
  Definition xd_pop_front : M V unit :=
    em <- d_empty ;; chk (negb em) ;;;
    b <- d_begin ;; dtor bufsize b ;;; b' <- get_mb ;; set_mb (next_idx bufsize b' 1).
  (** 398-413 resize *)
  Definition xd_resize (n : Z) (data : ref V) : M V unit :=
    sz <- d_size bufsize ;;
    if n <=? sz then
      b <- d_begin ;; e <- d_end ;; d_destroy_range bufsize (b +' n) e ;;;
      e' <- get_me ;; sz' <- d_size bufsize ;; set_me (prev_idx bufsize e' (w64 (sz' - n)))
    else
      (if cap <? n then raise BadAlloc else ret tt) ;;;
      let rest := w64 (n - sz) in
      loop (dfuel bufsize) (fun i => ret (i <? rest)) (fun i => xd_push_back data ;;; ret (i + 1)) 0 ;;; ret tt.
  (** 447-470 assign *)
  Definition xd_assign_n (n : Z) (data : ref V) : M V unit :=
    (if cap <? n then raise BadAlloc else ret tt) ;;; d_clear bufsize ;;; xd_resize n data.
  Definition xd_assign_range (xs : list V) : M V unit :=
    (if cap <? w64 (lenz xs) then raise BadAlloc else ret tt) ;;;
    d_clear bufsize ;;;
    loop (length xs) (fun i => ret (negb (i =? lenz xs)))
                     (fun i => x <- rdin xs i ;; xd_push_back (RVal x) ;;; ret (i + 1)) 0 ;;; ret tt.
  (** 570-575, 637-647 insert_n, insert_range: the checks *)
  Definition xd_insert_n (pos n : Z) (data : ref V) : M V Z :=
    av <- d_available_size cap bufsize ;; (if av <? n then raise BadAlloc else ret tt) ;;; d_insert_n_rest bufsize torn dflt pos n data.
  Definition xd_insert_range (pos : Z) (xs : list V) : M V unit :=
    av <- d_available_size cap bufsize ;; (if av <? w64 (lenz xs) then raise BadAlloc else ret tt) ;;;
    d_insert_range_rest bufsize torn dflt pos (w64 (lenz xs)) xs.
  (** 472-490 insert *)
  Definition xd_insert_one (pos : Z) (data : ref V) : M V Z :=
    ok <- d_pos_ok bufsize pos ;; chk ok ;;; xd_insert_n pos 1 data.
  Definition xd_insert_cnt (pos n : Z) (data : ref V) : M V unit :=
    ok <- d_pos_ok bufsize pos ;; chk ok ;;; xd_insert_n pos n data ;;; ret tt.
  Definition xd_insert_rng (pos : Z) (xs : list V) : M V unit :=
    ok <- d_pos_ok bufsize pos ;; chk ok ;;; xd_insert_range pos xs.
  Definition xd_insert_int (pos n : Z) (x : V) : M V unit :=
    ok <- d_pos_ok bufsize pos ;; chk ok ;;; xd_insert_n pos (w64 n) (RVal x) ;;; ret tt.
  (** 498-522 erase(first, last) *)
  Definition xd_erase_range (first last : Z) : M V Z :=
    b <- d_begin ;; e <- d_end ;;
    chk (it_lt bufsize b first last) ;;;
    chk (it_le bufsize b b first && it_lt bufsize b first e) ;;;
    chk (it_le bufsize b b last && it_le bufsize b last e) ;;;
    let n := w64 (it_diff bufsize b last first) in
    if it_diff bufsize b e last <=? it_diff bufsize b first b then
      loop (dfuel bufsize) (fun it => e <- d_end ;; ret (negb (it =? e)))
                 (fun it => x <- rd bufsize it ;; asg bufsize torn (it -' n) x ;;; ret (it +' 1)) last ;;;
      e <- d_end ;;
      d_destroy_range bufsize (e -' n) e ;;;
      m <- get_me ;; set_me (prev_idx bufsize m n) ;;;
      ret first
    else
      let stop := b -' 1 in
      loop (dfuel bufsize) (fun it => ret (negb (it =? stop)))
                 (fun it => x <- rd bufsize it ;; asg bufsize torn (it +' n) x ;;; ret (it -' 1)) (first -' 1) ;;;
      b <- d_begin ;;
      d_destroy_range bufsize b (b +' n) ;;;
      m <- get_mb ;; set_mb (next_idx bufsize m n) ;;;
      ret last.
  (** 492-496 erase(pos) *)
  Definition xd_erase_one (pos : Z) : M V Z :=
    b <- d_begin ;; e <- d_end ;;
    chk (it_le bufsize b b pos && it_lt bufsize b pos e) ;;;
    xd_erase_range pos (pos +' 1).
  (** one call, as [d_step] *)
  Definition xd_step (o : op V) : M V (out V) :=
    match o with
    | PushBack v => xd_push_back (RVal v) ;;; ret OUnit
    | PopBack => xd_pop_back ;;; ret OUnit
    | PushFront v => xd_push_front (RVal v) ;;; ret OUnit
    | PopFront => xd_pop_front ;;; ret OUnit
    | InsertOne p v => pos <- d_at_off bufsize p ;; it <- xd_insert_one pos (RVal v) ;; k <- d_off bufsize it ;; ret (OPos k)
    | InsertN p n v => pos <- d_at_off bufsize p ;; xd_insert_cnt pos n (RVal v) ;;; ret OUnit
    | InsertInt p n v => pos <- d_at_off bufsize p ;; xd_insert_int pos n v ;;; ret OUnit
    | InsertRange p xs => pos <- d_at_off bufsize p ;; xd_insert_rng pos xs ;;; ret OUnit
    | EraseOne p => pos <- d_at_off bufsize p ;; it <- xd_erase_one pos ;; k <- d_off bufsize it ;; ret (OPos k)
    | EraseRange p q => i <- d_at_off bufsize p ;; j <- d_at_off bufsize q ;; it <- xd_erase_range i j ;; k <- d_off bufsize it ;; ret (OPos k)
    | AssignN n v => xd_assign_n n (RVal v) ;;; ret OUnit
    | AssignRange xs => xd_assign_range xs ;;; ret OUnit
    | Resize n v => xd_resize n (RVal v) ;;; ret OUnit
    | Clear => d_clear bufsize ;;; ret OUnit
    | At i => x <- xd_at i ;; ret (OVal x)
    | Index i => x <- d_index bufsize i ;; ret (OVal x)
    | Front => x <- xd_front ;; ret (OVal x)
    | Back => x <- xd_back ;; ret (OVal x)
    | Size => n <- d_size bufsize ;; ret (ONum n)
    | AvailableSize => n <- d_available_size cap bufsize ;; ret (ONum n)
    | IsEmpty => b <- d_empty ;; ret (OBool b)
    | IsFull => b <- d_full cap bufsize ;; ret (OBool b)
    | ReadAll => l <- d_read_all bufsize ;; ret (OList l)
    end.
End XDeque.

(** * A program without exceptions: it ends at the first failed assertion whose handler does not return ([true]).
    Undefined behaviour and endless loops give None. *)
Fixpoint nx_run {V} (step : op V -> M V (out V)) (s : st V) (os : list (op V)) : option (list (out V) * st V * bool) :=
  match os with
  | [] => Some ([], s, false)
  | o :: os' =>
      match step o s with
      | Ok r s' => match nx_run step s' os' with Some (rs, s'', b) => Some (r :: rs, s'', b) | None => None end
      | AssertFail s' => Some ([], s', true)
      | _ => None
      end
  end.
Definition v_step_nx {V} (beh : nat -> hbeh) (handler : option nat) (cap : Z) (torn dflt : V) (dbg : bool) : op V -> M V (out V) :=
  xv_step cap torn dflt (nx_raise beh handler) (nx_chk beh handler dbg).
Definition d_step_nx {V} (beh : nat -> hbeh) (handler : option nat) (cap : Z) (torn dflt : V) (dbg : bool) : op V -> M V (out V) :=
  xd_step cap (cap + 1) torn dflt (nx_raise beh handler) (nx_chk beh handler dbg).

(** Array.h:62-76 at: [None] = the program has stopped *)
Definition arr_at_nx {V} (beh : nat -> hbeh) (handler : option nat) (Size : Z) (m : list V) (idx : Z) : option (ares V) :=
  if Size <=? idx then
    match snd (assert_fail true beh handler []) with AContinue => Some (arr_index m idx) | _ => None end
  else Some (arr_index m idx).
