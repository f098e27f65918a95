(** Model of mechanism/Container/IntrusiveList.h.  The heap holds the two links of every node (elements and list
    terminators alike; 16-29).  A node is its address; None is the null pointer.  Nodes are assumed to stay allocated:
    a dangling pointer is not modelled. *)
From Coq Require Import List Arith Bool.
Import ListNotations.
From Verif Require Import Spec.ListFamSpec.

Record heap := mkh { nx : nat -> option nat; pv : nat -> option nat }.
Definition hupd (f : nat -> option nat) (n : nat) (v : option nat) : nat -> option nat :=
  fun m => if m =? n then v else f m.

(** [LUB]: a null pointer is dereferenced.  [LAssert]: DEBUG_ASSERT fired.  [LDiverge]: loop fuel exhausted. *)
Inductive lres (A : Type) := LOk (a : A) (h : heap) | LAssert (h : heap) | LUB | LDiverge.
Arguments LOk {A}. Arguments LAssert {A}. Arguments LUB {A}. Arguments LDiverge {A}.
Definition LM (A : Type) := heap -> lres A.
Definition lret {A} (a : A) : LM A := fun h => LOk a h.
Definition lbind {A C} (m : LM A) (k : A -> LM C) : LM C :=
  fun h => match m h with
           | LOk a h' => k a h'
           | LAssert h' => LAssert h'
           | LUB => LUB
           | LDiverge => LDiverge
           end.
Declare Scope lm_scope.
Delimit Scope lm_scope with lm.
Notation "x <- m ;; k" := (lbind m (fun x => k)) (at level 90, m at level 89, right associativity) : lm_scope.
Notation "m ;;; k" := (lbind m (fun _ => k)) (at level 90, right associativity) : lm_scope.
Open Scope lm_scope.

(** p->m_nextListNode, p->m_prevListNode, where p may be null *)
Definition deref (p : option nat) : LM nat := fun h => match p with Some n => LOk n h | None => LUB end.
Definition get_nx (p : option nat) : LM (option nat) := n <- deref p ;; fun h => LOk (nx h n) h.
Definition get_pv (p : option nat) : LM (option nat) := n <- deref p ;; fun h => LOk (pv h n) h.
Definition set_nx (p v : option nat) : LM unit :=
  n <- deref p ;; fun h => LOk tt (mkh (hupd (nx h) n v) (pv h)).
Definition set_pv (p v : option nat) : LM unit :=
  n <- deref p ;; fun h => LOk tt (mkh (nx h) (hupd (pv h) n v)).

Definition onat_eqb (a b : option nat) : bool :=
  match a, b with Some x, Some y => x =? y | None, None => true | _, _ => false end.

Section IL.
  Variable dbg : bool.
  Definition lassert (b : bool) : LM unit :=
    fun h => if dbg then (if b then LOk tt h else LAssert h) else LOk tt h.
  Definition nonnull (p : option nat) : bool := match p with Some _ => true | None => false end.

  (** iterators are node pointers: 54-118 *)
  Definition i_inc (i : option nat) : LM (option nat) := lassert (nonnull i) ;;; get_nx i.   (* 61-66 *)
  Definition i_dec (i : option nat) : LM (option nat) := lassert (nonnull i) ;;; get_pv i.   (* 68-73 *)
  Definition i_deref (i : option nat) : LM nat := lassert (nonnull i) ;;; deref i.           (* 89-93 *)

  (** 144-148 constructor *)
  Definition l_new (t : nat) : LM unit := set_nx (Some t) (Some t) ;;; set_pv (Some t) (Some t).
  (** 150-153 empty *)
  Definition l_empty (t : nat) : LM bool := n <- get_nx (Some t) ;; lret (onat_eqb n (Some t)).
  (** 164-182 begin, end *)
  Definition l_begin (t : nat) : LM (option nat) := get_nx (Some t).
  Definition l_end (t : nat) : option nat := Some t.
  (** 155-162 size; the loop runs at most [fuel] times *)
  Fixpoint size_loop (fuel : nat) (t : nat) (i : option nat) (num : nat) : LM nat :=
    if onat_eqb i (l_end t) then lret num
    else match fuel with
         | O => fun _ => LDiverge
         | S f => j <- i_inc i ;; size_loop f t j (S num)
         end.
  Definition l_size (fuel : nat) (t : nat) : LM nat := b <- l_begin t ;; size_loop fuel t b 0.
  (** a user's loop [for (i = begin(); i != end(); ++i)] collecting the elements, and the backward one with
      reverse iterators (184-203): [for (i = end(); i != begin(); ) *--i] *)
  Fixpoint fwd_loop (fuel : nat) (t : nat) (i : option nat) (acc : list nat) : LM (list nat) :=
    if onat_eqb i (l_end t) then lret acc
    else match fuel with
         | O => fun _ => LDiverge
         | S f => x <- i_deref i ;; j <- i_inc i ;; fwd_loop f t j (acc ++ [x])
         end.
  Definition l_forward (fuel : nat) (t : nat) : LM (list nat) := b <- l_begin t ;; fwd_loop fuel t b [].
  Fixpoint bwd_loop (fuel : nat) (t : nat) (i : option nat) (acc : list nat) : LM (list nat) :=
    b <- l_begin t ;;
    if onat_eqb i b then lret acc
    else match fuel with
         | O => fun _ => LDiverge
         | S f => j <- i_dec i ;; x <- i_deref j ;; bwd_loop f t j (acc ++ [x])
         end.
  Definition l_backward (fuel : nat) (t : nat) : LM (list nat) := bwd_loop fuel t (l_end t) [].

  (** 205-215 front, 217-227 back *)
  Definition l_front (t : nat) : LM nat :=
    e <- l_empty t ;; lassert (negb e) ;;; b <- l_begin t ;; i_deref b.
  Definition l_back (t : nat) : LM nat :=
    e <- l_empty t ;; lassert (negb e) ;;; j <- i_dec (l_end t) ;; i_deref j.

  (** 251-259 insert *)
  Definition l_insert (pos : option nat) (d : nat) : LM (option nat) :=
    lassert (nonnull pos) ;;;
    set_nx (Some d) pos ;;;
    pp <- get_pv pos ;; set_pv (Some d) pp ;;;
    set_pv pos (Some d) ;;;
    dp <- get_pv (Some d) ;; set_nx dp (Some d) ;;;
    lret (Some d).
  (** 261-269 erase *)
  Definition l_erase (t : nat) (pos : option nat) : LM (option nat) :=
    e <- l_empty t ;; lassert (negb e) ;;;
    lassert (nonnull pos) ;;;
    node <- get_nx pos ;;
    p1 <- get_pv pos ;; n1 <- get_nx pos ;; set_nx p1 n1 ;;;
    n2 <- get_nx pos ;; p2 <- get_pv pos ;; set_pv n2 p2 ;;;
    lret node.
  (** 229-249 push_back, pop_back, push_front, pop_front *)
  Definition l_push_back (t d : nat) : LM unit := l_insert (l_end t) d ;;; lret tt.
  Definition l_pop_back (t : nat) : LM unit :=
    e <- l_empty t ;; lassert (negb e) ;;; j <- i_dec (l_end t) ;; l_erase t j ;;; lret tt.
  Definition l_push_front (t d : nat) : LM unit := b <- l_begin t ;; l_insert b d ;;; lret tt.
  Definition l_pop_front (t : nat) : LM unit :=
    e <- l_empty t ;; lassert (negb e) ;;; b <- l_begin t ;; l_erase t b ;;; lret tt.

  (** 296-319 splice(pos, x, first, last) *)
  Definition l_splice_range (t : nat) (pos : option nat) (x : nat) (first last : option nat) : LM unit :=
    lassert (nonnull pos) ;;; lassert (nonnull first) ;;; lassert (nonnull last) ;;;
    lassert (negb (onat_eqb first (l_end t))) ;;;
    lassert (negb (onat_eqb first (l_end x))) ;;;
    if onat_eqb first last then lret tt
    else if onat_eqb pos last then lret tt
    else
      lp <- get_pv last ;; set_nx lp pos ;;;
      fp <- get_pv first ;; set_nx fp last ;;;
      pp <- get_pv pos ;; set_nx pp first ;;;
      tmp <- get_pv pos ;;
      lp' <- get_pv last ;; set_pv pos lp' ;;;
      fp' <- get_pv first ;; set_pv last fp' ;;;
      set_pv first tmp.
  (** 271-278 splice(pos, x) *)
  Definition l_splice_all (t : nat) (pos : option nat) (x : nat) : LM unit :=
    lassert (negb (t =? x)) ;;;
    e <- l_empty x ;;
    if e then lret tt else b <- l_begin x ;; l_splice_range t pos x b (l_end x).
  (** 280-294 splice(pos, x, i) *)
  Definition l_splice_one (t : nat) (pos : option nat) (x : nat) (i : option nat) : LM unit :=
    lassert (negb (onat_eqb i (l_end t))) ;;;
    lassert (negb (onat_eqb i (l_end x))) ;;;
    if onat_eqb pos i then lret tt
    else
      j <- i_inc i ;;
      if onat_eqb pos j then lret tt else l_splice_range t pos x i j.
  (** 321-330 swap; [tmp] is the address of the local list *)
  Definition l_swap (t x tmp : nat) : LM unit :=
    if t =? x then lret tt
    else
      l_new tmp ;;;
      l_splice_all tmp (l_end tmp) x ;;;
      l_splice_all x (l_end x) t ;;;
      l_splice_all t (l_end t) tmp.

  (** one call *)
  Definition l_step (fuel : nat) (o : lop) : LM lout :=
    match o with
    | LNew t => l_new t ;;; lret LUnit
    | LDrop t => lret LUnit                          (* there is no destructor *)
    | LInsert t pos d => i <- l_insert (Some pos) d ;; n <- deref i ;; lret (LIter n)
    | LPushBack t d => l_push_back t d ;;; lret LUnit
    | LPushFront t d => l_push_front t d ;;; lret LUnit
    | LErase t pos => i <- l_erase t (Some pos) ;; n <- deref i ;; lret (LIter n)
    | LPopBack t => l_pop_back t ;;; lret LUnit
    | LPopFront t => l_pop_front t ;;; lret LUnit
    | LSpliceAll t pos x => l_splice_all t (Some pos) x ;;; lret LUnit
    | LSpliceOne t pos x i => l_splice_one t (Some pos) x (Some i) ;;; lret LUnit
    | LSpliceRange t pos x first last => l_splice_range t (Some pos) x (Some first) (Some last) ;;; lret LUnit
    | LSwap t x tmp => l_swap t x tmp ;;; lret LUnit
    | LSize t => n <- l_size fuel t ;; lret (LNum n)
    | LEmpty t => b <- l_empty t ;; lret (LBool b)
    | LFront t => n <- l_front t ;; lret (LIter n)
    | LBack t => n <- l_back t ;; lret (LIter n)
    | LForward t => l <- l_forward fuel t ;; lret (LSeq l)
    | LBackward t => l <- l_backward fuel t ;; lret (LSeq l)
    end.
  Fixpoint l_run (fuel : nat) (h : heap) (os : list lop) : option (list lout * heap) :=
    match os with
    | [] => Some ([], h)
    | o :: os' =>
        match l_step fuel o h with
        | LOk r h' => match l_run fuel h' os' with Some (rs, h'') => Some (r :: rs, h'') | None => None end
        | _ => None
        end
    end.
End IL.

(** 16-29: IntrusiveListNode declares no copy operations, so the implicit ones copy both links: [*d = *s] for elements
    (or [T d(s)], where d is a new node) *)
Definition l_node_assign (d s : nat) : LM unit :=
  n <- get_nx (Some s) ;; p <- get_pv (Some s) ;; set_nx (Some d) n ;;; set_pv (Some d) p.

(** 28: the links of a node are null until it is inserted *)
Definition h0 : heap := mkh (fun _ => None) (fun _ => None).
