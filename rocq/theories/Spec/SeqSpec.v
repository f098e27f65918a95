(** Specification of a bounded sequence container: what every call of FixedVector, PreallocatedVector, FixedDeque
    or PreallocatedDeque means, as an operation on a mathematical list of at most [cap] elements.
    Positions are offsets from begin(). *)
From Verif Require Import Base.ZList Spec.Exn.

Inductive op (V : Type) :=
| PushBack (v : V) | PopBack
| PushFront (v : V) | PopFront                     (* deque only *)
| InsertOne (p : Z) (v : V)                        (* insert(begin()+p, v) *)
| InsertN (p n : Z) (v : V)                        (* insert(begin()+p, n, v) *)
| InsertInt (p n : Z) (v : V)                      (* the same, called with two integers *)
| InsertRange (p : Z) (xs : list V)                (* insert(begin()+p, first, last) *)
| EraseOne (p : Z)                                 (* erase(begin()+p) *)
| EraseRange (p q : Z)                             (* erase(begin()+p, begin()+q) *)
| AssignN (n : Z) (v : V) | AssignRange (xs : list V)
| Resize (n : Z) (v : V) | Clear
| At (i : Z) | Index (i : Z) | Front | Back
| Size | AvailableSize | IsEmpty | IsFull
| ReadAll.                                         (* iterate from begin() to end() *)
Arguments PushBack {V}. Arguments PopBack {V}. Arguments PushFront {V}. Arguments PopFront {V}.
Arguments InsertOne {V}. Arguments InsertN {V}. Arguments InsertInt {V}. Arguments InsertRange {V}.
Arguments EraseOne {V}. Arguments EraseRange {V}. Arguments AssignN {V}. Arguments AssignRange {V}.
Arguments Resize {V}. Arguments Clear {V}. Arguments At {V}. Arguments Index {V}. Arguments Front {V}.
Arguments Back {V}. Arguments Size {V}. Arguments AvailableSize {V}. Arguments IsEmpty {V}.
Arguments IsFull {V}. Arguments ReadAll {V}.

Inductive out (V : Type) :=
| OUnit | OVal (v : V) | OPos (p : Z) | ONum (n : Z) | OBool (b : bool) | OList (l : list V) | OExn (e : exn).
Arguments OUnit {V}. Arguments OVal {V}. Arguments OPos {V}. Arguments ONum {V}. Arguments OBool {V}.
Arguments OList {V}. Arguments OExn {V}.

Section Spec.
  Context {V : Type}.
  Variable dflt : V.     (* only an argument of nth, never observed under the preconditions *)
  Variable cap : Z.

  Definition insert_seq (l : list V) (p : Z) (xs : list V) : list V := takez p l ++ xs ++ dropz p l.
  Definition erase_seq (l : list V) (p q : Z) : list V := takez p l ++ dropz q l.

  (** what a call returns and the contents it leaves *)
  Definition seq_step (l : list V) (o : op V) : out V * list V :=
    match o with
    | PushBack v => if lenz l =? cap then (OExn BadAlloc, l) else (OUnit, l ++ [v])
    | PopBack => (OUnit, takez (lenz l - 1) l)
    | PushFront v => if lenz l =? cap then (OExn BadAlloc, l) else (OUnit, v :: l)
    | PopFront => (OUnit, dropz 1 l)
    | InsertOne p v => if cap - lenz l <? 1 then (OExn BadAlloc, l) else (OPos p, insert_seq l p [v])
    | InsertN p n v => if cap - lenz l <? n then (OExn BadAlloc, l) else (OUnit, insert_seq l p (repz v n))
    | InsertInt p n v =>
        (* a negative count becomes a huge size_t *)
        if cap - lenz l <? n mod 2 ^ 64 then (OExn BadAlloc, l) else (OUnit, insert_seq l p (repz v (n mod 2 ^ 64)))
    | InsertRange p xs => if cap - lenz l <? lenz xs then (OExn BadAlloc, l) else (OUnit, insert_seq l p xs)
    | EraseOne p => (OPos p, erase_seq l p (p + 1))
    | EraseRange p q => (OPos p, erase_seq l p q)
    | AssignN n v => if cap <? n then (OExn BadAlloc, l) else (OUnit, repz v n)
    | AssignRange xs => if cap <? lenz xs then (OExn BadAlloc, l) else (OUnit, xs)
    | Resize n v => if n <=? lenz l then (OUnit, takez n l)
                    else if cap <? n then (OExn BadAlloc, l) else (OUnit, l ++ repz v (n - lenz l))
    | Clear => (OUnit, [])
    | At i => if i <? lenz l then (OVal (nthz dflt l i), l) else (OExn OutOfRange, l)
    | Index i => (OVal (nthz dflt l i), l)
    | Front => (OVal (nthz dflt l 0), l)
    | Back => (OVal (nthz dflt l (lenz l - 1)), l)
    | Size => (ONum (lenz l), l)
    | AvailableSize => (ONum (cap - lenz l), l)
    | IsEmpty => (OBool (lenz l =? 0), l)
    | IsFull => (OBool (lenz l =? cap), l)
    | ReadAll => (OList l, l)
    end.

  (** preconditions: those of the STL, plus (when assertions are compiled in) the non-empty range that
      erase(first, last) insists on.  Counts and indices are size_t values. *)
  Definition szt (n : Z) : Prop := 0 <= n < 2 ^ 64.
  Definition seq_pre (dbg deque : bool) (l : list V) (o : op V) : Prop :=
    match o with
    | PopBack | Front | Back => l <> []
    | PushFront _ => deque = true
    | PopFront => deque = true /\ l <> []
    | InsertOne p _ => 0 <= p <= lenz l
    | InsertN p n _ => 0 <= p <= lenz l /\ szt n
    | InsertInt p _ _ => 0 <= p <= lenz l
    | InsertRange p xs => 0 <= p <= lenz l /\ szt (lenz xs)
    | EraseOne p => 0 <= p < lenz l
    | EraseRange p q => 0 <= p <= q /\ q <= lenz l /\ (dbg = true -> p < q)
    | AssignN n _ | Resize n _ => szt n
    | AssignRange xs => szt (lenz xs)
    | At i => szt i
    | Index i => 0 <= i < lenz l
    | _ => True
    end.

  (** histories *)
  Fixpoint seq_run (l : list V) (os : list (op V)) : list (out V) * list V :=
    match os with
    | [] => ([], l)
    | o :: os' => let '(r, l') := seq_step l o in
                  let '(rs, l'') := seq_run l' os' in (r :: rs, l'')
    end.
  Fixpoint seq_pres (dbg deque : bool) (l : list V) (os : list (op V)) : Prop :=
    match os with
    | [] => True
    | o :: os' => seq_pre dbg deque l o /\ seq_pres dbg deque (snd (seq_step l o)) os'
    end.
End Spec.
