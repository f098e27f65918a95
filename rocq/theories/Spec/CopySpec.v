(** Specification of what a call of a vector or deque costs and of what it leaves alone: how many elements it copies
    (constructs or assigns), and which elements it neither reads, writes nor moves.  [sz] is size() before the call,
    positions are offsets from begin(). *)
From Verif Require Import Base.ZList Spec.SeqSpec.

(** n elements go in where [moved] elements have to make room: every inserted and every moved element is copied once;
    when fewer are inserted than moved, n slots are default-constructed first *)
Definition insert_copies (n moved : Z) : Z := if n <? moved then n + moved + n else n + moved.

Section Copy.
  Context {V : Type}.
  Variable deque : bool.   (* false: FixedVector/PreallocatedVector, true: FixedDeque/PreallocatedDeque *)
  Variable cap : Z.        (* max_size() *)

  (** a vector makes room towards its end; a deque towards the end nearer to the position *)
  Definition towards_end (sz p : Z) : bool := negb deque || (sz / 2 <? p).
  Definition closes_from_end (sz p q : Z) : bool := negb deque || (sz - q <=? p).
  Definition moved_by_insert (sz p : Z) : Z := if towards_end sz p then sz - p else p.
  Definition moved_by_erase (sz p q : Z) : Z := if closes_from_end sz p q then sz - q else p.

  Definition ins (sz p n : Z) : Z := if cap - sz <? n then 0 else insert_copies n (moved_by_insert sz p).

  (** the number of element copies; a call that reports BadAlloc or OutOfRange makes none *)
  Definition copies (l : list V) (o : op V) : Z :=
    let sz := lenz l in
    match o with
    | PushBack _ | PushFront _ => if sz =? cap then 0 else 1
    | InsertOne p _ => ins sz p 1
    | InsertN p n _ => ins sz p n
    | InsertInt p n _ => ins sz p (n mod 2 ^ 64)
    | InsertRange p xs => ins sz p (lenz xs)
    | EraseOne p => moved_by_erase sz p (p + 1)
    | EraseRange p q => moved_by_erase sz p q
    | AssignN n _ => if cap <? n then 0 else n
    | AssignRange xs => if cap <? lenz xs then 0 else lenz xs
    | Resize n _ => if (n <=? sz) || (cap <? n) then 0 else n - sz
    | _ => 0
    end.

  (** [stays l o i = Some j]: the call leaves element i alone; afterwards it is element j.  [None]: the call may look at
      it or change it. *)
  Definition stays_insert (sz p n i : Z) : option Z :=
    if cap - sz <? n then Some i
    else if towards_end sz p then (if i <? p then Some i else None)
    else if p <=? i then Some (i + n) else None.
  Definition stays_erase (sz p q i : Z) : option Z :=
    if closes_from_end sz p q then (if i <? p then Some i else None)
    else if q <=? i then Some (i - (q - p)) else None.
  Definition stays (l : list V) (o : op V) (i : Z) : option Z :=
    let sz := lenz l in
    match o with
    | PushBack _ => Some i
    | PushFront _ => Some (if sz =? cap then i else i + 1)
    | PopBack => if i <? sz - 1 then Some i else None
    | PopFront => if 0 <? i then Some (i - 1) else None
    | InsertOne p _ => stays_insert sz p 1 i
    | InsertN p n _ => stays_insert sz p n i
    | InsertInt p n _ => stays_insert sz p (n mod 2 ^ 64) i
    | InsertRange p xs => stays_insert sz p (lenz xs) i
    | EraseOne p => stays_erase sz p (p + 1) i
    | EraseRange p q => stays_erase sz p q i
    | AssignN n _ => if cap <? n then Some i else None
    | AssignRange xs => if cap <? lenz xs then Some i else None
    | Resize n _ => if i <? n then Some i else None
    | Clear => None
    | At k | Index k => if i =? k then None else Some i
    | Front => if i =? 0 then None else Some i
    | Back => if i =? sz - 1 then None else Some i
    | Size | AvailableSize | IsEmpty | IsFull => Some i
    | ReadAll => None
    end.
End Copy.

(** the same over a history of calls; [l] is the contents before it *)
Fixpoint copies_run {V} (deque : bool) (cap : Z) (dflt : V) (l : list V) (os : list (op V)) : Z :=
  match os with
  | [] => 0
  | o :: os' => copies deque cap l o + copies_run deque cap dflt (snd (seq_step dflt cap l o)) os'
  end.
Fixpoint stays_run {V} (deque : bool) (cap : Z) (dflt : V) (l : list V) (os : list (op V)) (i : Z) : option Z :=
  match os with
  | [] => Some i
  | o :: os' => match stays deque cap l o i with
                | Some j => stays_run deque cap dflt (snd (seq_step dflt cap l o)) os' j
                | None => None
                end
  end.
