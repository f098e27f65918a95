(** Specification of IntrusiveList: a family of lists, each a mathematical sequence of element identities.
    An identity is the address of a node (an element or the list's own end() node).  An iterator is the identity of
    the node it points to; [end()] of list [t] is [t] itself. *)
From Coq Require Import List Arith Bool.
Import ListNotations.

(** the elements strictly before node [p] (all of them if p is not in the list, i.e. p = end()) and from [p] on *)
Fixpoint before (p : nat) (l : list nat) : list nat :=
  match l with [] => [] | x :: l' => if x =? p then [] else x :: before p l' end.
Fixpoint from (p : nat) (l : list nat) : list nat :=
  match l with [] => [] | x :: l' => if x =? p then l else from p l' end.

(** the live lists: [F t] is the contents of the list object at [t] *)
Definition fam := nat -> option (list nat).
Definition fset (F : fam) (t : nat) (o : option (list nat)) : fam := fun u => if u =? t then o else F u.
Definition contents (F : fam) (t : nat) : list nat := match F t with Some l => l | None => [] end.

Inductive lop :=
| LNew (t : nat)                        (* IntrusiveList t; *)
| LDrop (t : nat)                       (* t goes out of scope: its elements are simply in no list any more *)
| LInsert (t pos d : nat)               (* t.insert(pos, d) *)
| LPushBack (t d : nat) | LPushFront (t d : nat)
| LErase (t pos : nat)                  (* t.erase(pos) *)
| LPopBack (t : nat) | LPopFront (t : nat)
| LSpliceAll (t pos x : nat)            (* t.splice(pos, x) *)
| LSpliceOne (t pos x i : nat)          (* t.splice(pos, x, i) *)
| LSpliceRange (t pos x first last : nat)
| LSwap (t x tmp : nat)                 (* t.swap(x); tmp is the address of the local list *)
| LSize (t : nat) | LEmpty (t : nat) | LFront (t : nat) | LBack (t : nat)
| LForward (t : nat)                    (* the elements met from begin() to end() with ++ *)
| LBackward (t : nat).                  (* the elements met from end() back to begin() with -- *)

Inductive lout := LUnit | LIter (n : nat) | LNum (n : nat) | LBool (b : bool) | LSeq (l : list nat).

Definition move (F : fam) (t pos x first last : nat) : fam :=
  let M := before last (from first (contents F x)) in
  let F1 := fset F x (Some (before first (contents F x) ++ from last (from first (contents F x)))) in
  fset F1 t (Some (before pos (contents F1 t) ++ M ++ from pos (contents F1 t))).

Definition lspec (F : fam) (o : lop) : lout * fam :=
  match o with
  | LNew t => (LUnit, fset F t (Some []))
  | LDrop t => (LUnit, fset F t None)
  | LInsert t pos d =>
      (LIter d, fset F t (Some (before pos (contents F t) ++ d :: from pos (contents F t))))
  | LPushBack t d => (LUnit, fset F t (Some (contents F t ++ [d])))
  | LPushFront t d => (LUnit, fset F t (Some (d :: contents F t)))
  | LErase t pos =>
      (LIter (hd t (tl (from pos (contents F t)))),
       fset F t (Some (before pos (contents F t) ++ tl (from pos (contents F t)))))
  | LPopBack t => (LUnit, fset F t (Some (removelast (contents F t))))
  | LPopFront t => (LUnit, fset F t (Some (tl (contents F t))))
  | LSpliceAll t pos x =>
      (LUnit, fset (fset F x (Some []))
                   t (Some (before pos (contents F t) ++ contents F x ++ from pos (contents F t))))
  | LSpliceOne t pos x i =>
      (LUnit, if pos =? i then F
              else move F t pos x i (hd x (tl (from i (contents F x)))))
  | LSpliceRange t pos x first last => (LUnit, if first =? last then F else move F t pos x first last)
  | LSwap t x _ => (LUnit, fset (fset F t (Some (contents F x))) x (Some (contents F t)))
  | LSize t => (LNum (length (contents F t)), F)
  | LEmpty t => (LBool (match contents F t with [] => true | _ => false end), F)
  | LFront t => (LIter (hd 0 (contents F t)), F)
  | LBack t => (LIter (last (contents F t) 0), F)
  | LForward t => (LSeq (contents F t), F)
  | LBackward t => (LSeq (rev (contents F t)), F)
  end.

(** node [d] is neither a live list nor an element of one *)
Definition unused (F : fam) (d : nat) : Prop := forall t l, F t = Some l -> d <> t /\ ~ In d l.
Definition is_pos (F : fam) (t pos : nat) : Prop := pos = t \/ In pos (contents F t).
Definition live (F : fam) (t : nat) : Prop := F t <> None.

(** documented preconditions (those of std::list, plus "an element is in at most one list").  [dbg] says whether
    assertions are compiled in: then the empty range at end() is rejected too. *)
Definition lpre (dbg : bool) (F : fam) (o : lop) : Prop :=
  match o with
  | LNew t => unused F t
  | LInsert t pos d => live F t /\ is_pos F t pos /\ unused F d
  | LPushBack t d | LPushFront t d => live F t /\ unused F d
  | LErase t pos => live F t /\ In pos (contents F t)
  | LPopBack t | LPopFront t | LFront t | LBack t => live F t /\ contents F t <> []
  | LSpliceAll t pos x => live F t /\ live F x /\ t <> x /\ is_pos F t pos
  | LSpliceOne t pos x i => live F t /\ live F x /\ is_pos F t pos /\ In i (contents F x)
  | LSpliceRange t pos x first lst =>
      live F t /\ live F x /\ is_pos F t pos /\
      (first = lst /\ (first = x /\ dbg = false \/ In first (contents F x)) \/
       In first (contents F x) /\ (lst = x \/ In lst (from first (contents F x))) /\ first <> lst /\
       ~ In pos (before lst (from first (contents F x))))
  | LSwap t x tmp => live F t /\ live F x /\ unused F tmp
  | LDrop t | LSize t | LEmpty t | LForward t | LBackward t => live F t
  end.

Fixpoint lspec_run (F : fam) (os : list lop) : list lout * fam :=
  match os with
  | [] => ([], F)
  | o :: os' => let '(r, F') := lspec F o in let '(rs, F'') := lspec_run F' os' in (r :: rs, F'')
  end.
Fixpoint lpres (dbg : bool) (F : fam) (os : list lop) : Prop :=
  match os with
  | [] => True
  | o :: os' => lpre dbg F o /\ lpres dbg (snd (lspec F o)) os'
  end.

(** the list objects a call names *)
Definition largs (o : lop) : list nat :=
  match o with
  | LNew t | LDrop t | LInsert t _ _ | LPushBack t _ | LPushFront t _ | LErase t _ | LPopBack t | LPopFront t
  | LSize t | LEmpty t | LFront t | LBack t | LForward t | LBackward t => [t]
  | LSpliceAll t _ x | LSpliceOne t _ x _ | LSpliceRange t _ x _ _ | LSwap t x _ => [t; x]
  end.
(** no list exists at the start *)
Definition F0 : fam := fun _ => None.
(** the lists after a history *)
Definition after (os : list lop) : fam := snd (lspec_run F0 os).
