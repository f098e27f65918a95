(** What a program without exceptions observes of a bounded sequence: the first call that would throw ends the program, the
    contents being those before that call. *)
From Verif Require Import Base.ZList Spec.Exn Spec.SeqSpec.

Section Spec.
  Context {V : Type}.
  Variable dflt : V.
  Variable cap : Z.
  (** results, last contents, and whether the program was ended *)
  Fixpoint stop_run (l : list V) (os : list (op V)) : list (out V) * list V * bool :=
    match os with
    | [] => ([], l, false)
    | o :: os' =>
        match seq_step dflt cap l o with
        | (OExn _, _) => ([], l, true)
        | (r, l') => let '(rs, l'', b) := stop_run l' os' in (r :: rs, l'', b)
        end
    end.
  (** every call that is made meets its precondition *)
  Fixpoint stop_pres (dbg deque : bool) (l : list V) (os : list (op V)) : Prop :=
    match os with
    | [] => True
    | o :: os' =>
        seq_pre dbg deque l o /\
        match seq_step dflt cap l o with (OExn _, _) => True | (_, l') => stop_pres dbg deque l' os' end
    end.
End Spec.
