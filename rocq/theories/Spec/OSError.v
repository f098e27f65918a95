(** Return codes of the OSWrapper calls: mechanism/OSWrapper/OSWrapperError.h:9-16. *)
Inductive err := OK | TimedOut | CalledByNonThread | InvalidParameter | NotLocked | OtherError.
Definition err_eqb (a b : err) : bool :=
  match a, b with
  | OK, OK | TimedOut, TimedOut | CalledByNonThread, CalledByNonThread | InvalidParameter, InvalidParameter
  | NotLocked, NotLocked | OtherError, OtherError => true
  | _, _ => false
  end.
