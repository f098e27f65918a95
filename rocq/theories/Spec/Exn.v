(** Exceptions visible to users of the containers. *)
Inductive exn := BadAlloc | OutOfRange | ElemExn.
(** BadAlloc, OutOfRange: mechanism/Container/ContainerException.h:1-42 (FixedVector.h:52-59, FixedDeque.h:229-236).
    ElemExn: any exception thrown by an element's constructor or assignment operator. *)

