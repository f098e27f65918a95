(** Resources obtained from the platform and given back.  A trace lists acquisitions and releases; [live tr L] says that
    the trace is proper (fresh identities, nothing released that is not held, no memory pool destroyed while a block
    from it is out) and that exactly the resources of [L] are held at its end. *)
From Coq Require Import List Permutation ZArith.
Import ListNotations.

Inductive kind := KPool (block : Z)          (* FixedMemoryPool with blocks of this size *)
                | KBlock (pool : nat)        (* a block of that pool *)
                | KMutex | KEvent | KThread.
Definition res : Type := (kind * nat)%type.
Inductive rev := Acq (k : kind) (id : nat) | Rel (k : kind) (id : nat).

Inductive live : list rev -> list res -> Prop :=
| live_nil : live [] []
| live_acq tr L k id : live tr L -> ~ In id (map snd L) -> live (tr ++ [Acq k id]) ((k, id) :: L)
| live_rel tr L k id L' : live tr L -> Permutation L ((k, id) :: L') ->
    (forall blk n, k = KPool blk -> ~ In (KBlock id, n) L') -> live (tr ++ [Rel k id]) L'.
