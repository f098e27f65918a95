(** Model of MessageQueue<T>::create, destroy, createOSObjects and ~MessageQueue (mechanism/OSWrapper/MessageQueue.h:29-72,
    337-364).  Requests are answered by an arbitrary platform (OS/Resources).  The size arithmetic is that of a 64-bit size_t. *)
From Coq Require Import List Permutation ZArith Lia Arith.
Import ListNotations.
From Verif Require Import Spec.Resource OS.Resources OS.MessageQueueModel.
Open Scope Z_scope.

(** 31-32: [sMQ] is sizeof(MessageQueue); sizeof(double) is 8 *)
Definition aligned_mq (sMQ : Z) : Z := Z.land (u64 (sMQ + 7)) (2 ^ 64 - 8).
(** 33-34: [sT] is sizeof(T) *)
Definition pool_buf_size (sMQ sT maxSize : Z) : Z := u64 (aligned_mq sMQ + u64 (sT * rbBufSize maxSize)).

Record mqh := mkMq { h_pool : nat; h_size : Z; h_blk : nat; h_rb : option nat; h_send : option nat; h_recv : option nat; h_ev : option nat }.

Section Create.
  Variable orc : nat -> bool.
  (** 345-364 createOSObjects: fields not reached stay null *)
  Definition create_os (pool : nat) (size : Z) (blk : nat) (s0 : rst) : bool * mqh * rst :=
    match acquire orc KMutex s0 with
    | (None, s1) => (false, mkMq pool size blk None None None None, s1)
    | (Some a, s1) =>
        match acquire orc KMutex s1 with
        | (None, s2) => (false, mkMq pool size blk (Some a) None None None, s2)
        | (Some b, s2) =>
            match acquire orc KMutex s2 with
            | (None, s3) => (false, mkMq pool size blk (Some a) (Some b) None None, s3)
            | (Some c, s3) =>
                match acquire orc KEvent s3 with
                | (None, s4) => (false, mkMq pool size blk (Some a) (Some b) (Some c) None, s4)
                | (Some d, s4) => (true, mkMq pool size blk (Some a) (Some b) (Some c) (Some d), s4)
                end
            end
        end
    end.
  (** 63-72 destroy, 337-343 ~MessageQueue *)
  Definition mq_destroy (h : option mqh) (s : rst) : rst :=
    match h with
    | None => s
    | Some h =>
        let s1 := release_opt KEvent (h_ev h) s in
        let s2 := release_opt KMutex (h_recv h) s1 in
        let s3 := release_opt KMutex (h_send h) s2 in
        let s4 := release_opt KMutex (h_rb h) s3 in
        let s5 := release (KBlock (h_pool h)) (h_blk h) s4 in
        release (KPool (h_size h)) (h_pool h) s5
    end.
  (** 29-55 create *)
  Definition mq_create (sMQ sT maxSize : Z) (s0 : rst) : option mqh * rst :=
    let size := pool_buf_size sMQ sT maxSize in
    match acquire orc (KPool size) s0 with
    | (None, s1) => (None, s1)                                                            (* 38-40 *)
    | (Some pool, s1) =>
        match acquire orc (KBlock pool) s1 with
        | (None, s2) => (None, release (KPool size) pool s2)                              (* 43-46 *)
        | (Some blk, s2) =>
            match create_os pool size blk s2 with
            | (true, h, s3) => (Some h, s3)
            | (false, h, s3) => (None, mq_destroy (Some h) s3)                            (* 50-53 *)
            end
        end
    end.
  (** the resources of a complete queue *)
  Definition mq_resources (h : mqh) : list res :=
    match h with
    | mkMq pool size blk (Some a) (Some b) (Some c) (Some d) =>
        [(KEvent, d); (KMutex, c); (KMutex, b); (KMutex, a); (KBlock pool, blk); (KPool size, pool)]
    | _ => []
    end.
End Create.
