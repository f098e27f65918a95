(** Model of ThreadPool::create, constructMembers, destroy, destroyMembers, destroyRunners and destroyThreads
    (mechanism/OSWrapper/ThreadPool.cpp:25-170).  Requests are answered by an arbitrary platform (OS/Resources); the message queue of
    runners is created by the model of MessageQueue::create (OS/MessageQueueCreate).  64-bit size_t; sizeof(void* ) is 8.
    Not modelled: failure of MessageQueue::send during construction (its result is ignored by the code; the queue has room for
    maxThreads runners and its mutexes are free); waitThreads (122-127): destroy is used when the threads are finished. *)
From Coq Require Import List Permutation ZArith Lia Arith Bool.
Import ListNotations.
From Verif Require Import Spec.Resource OS.Resources OS.MessageQueueModel OS.MessageQueueCreate.

Record runner := mkRn { n_blk : nat; n_ev : nat; n_thr : nat }.
(** the fields of ThreadPool that own something; null pointers are None.  The content of the queue is kept apart *)
Record tph := mkTp { t_pool : nat; t_blk : nat; t_mq : option mqh; t_tpool : option nat; t_tmem : option nat; t_rpool : option nat }.
Inductive tresult := TNull | TPool (h : tph) (queue : list runner) | TThrew.
Inductive built := Built (queue : list runner) | Failed (queue : list runner) | Threw.

(** 52: sizeof(Thread* ) * maxThreads *)
Definition thread_mem_size (maxThreads : nat) : Z := u64 (8 * Z.of_nat maxThreads).

Open Scope nat_scope.
Section Create.
  Variable orc : nat -> bool.
  Variables sTP sTR sMQ : Z.      (* sizeof ThreadPool, TaskRunner, MessageQueue<TaskRunner*, double> *)

  (** 76-101: the loop; [done] is m_threads.size(), [vmax] is m_threads.max_size(), at which push_back throws *)
  Fixpoint build (todo : nat) (rp : nat) (vmax : Z) (done : nat) (q : list runner) (s : rst) : built * rst :=
    match todo with
    | 0 => (Built q, s)
    | S n =>
        match acquire orc (KBlock rp) s with
        | (None, s1) => (Failed q, s1)
        | (Some p, s1) =>
            match acquire orc KEvent s1 with
            | (None, s2) => (Failed q, release (KBlock rp) p s2)
            | (Some e, s2) =>
                match acquire orc KThread s2 with
                | (None, s3) => (Failed q, release (KBlock rp) p (release KEvent e s3))
                | (Some t, s3) =>
                    if (Z.of_nat done <? vmax)%Z then build n rp vmax (S done) (q ++ [mkRn p e t]) s3 else (Threw, s3)
                end
            end
        end
    end.
  (** 151-157 *)
  Definition destroy_runner (rp : nat) (s : rst) (r : runner) : rst :=
    release (KBlock rp) (n_blk r) (release KThread (n_thr r) (release KEvent (n_ev r) s)).
  (** 139-159 *)
  Definition destroy_runners (h : tph) (q : list runner) (s : rst) : rst :=
    match t_mq h, t_rpool h with Some _, Some rp => fold_left (destroy_runner rp) q s | _, _ => s end.
  (** 161-170 *)
  Definition destroy_threads (h : tph) (s : rst) : rst :=
    match t_tpool h, t_tmem h with Some tp, Some m => release (KBlock tp) m s | _, _ => s end.
  (** 129-137; [n] is maxThreads (the size of the pools' blocks) *)
  Definition destroy_members (n : nat) (h : tph) (q : list runner) (s : rst) : rst :=
    let s1 := destroy_runners h q s in
    let s2 := destroy_threads h s1 in
    let s3 := release_opt (KPool sTR) (t_rpool h) s2 in
    let s4 := release_opt (KPool (thread_mem_size n)) (t_tpool h) s3 in
    mq_destroy (t_mq h) s4.
  (** 109-120; 43-45 *)
  Definition drop_object (h : tph) (s : rst) : rst := release (KPool sTP) (t_pool h) (release (KBlock (t_pool h)) (t_blk h) s).
  Definition tp_destroy (n : nat) (h : tph) (q : list runner) (s : rst) : rst := drop_object h (destroy_members n h q s).
  Definition give_up (n : nat) (h : tph) (q : list runner) (s : rst) : tresult * rst := (TNull, tp_destroy n h q s).
  (** 50-107, 25-48 *)
  Definition tp_create (n : nat) (s0 : rst) : tresult * rst :=
    match acquire orc (KPool sTP) s0 with                                                 (* 28-32 *)
    | (None, s1) => (TNull, s1)
    | (Some p0, s1) =>
        match acquire orc (KBlock p0) s1 with                                             (* 34-38 *)
        | (None, s2) => (TNull, release (KPool sTP) p0 s2)
        | (Some b0, s2) =>
            match mq_create orc sMQ 8 (Z.of_nat n) s2 with                                (* 54-57 *)
            | (None, s3) => give_up n (mkTp p0 b0 None None None None) [] s3
            | (Some mq, s3) =>
                match acquire orc (KPool (thread_mem_size n)) s3 with                     (* 59-63 *)
                | (None, s4) => give_up n (mkTp p0 b0 (Some mq) None None None) [] s4
                | (Some tp, s4) =>
                    match acquire orc (KBlock tp) s4 with                                 (* 64-67 *)
                    | (None, s5) => give_up n (mkTp p0 b0 (Some mq) (Some tp) None None) [] s5
                    | (Some m, s5) =>
                        match acquire orc (KPool sTR) s5 with                             (* 70-74 *)
                        | (None, s6) => give_up n (mkTp p0 b0 (Some mq) (Some tp) (Some m) None) [] s6
                        | (Some rp, s6) =>
                            let h := mkTp p0 b0 (Some mq) (Some tp) (Some m) (Some rp) in
                            match build n rp (thread_mem_size n / 8)%Z 0 [] s6 with
                            | (Built q, s7) => (TPool h q, s7)
                            | (Failed q, s7) => give_up n h q s7                          (* 104-106, 42-47 *)
                            | (Threw, s7) => (TThrew, s7)
                            end
                        end
                    end
                end
            end
        end
    end.

  (** what one runner and a complete pool own *)
  Definition runner_res (rp : nat) (r : runner) : list res := [(KThread, n_thr r); (KEvent, n_ev r); (KBlock rp, n_blk r)].
End Create.
