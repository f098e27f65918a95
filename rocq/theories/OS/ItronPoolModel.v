(** Model of platform/ItronOSWrapper/ItronFixedMemoryPoolFactory.cpp (class ItronFixedMemoryPoolFactory, its pool table and the
    pools in it) and of private/ItronLock.h, for any number of tasks.  The variable-size pools (ItronVariableMemoryPoolFactory.cpp)
    have the same table, line for line (71-94), without block size and count; their allocation is the kernel's.
    The kernel (environment): memory pools are named by positive ids; acre_mpf creates a pool under an id that is not in use
    (ids may be reused), or fails, and always fails for a count of zero; pget_mpf hands out a block that is not handed out, and fails if
    there is none or no such pool; rel_mpf takes it back; del_mpf deletes the pool.  loc_mtx blocks while the mutex is held.
    [max] is MAX_FIXED_MEMORY_POOLS; [has_mtx] tells whether the constructor of the factory got its mutex (56-66: if not, m_mutexId
    stays 0 and Lock does nothing).  [tsz n b] is the kernel's macro TSZ_MPF(n, b).  size_t and UINT are unbounded here.  Block
    addresses are abstracted to block numbers. *)
From Coq Require Import List NArith Bool Arith.
Import ListNotations.
From Verif Require Import Spec.Linear Spec.MemPoolSpec OS.Sched.

Inductive qpc :=
| QIdle
| QLock (c : pcall)                       (* Lock lk(m_mutexId): 81, 95 *)
| QScan (bs size : N) (i : nat)           (* loop at slot i: 82-83 *)
| QAcre (bs size : N) (i : nat)           (* init: 15-22 *)
| QAssign (bs size : N) (i id : nat)      (* init: 26-27, id is the new pool *)
| QDel (i : nat)                          (* deinit: 33 *)
| QClear (i : nat)                        (* deinit: 34-35 *)
| QUnlock (r : pres)                      (* ~Lock *)
| QAt (c : pcall)                         (* allocate, deallocate, getBlockSize: no lock *)
| QRet (r : pres).

(** m_mpfId and m_blockSize of a slot; m_mpfId = 0: not created *)
Record qst := mkQ { q_id : nat -> nat; q_bs : nat -> N; q_kern : nat -> option (N * list N); q_mtx : option nat; q_thr : nat -> qpc }.
Definition q_init : qst := mkQ (fun _ => 0) (fun _ => 0%N) (fun _ => None) None (fun _ => QIdle).          (* .h 23 *)

Inductive qlab :=
| ZCall (t : nat) (c : pcall)
| ZStep (t : nat)
| ZAcre (t : nat) (id : nat)       (* acre_mpf answers id; 0 stands for an error *)
| ZGet (t : nat) (b : N).          (* pget_mpf answers block b *)

Definition q_go (s : qst) (t : nat) (x : qpc) : qst := mkQ (q_id s) (q_bs s) (q_kern s) (q_mtx s) (fupd (q_thr s) t x).
(** blkcnt: 17-18 *)
Definition q_count (tsz : N -> N -> N) (bs size : N) : N := (size / tsz 1 bs)%N.
Definition all_out (cnt : N) (out : list N) : bool := forallb (fun k => existsb (N.eqb (N.of_nat k)) out) (seq 0 (N.to_nat cnt)).
Definition is_out (b : N) (out : list N) : bool := existsb (N.eqb b) out.
Notation qout := (list (event pcall pres)).

Definition q_step (max : nat) (tsz : N -> N -> N) (has_mtx : bool) (s : qst) (l : qlab) : option (qst * qout) :=
  match l with
  | ZCall t c =>
      match q_thr s t with
      | QIdle =>
          match c with
          | PCreate bs size =>                                                               (* 77-79 *)
              if (N.eqb bs 0 || N.eqb size 0)%bool then Some (q_go s t (QRet QBad), [Call t c; Eff t c QBad]) else Some (q_go s t (QLock c), [Call t c])
          | PDestroy _ => Some (q_go s t (QLock c), [Call t c])
          | _ => Some (q_go s t (QAt c), [Call t c])
          end
      | _ => None
      end
  | ZStep t =>
      match q_thr s t with
      | QIdle => None
      | QLock c =>                                                                           (* ItronLock.h 13-18 *)
          let next := match c with PCreate bs size => QScan bs size 0 | PDestroy i => QDel i | _ => QIdle end in
          if has_mtx then
            match q_mtx s with
            | None => Some (mkQ (q_id s) (q_bs s) (q_kern s) (Some t) (fupd (q_thr s) t next), [])
            | Some _ => None
            end
          else Some (q_go s t next, [])
      | QScan bs size i =>
          if i <? max then
            if 0 <? q_id s i then Some (q_go s t (QScan bs size (S i)), [])                  (* 82-83, .h 28 *)
            else Some (q_go s t (QAcre bs size i), [])
          else Some (q_go s t (QUnlock QNoSlot), [Eff t (PCreate bs size) QNoSlot])          (* 90 *)
      | QAcre bs size i => None                                                              (* see ZAcre *)
      | QAssign bs size i id =>                                                              (* 26-28, 84-87 *)
          Some (mkQ (fupd (q_id s) i id) (fupd (q_bs s) i bs) (q_kern s) (q_mtx s) (fupd (q_thr s) t (QUnlock (QPool i))), [Eff t (PCreate bs size) (QPool i)])
      | QDel i =>                                                                            (* 33 *)
          Some (mkQ (q_id s) (q_bs s) (if 0 <? q_id s i then fupd (q_kern s) (q_id s i) None else q_kern s) (q_mtx s) (fupd (q_thr s) t (QClear i)),
                [Eff t (PDestroy i) QVoid])
      | QClear i =>                                                                          (* 34-35 *)
          Some (mkQ (fupd (q_id s) i 0) (fupd (q_bs s) i 0%N) (q_kern s) (q_mtx s) (fupd (q_thr s) t (QUnlock QVoid)), [])
      | QUnlock r =>                                                                         (* ItronLock.h 20-25 *)
          Some (mkQ (q_id s) (q_bs s) (q_kern s) (if has_mtx then None else q_mtx s) (fupd (q_thr s) t (QRet r)), [])
      | QAt (PAlloc i) =>                                                                    (* 38-46: pget_mpf fails *)
          match q_kern s (q_id s i) with
          | Some (cnt, out) => if all_out cnt out then Some (q_go s t (QRet QNull), [Eff t (PAlloc i) QNull]) else None
          | None => Some (q_go s t (QRet QNull), [Eff t (PAlloc i) QNull])
          end
      | QAt (PFree i b) =>                                                                   (* 48-53 *)
          Some (mkQ (q_id s) (q_bs s)
                    (match q_kern s (q_id s i) with
                     | Some (cnt, out) => fupd (q_kern s) (q_id s i) (Some (cnt, filter (fun x => negb (N.eqb b x)) out))
                     | None => q_kern s
                     end) (q_mtx s) (fupd (q_thr s) t (QRet QVoid)), [Eff t (PFree i b) QVoid])
      | QAt (PBlockSize i) => Some (q_go s t (QRet (QSize (q_bs s i))), [Eff t (PBlockSize i) (QSize (q_bs s i))])   (* .h 32 *)
      | QAt _ => None
      | QRet r => Some (q_go s t QIdle, [Ret t r])
      end
  | ZAcre t id =>
      match q_thr s t with
      | QAcre bs size i =>
          if id =? 0 then Some (q_go s t (QUnlock QRefused), [Eff t (PCreate bs size) QRefused])                  (* 23-25, 87 *)
          else match q_kern s id with
               | None => if (0 <? q_count tsz bs size)%N then
                           Some (mkQ (q_id s) (q_bs s) (fupd (q_kern s) id (Some (q_count tsz bs size, []))) (q_mtx s) (fupd (q_thr s) t (QAssign bs size i id)), [])
                         else None
               | Some _ => None
               end
      | _ => None
      end
  | ZGet t b =>                                                                              (* 38-46: pget_mpf succeeds *)
      match q_thr s t with
      | QAt (PAlloc i) =>
          match q_kern s (q_id s i) with
          | Some (cnt, out) =>
              if ((b <? cnt)%N && negb (is_out b out))%bool then
                Some (mkQ (q_id s) (q_bs s) (fupd (q_kern s) (q_id s i) (Some (cnt, b :: out))) (q_mtx s) (fupd (q_thr s) t (QRet (QBlock b))), [Eff t (PAlloc i) (QBlock b)])
              else None
          | None => None
          end
      | _ => None
      end
  end.

Definition q_idle (s : qst) (t : nat) : Prop := q_thr s t = QIdle.
Definition q_own_step (l : qlab) : Prop := match l with ZCall _ _ => False | _ => True end.
Definition q_stuck (max : nat) (tsz : N -> N -> N) (has_mtx : bool) (s : qst) : Prop :=
  forall l, q_own_step l -> q_step max tsz has_mtx s l = None.
(** getRequiredMemorySize: 100-103 *)
Definition q_required (tsz : N -> N -> N) (bs n : N) : N := tsz n bs.

(** * platform/StdCppOSWrapper/StdCppFixedMemoryPoolFactory.cpp: sizes are size_t, of [w] bits *)
(** getRequiredMemorySize: 63-66 *)
Definition std_required (w : N) (bs n : N) : N := ((bs * n) mod 2 ^ w)%N.
(** create returns null (40-42); otherwise an object is allocated, whatever the size *)
Definition std_create_null (bs size : N) : bool := (N.eqb bs 0 || N.eqb size 0)%bool.
