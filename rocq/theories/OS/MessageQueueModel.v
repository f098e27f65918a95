(** Model of mechanism/OSWrapper/MessageQueue.h (class template MessageQueue<T>) for any number of threads.
    One step per acquisition and release of m_mtxSend, m_mtxRecv and m_mtxRB, per operation on m_event, and per
    operation on the ring buffer (which only happens while m_mtxRB is held).
    The Mutex and EventFlag objects are taken as the atomic objects of Spec/MutexSpec and Spec/EventFlagSpec (proved of
    the StdCpp implementations in OS/MutexProofs, OS/EventFlagProofs): locking blocks while another thread owns the
    mutex; timedLock may return TimedOut only then, or another error (label QLockFail); m_event has the two bits
    EV_NOT_EMPTY and EV_NOT_FULL and no auto-reset; timedWait returns OK only while its bit is on, and TimedOut only
    while it is off.
    Simplifications: the lock() calls inside LockGuard(m_mtxRB) are assumed to succeed (the code ignores their result);
    each ring operation is one step; time is not modelled. *)
From Coq Require Import List ZArith Bool Arith.
Import ListNotations.
From Verif Require Import Spec.OSError Spec.Linear Spec.MessageQueueSpec OS.Sched.
Open Scope Z_scope.

Section Ring.
  Variable V : Type.
  Variable B : Z.                          (* m_bufSize: 33, 261 *)

  Definition u64 (x : Z) : Z := x mod 2 ^ 64.
  (** slots of m_buf: None is raw storage, Some v a constructed object *)
  Record ring := mkR { r_begin : Z; r_end : Z; r_buf : Z -> option V }.

  (** 264-270 next_idx *)
  Definition next_idx (idx : Z) : Z := if u64 (idx + 1) <? B then u64 (idx + 1) else u64 (u64 (idx + 1) - B).
  (** 278 constructor *)
  Definition ring_init : ring := mkR 0 0 (fun _ => None).
  (** 282-288 getSize *)
  Definition ring_size (r : ring) : Z :=
    if r_begin r <=? r_end r then u64 (r_end r - r_begin r) else u64 (u64 (B - r_begin r) + r_end r).
  (** 290-293 getMaxSize *)
  Definition ring_max : Z := u64 (B - 1).
  (** 295-298 isEmpty, 300-303 isFull *)
  Definition ring_empty (r : ring) : bool := r_begin r =? r_end r.
  Definition ring_full (r : ring) : bool := ring_size r =? ring_max.
  Definition in_buf (i : Z) : bool := (0 <=? i) && (i <? B).
  Definition slot_upd (f : Z -> option V) (i : Z) (x : option V) : Z -> option V := fun j => if j =? i then x else f j.
  (** 305-309 push; None: construction over a live object or outside the buffer *)
  Definition ring_push (r : ring) (v : V) : option ring :=
    if in_buf (r_end r) then
      match r_buf r (r_end r) with
      | None => Some (mkR (r_begin r) (next_idx (r_end r)) (slot_upd (r_buf r) (r_end r) (Some v)))
      | Some _ => None
      end
    else None.
  (** 311-318 pop; None: access to raw storage or outside the buffer *)
  Definition ring_pop (r : ring) : option (V * ring) :=
    if in_buf (r_begin r) then
      match r_buf r (r_begin r) with
      | Some v => Some (v, mkR (next_idx (r_begin r)) (r_end r) (slot_upd (r_buf r) (r_begin r) None))
      | None => None
      end
    else None.
  (** 280 ~RingBuf() {} *)
  Definition ring_destroy (r : ring) : ring := r.
End Ring.
Arguments mkR {V}. Arguments r_begin {V}. Arguments r_end {V}. Arguments r_buf {V}. Arguments ring_init {V}.

Section MQ.
  Variable V : Type.
  Variable maxSize : Z.
  Definition rbBufSize : Z := u64 (maxSize + 1).                                          (* 33 *)
  Notation B := rbBufSize.

  (** where a thread is in its call *)
  Inductive point :=
  | PLockOuter                 (* m_mtxSend / m_mtxRecv ->timedLock(tmout): 125, 206 *)
  | PLockChk                   (* LockGuard lock(m_mtxRB) in isFull / isEmpty: 378, 368 *)
  | PChk                       (* m_rb.isFull() / isEmpty(): 379, 369 *)
  | PResetEv                   (* m_event->reset(..): 381, 371 *)
  | PUnlockChk (b : bool)      (* end of isFull / isEmpty, returning b *)
  | PWait                      (* m_event->timedWait(..): 132, 213 *)
  | PLockOp                    (* LockGuard lock(m_mtxRB) in push, pop, getSize, getMaxSize: 388, 395, 242, 252 *)
  | POp                        (* m_rb.push / pop / getSize / getMaxSize: 389, 396, 243, 253 *)
  | PSetEv (r : qres V)        (* m_event->set(..): 390, 397 *)
  | PUnlockOp (r : qres V)     (* end of push, pop, getSize, getMaxSize *)
  | PUnlockOuter (r : qres V)  (* ~LockGuard for m_mtxSend / m_mtxRecv *)
  | PRet (r : qres V).
  Inductive qpc := QIdle | QAt (c : qcall V) (p : point).

  Record qst := mkQ { q_ring : ring V; q_ne : bool; q_nf : bool;        (* EV_NOT_EMPTY, EV_NOT_FULL *)
                      q_mrb : option nat; q_msend : option nat; q_mrecv : option nat; q_ub : bool; q_thr : nat -> qpc }.
  Definition q_init : qst := mkQ ring_init false false None None None false (fun _ => QIdle).       (* 332-337 *)

  Inductive qlab :=
  | QCall (t : nat) (c : qcall V)
  | QStep (t : nat)
  | QTimeout (t : nat)                     (* a timedLock or timedWait gives up *)
  | QLockFail (t : nat)                    (* timedLock of m_mtxSend / m_mtxRecv returns OtherError *)
  | QThrow (t : nat) (failure : bool).     (* copying the message throws; failure: the exception is Assertion::Failure *)

  Definition is_send (c : qcall V) : bool := match c with QSend _ _ => true | _ => false end.
  Definition tmout (c : qcall V) : Z := match c with QSend _ ms | QRecv _ ms => ms | _ => -1 end.
  Definition fail_res (c : qcall V) (e : err) : qres V := match c with QRecv _ _ => RRecv e None | _ => RSend e end.
  Definition outer (s : qst) (c : qcall V) : option nat := if is_send c then q_msend s else q_mrecv s.
  Definition set_outer (s : qst) (c : qcall V) (o : option nat) : qst :=
    if is_send c then mkQ (q_ring s) (q_ne s) (q_nf s) (q_mrb s) o (q_mrecv s) (q_ub s) (q_thr s)
    else mkQ (q_ring s) (q_ne s) (q_nf s) (q_mrb s) (q_msend s) o (q_ub s) (q_thr s).
  Definition set_mrb (s : qst) (o : option nat) : qst :=
    mkQ (q_ring s) (q_ne s) (q_nf s) o (q_msend s) (q_mrecv s) (q_ub s) (q_thr s).
  Definition set_ring (s : qst) (r : ring V) : qst :=
    mkQ r (q_ne s) (q_nf s) (q_mrb s) (q_msend s) (q_mrecv s) (q_ub s) (q_thr s).
  Definition set_ub (s : qst) : qst :=
    mkQ (q_ring s) (q_ne s) (q_nf s) (q_mrb s) (q_msend s) (q_mrecv s) true (q_thr s).
  (** the bit a call resets and waits for: EV_NOT_FULL in timedSend, EV_NOT_EMPTY in timedReceive (132, 213, 371, 381) *)
  Definition wait_bit (s : qst) (c : qcall V) : bool := if is_send c then q_nf s else q_ne s.
  Definition reset_bit (s : qst) (c : qcall V) : qst :=
    if is_send c then mkQ (q_ring s) (q_ne s) false (q_mrb s) (q_msend s) (q_mrecv s) (q_ub s) (q_thr s)
    else mkQ (q_ring s) false (q_nf s) (q_mrb s) (q_msend s) (q_mrecv s) (q_ub s) (q_thr s).
  (** the bit a call sets when done: EV_NOT_EMPTY in push, EV_NOT_FULL in pop (390, 397) *)
  Definition set_bit (s : qst) (c : qcall V) : qst :=
    if is_send c then mkQ (q_ring s) true (q_nf s) (q_mrb s) (q_msend s) (q_mrecv s) (q_ub s) (q_thr s)
    else mkQ (q_ring s) (q_ne s) true (q_mrb s) (q_msend s) (q_mrecv s) (q_ub s) (q_thr s).
  Definition q_go (s : qst) (t : nat) (q : qpc) : qst :=
    mkQ (q_ring s) (q_ne s) (q_nf s) (q_mrb s) (q_msend s) (q_mrecv s) (q_ub s) (fupd (q_thr s) t q).

  Definition free (o : option nat) : bool := match o with None => true | Some _ => false end.
  (** blocked: full for a sender, empty for a receiver *)
  Definition blocked (s : qst) (c : qcall V) : bool := if is_send c then ring_full V B (q_ring s) else ring_empty V (q_ring s).

  Notation out := (list (event (qcall V) (qres V))).

  (** push, pop, getSize, getMaxSize: the ring operation *)
  Definition q_op (s : qst) (t : nat) (c : qcall V) : qst * out :=
    match c with
    | QSend v _ =>
        match ring_push V B (q_ring s) v with
        | Some r => (q_go (set_ring s r) t (QAt c (PSetEv (RSend OK))), [Eff t c (RSend OK)])
        | None => (set_ub s, [])
        end
    | QRecv store _ =>
        match ring_pop V B (q_ring s) with
        | Some (v, r) => let res := RRecv OK (if store then Some v else None) in
                         (q_go (set_ring s r) t (QAt c (PSetEv res)), [Eff t c res])
        | None => (set_ub s, [])
        end
    | QGetSize => let res := RNum (ring_size V B (q_ring s)) in (q_go s t (QAt c (PUnlockOp res)), [Eff t c res])
    | QGetMaxSize => let res := RNum (ring_max B) in (q_go s t (QAt c (PUnlockOp res)), [Eff t c res])
    end.

  Definition q_step (s : qst) (l : qlab) : option (qst * out) :=
    match l with
    | QCall t c =>
        match q_thr s t with
        | QIdle => Some (q_go s t (QAt c (match c with QSend _ _ | QRecv _ _ => PLockOuter | _ => PLockOp end)), [Call t c])
        | _ => None
        end
    | QStep t =>
        match q_thr s t with
        | QIdle => None
        | QAt c PLockOuter =>
            if free (outer s c) then Some (q_go (set_outer s c (Some t)) t (QAt c PLockChk), []) else None
        | QAt c PLockChk => if free (q_mrb s) then Some (q_go (set_mrb s (Some t)) t (QAt c PChk), []) else None
        | QAt c PChk => Some (q_go s t (QAt c (if blocked s c then PResetEv else PUnlockChk false)), [])
        | QAt c PResetEv => Some (q_go (reset_bit s c) t (QAt c (PUnlockChk true)), [])
        | QAt c (PUnlockChk b) => Some (q_go (set_mrb s None) t (QAt c (if b then PWait else PLockOp)), [])
        | QAt c PWait => if wait_bit s c then Some (q_go s t (QAt c PLockOp), []) else None
        | QAt c PLockOp => if free (q_mrb s) then Some (q_go (set_mrb s (Some t)) t (QAt c POp), []) else None
        | QAt c POp => Some (q_op s t c)
        | QAt c (PSetEv r) => Some (q_go (set_bit s c) t (QAt c (PUnlockOp r)), [])
        | QAt c (PUnlockOp r) =>
            Some (q_go (set_mrb s None) t (QAt c (match c with QSend _ _ | QRecv _ _ => PUnlockOuter r | _ => PRet r end)), [])
        | QAt c (PUnlockOuter r) => Some (q_go (set_outer s c None) t (QAt c (PRet r)), [])
        | QAt c (PRet r) => Some (q_go s t QIdle, [Ret t r])
        end
    | QTimeout t =>
        match q_thr s t with
        | QAt c PLockOuter =>                                                             (* 126-128, 207-209 *)
            if free (outer s c) || (tmout c =? -1) then None
            else Some (q_go s t (QAt c (PRet (fail_res c TimedOut))), [Eff t c (fail_res c TimedOut)])
        | QAt c PWait =>                                                                  (* 133-135, 214-216 *)
            if wait_bit s c || (tmout c =? -1) then None
            else Some (q_go s t (QAt c (PUnlockOuter (fail_res c TimedOut))), [Eff t c (fail_res c TimedOut)])
        | _ => None
        end
    | QLockFail t =>                                                                      (* 126-128, 207-209 *)
        match q_thr s t with
        | QAt c PLockOuter => Some (q_go s t (QAt c (PRet (fail_res c OtherError))), [Eff t c (fail_res c OtherError)])
        | _ => None
        end
    | QThrow t failure =>
        (* new(p) T(val) at 272, *data = m_buf[m_begin] at 314; caught at 145-150, 226-231; nothing was changed yet *)
        match q_thr s t with
        | QAt (QSend v ms) POp =>
            let r := if failure then RFailure else RSend OtherError in
            Some (q_go s t (QAt (QSend v ms) (PUnlockOp r)), [Eff t (QSend v ms) r])
        | QAt (QRecv true ms) POp =>
            let r := if failure then RFailure else RRecv OtherError None in
            Some (q_go s t (QAt (QRecv true ms) (PUnlockOp r)), [Eff t (QRecv true ms) r])
        | _ => None
        end
    end.

  Definition q_idle (s : qst) (t : nat) : Prop := q_thr s t = QIdle.
  Definition q_running (s : qst) (t : nat) : option (qcall V) := match q_thr s t with QIdle => None | QAt c _ => Some c end.
  Definition q_own_step (l : qlab) : Prop := match l with QCall _ _ => False | _ => True end.
End MQ.
Arguments PLockOuter {V}. Arguments PLockChk {V}. Arguments PChk {V}. Arguments PResetEv {V}. Arguments PUnlockChk {V}.
Arguments PWait {V}. Arguments PLockOp {V}. Arguments POp {V}. Arguments PSetEv {V}. Arguments PUnlockOp {V}.
Arguments PUnlockOuter {V}. Arguments PRet {V}. Arguments QIdle {V}. Arguments QAt {V}.
Arguments mkQ {V}. Arguments q_ring {V}. Arguments q_ne {V}. Arguments q_nf {V}. Arguments q_mrb {V}. Arguments q_msend {V}.
Arguments q_mrecv {V}. Arguments q_ub {V}. Arguments q_thr {V}.
Arguments QCall {V}. Arguments QStep {V}. Arguments QTimeout {V}. Arguments QLockFail {V}. Arguments QThrow {V}.
Arguments is_send {V}. Arguments tmout {V}. Arguments fail_res {V}. Arguments outer {V}. Arguments set_outer {V}.
Arguments set_mrb {V}. Arguments set_ring {V}. Arguments set_ub {V}. Arguments wait_bit {V}. Arguments reset_bit {V}.
Arguments set_bit {V}. Arguments q_go {V}. Arguments q_idle {V}. Arguments q_running {V}. Arguments q_own_step {V}.
