(** Model of platform/ItronOSWrapper/ItronEventFlagFactory.cpp:42-169 (class ItronEventFlag) when it is also called outside
    tasks: from interrupt handlers and timer callbacks (cyclic and alarm handlers).  [nt t]: caller [t] is a handler.
    Kernel outside tasks: twai_flg gives E_CTX; set_flg, clr_flg and ref_flg give E_CTX too, or, in a [lenient] kernel, do
    what they do in a task (set_flg as iset_flg, waking the tasks whose condition holds).
    Calls that the kernel accepts, and calls whose arguments are rejected before any kernel call, go through
    OS/ItronEventFlagModel.v step by step; a call that the kernel refuses touches nothing shared, and is one step
    (label [GRefused]).  Simplification: no step of others comes inside a refused call; handlers are not preempted by tasks. *)
From Coq Require Import List ZArith Bool.
Import ListNotations.
From Verif Require Import Spec.OSError Spec.Linear Spec.EventFlagSpec OS.Sched OS.EventFlagModel OS.ItronEventFlagModel.
Open Scope Z_scope.

Inductive glab := GStep (l : iflab) | GRefused (h : nat) (c : ecall).
Section G.
  Variables w wf : Z.
  Variables dbg ar : bool.
  Variable nt : nat -> bool.
  Variable lenient : bool.
  (** what a kernel call that gives E_CTX becomes: None: the kernel accepts it *)
  Definition refused (o : eop) : option eres :=
    match o with
    | OWait _ _ _ _ => Some (ERes CalledByNonThread None)                        (* 105-106 *)
    | OSet _ | OReset _ => if lenient then None else Some (ERes OtherError None) (* 132-133, 155-156 *)
    | OGet => if lenient then None else Some (EPat 0)                            (* 166-167 *)
    end.
  (** 42-92, 114-125, 137-148, then the kernel call *)
  Definition refused_call (c : ecall) : option eres :=
    match if_entry w dbg c with Go o => refused o | _ => None end.
  Definition g_step (s : ifst) (l : glab) : option (ifst * list (event ecall eres)) :=
    match l with
    | GStep (FCall t c) =>
        if nt t then match refused_call c with Some _ => None | None => f_step w wf dbg ar s (FCall t c) end
        else f_step w wf dbg ar s (FCall t c)
    | GStep l => f_step w wf dbg ar s l
    | GRefused h c =>
        if nt h then
          match f_thr s h, refused_call c with
          | FIdle, Some r => Some (s, [Call h c; Eff h c r; Ret h r])
          | _, _ => None
          end
        else None
    end.
  Definition g_label_ok (l : glab) : Prop :=
    match l with GStep l => f_label_ok w l | GRefused _ c => ecall_ok w c end.
End G.
