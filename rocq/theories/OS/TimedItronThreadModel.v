(** The clock of OS/TimedModel beside the model of ItronThread (OS/ItronThreadModel).  ItronThreadFactory.cpp:175-188: timedWait passes its
    limit to twai_flg, which counts it from its entry; then waitUntilDormant (60-68) polls, with dly_tsk(0), until the task is dormant. *)
From Coq Require Import List ZArith Bool Arith.
Import ListNotations.
From Verif Require Import Spec.OSError Spec.Linear Spec.ThreadSpec Spec.ItronThreadSpec OS.Sched OS.ItronThreadModel OS.TimedModel.
Open Scope Z_scope.

(** agent 0 is the thread's own task *)
Definition it_who (l : ilabel) : nat := match l with NCall t _ | NStep t | NTimeout t | NSpin t => t | NTask => 0%nat end.
Definition it_starts (s : its) (l : ilabel) : bool :=
  match l with NStep t => match n_thr s t with IWai _ => true | _ => false end | _ => false end.                       (* 178 *)
Definition it_expiry (s : its) (l : ilabel) : option Z :=
  match l with NTimeout t => match n_thr s t with IQue (IT (TWait ms)) => Some ms | _ => None end | _ => None end.     (* 178, 183 *)
Section IT.
  Variables prio0 minp maxp : Z.
  Variable ext_prio : nat -> Z.
  Variable n : nat.               (* the agents are 0 .. n-1 *)
  Notation stp := (n_step prio0 minp maxp ext_prio).
  (** the steps of the task that take no time: all but the run() of its runnable *)
  Definition it_prompt (s : its) : option (its * list (event icall ires)) := match n_task s with KRun => None | _ => stp s NTask end.
  Definition it_timed (may_tick : tst its -> bool) := t_step its ilabel icall ires stp it_who n it_starts it_expiry may_tick.
  (** time passes only when every client waits (or polls in vain) or has no call, no limit has been reached, and the task is dormant, waits
      or is in run() *)
  Definition it_urgent (x : tst its) : bool :=
    urgent stp it_who n it_expiry NStep NTimeout x && match it_prompt (t_st x) with Some _ => false | None => true end.
End IT.
