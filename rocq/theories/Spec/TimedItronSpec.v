(** How long the calls of a Thread of the Itron platform may take (the notions are those of Spec/TimedSpec). *)
From Coq Require Import ZArith.
From Verif Require Import Spec.OSError Spec.TimedSpec Spec.ThreadSpec Spec.TimedMoreSpec Spec.ItronThreadSpec.
Open Scope Z_scope.

(** setPriority and getPriority do not wait either *)
Definition itron_thread_limit (c : icall) : option Z := match c with IT c => thread_limit c | ISetPriority _ | IGetPriority => Some 0 end.
Definition itron_thread_timed_out (r : ires) : Prop := r = IR (RErr TimedOut).
