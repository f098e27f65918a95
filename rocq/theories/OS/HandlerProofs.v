(** Proofs about the containment of exceptions. *)
From Coq Require Import String List Bool.
Import ListNotations.
From Verif Require Import Spec.HandlerSpec OS.HandlerModel.

Lemma main_handles E timer c c1 x : e_run E c = (c1, Throws x) ->
  main E timer true c = match handle_exception E timer (message_of x) c1 with (t, c2, o) => (ARun :: t, c2, o) end.
Proof. intros H. unfold main, try_catch, ext. rewrite H. destruct x; reflexivity. Qed.
Lemma swallow a c : fst (fst (try_catch a (fun _ => done) c)) = fst (fst (a c)) /\ snd (try_catch a (fun _ => done) c) = Normal.
Proof. unfold try_catch, done. destruct (a c) as [[t1 c1] [|x]]; cbn; [|rewrite app_nil_r]; auto. Qed.
Lemma dispatch_acts E x c : fst (fst (dispatch E (message_of x) c)) = handling c x.
Proof.
  unfold dispatch, handling, handler_of, ext, done. destruct (own c) as [h|]; [|destruct (dflt c) as [h|]]; try reflexivity;
    destruct (e_handle E h (message_of x) c); reflexivity.
Qed.
Theorem nothing_escapes E timer runnable c : snd (main E timer runnable c) = Normal.
Proof.
  destruct runnable; [|reflexivity]. destruct (e_run E c) as [c1 [|x]] eqn:H; [unfold main, try_catch, ext; rewrite H; reflexivity|].
  rewrite (main_handles E timer c c1 x H). pose proof (proj2 (swallow (if timer then seq (ext AStop (e_stop E)) (dispatch E (message_of x)) else dispatch E (message_of x)) c1)) as S.
  unfold handle_exception. destruct (try_catch _ _ c1) as [[t c2] o]. exact S.
Qed.
Theorem normal_run E timer c c1 : e_run E c = (c1, Normal) -> main E timer true c = ([ARun], c1, Normal).
Proof. intros H. unfold main, try_catch, ext. rewrite H. reflexivity. Qed.
Theorem no_runnable E timer c : main E timer false c = ([], c, Normal).
Proof. reflexivity. Qed.
Lemma main_acts E timer c c1 x : e_run E c = (c1, Throws x) ->
  fst (fst (main E timer true c)) = ARun :: fst (fst ((if timer then seq (ext AStop (e_stop E)) (dispatch E (message_of x)) else dispatch E (message_of x)) c1)).
Proof.
  intros H. rewrite (main_handles E timer c c1 x H). rewrite <- (proj1 (swallow _ c1)). unfold handle_exception.
  destruct (try_catch _ _ c1) as [[t c2] o]. reflexivity.
Qed.
Theorem thread_dispatch E c c1 x : e_run E c = (c1, Throws x) -> fst (fst (main E false true c)) = ARun :: handling c1 x.
Proof. intros H. rewrite (main_acts E false c c1 x H). f_equal. apply dispatch_acts. Qed.
Theorem timer_dispatch E c c1 c2 x : e_run E c = (c1, Throws x) -> e_stop E c1 = (c2, Normal) ->
  fst (fst (main E true true c)) = ARun :: AStop :: handling c2 x.
Proof.
  intros H S. rewrite (main_acts E true c c1 x H). f_equal. unfold seq, ext. rewrite S.
  rewrite <- (dispatch_acts E x c2). destruct (dispatch E (message_of x) c2) as [[t c3] o]. reflexivity.
Qed.
Theorem timer_stop_throws E c c1 c2 x y : e_run E c = (c1, Throws x) -> e_stop E c1 = (c2, Throws y) ->
  fst (fst (main E true true c)) = [ARun; AStop].
Proof. intros H S. rewrite (main_acts E true c c1 x H). f_equal. unfold seq, ext. now rewrite S. Qed.
