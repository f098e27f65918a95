(** Model of mechanism/Assertion/Assertion.h: message formatting over byte buffers, and failure dispatch.
    A write outside its buffer, or a read past the terminator of a string, is [None]. *)
From Coq Require Import String List Arith NArith ZArith Bool.
Import ListNotations.
From Verif Require Import Spec.AssertSpec.

Definition poke (buf : list nat) (i c : nat) : option (list nat) :=
  if i <? length buf then Some (firstn i buf ++ c :: skipn (S i) buf) else None.
Definition peek (buf : list nat) (i : nat) : option nat := nth_error buf i.

(** 167-185 copyCString; [fuel] is size - i.  [from] is the memory of the string, terminator included. *)
Fixpoint copy_loop (fuel i size : nat) (buf : list nat) (to : nat) (from : list nat) : option (list nat * nat) :=
  match fuel with
  | O => match poke buf (to + (size - 1)) 0 with Some b => Some (b, size - 1) | None => None end
  | S f =>
      match peek from i with
      | None => None
      | Some c =>
          match poke buf (to + i) c with
          | None => None
          | Some b => if c =? 0 then Some (b, i) else copy_loop f (S i) size b to from
          end
      end
  end.
Definition copyCString (buf : list nat) (to size : nat) (from : list nat) : option (list nat * nat) :=
  if size =? 0 then Some (buf, 0) else copy_loop size 0 size buf to from.

(** 157-165 concatCString: returns the buffer, the new position and the new remain *)
Definition concatCString (st : option (list nat * nat * nat)) (from : list nat) : option (list nat * nat * nat) :=
  match st with
  | None => None
  | Some (buf, p, remain) =>
      if remain <=? 1 then Some (buf, p, remain)
      else match copyCString buf p remain from with
           | None => None
           | Some (b, len) => Some (b, p + len, remain - len)
           end
  end.

(** 129-155 toCString: digits are produced into tmp[16] and copied reversed; [numStr[d]] is 48 + d *)
Definition TMP_SIZE := 16.
Fixpoint digits_loop (fuel i : nat) (val : N) (tmp : list nat) : option (list nat * nat) :=
  match fuel with
  | O => Some (tmp, i)
  | S f => if (val =? 0)%N then Some (tmp, i)
           else match poke tmp i (48 + N.to_nat (val mod 10)) with
                | None => None
                | Some t => digits_loop f (S i) (val / 10)%N t
                end
  end.
Fixpoint rev_loop (fuel i tmpLen size : nat) (buf tmp : list nat) : option (list nat * bool) :=
  match fuel with
  | O => Some (buf, true)
  | S f =>
      if i <? size then
        match peek tmp (tmpLen - i - 1) with
        | None => None
        | Some c => match poke buf i c with None => None | Some b => rev_loop f (S i) tmpLen size b tmp end
        end
      else match poke buf (size - 1) 0 with None => None | Some b => Some (b, false) end
  end.
Definition toCString (buf : list nat) (size : nat) (val : N) (tmp0 : list nat) : option (list nat) :=
  if size =? 0 then Some buf
  else match digits_loop (TMP_SIZE - 1) 0 val tmp0 with
       | None => None
       | Some (tmp, tmpLen) =>
           match rev_loop tmpLen 0 tmpLen size buf tmp with
           | None => None
           | Some (b, true) => poke b tmpLen 0
           | Some (b, false) => Some b
           end
       end.

(** 77-90 Failure::Failure.  m_buf() is zero-filled; lineBuf and tmp start with arbitrary contents.  *)
Definition to_unsigned (line : Z) : N := Z.to_N (line mod 2 ^ 32).            (* static_cast<unsigned int> *)
Definition failure_buf (bufsize : nat) (lineBuf0 tmp0 : list nat) (file : list nat) (line : Z) (expr : list nat) : option (list nat) :=
  let st := Some (repeat 0 bufsize, 0, bufsize) in
  let st := concatCString st (file ++ [0]) in
  let st := concatCString st (chars "(" ++ [0]) in
  match toCString lineBuf0 16 (to_unsigned line) tmp0 with
  | None => None
  | Some lineBuf =>
      let st := concatCString st lineBuf in
      let st := concatCString st (chars "): Assertion failed (" ++ [0]) in
      let st := concatCString st (expr ++ [0]) in
      let st := concatCString st (chars ")" ++ [0]) in
      match st with None => None | Some (b, _, _) => Some b end
  end.

(** 103-113 assertFail, 115-118 setHandler, 28-29 CHECK_ASSERT.  A handler is an identity; what it does when called is
    its behaviour. *)
Inductive hbeh := HReturns | HThrows (e : nat) | HNever.     (* HNever: abort, longjmp, endless loop *)
Inductive aevent := ECall (h : nat) (msg : list nat).
Inductive aresult := AContinue | AThrowFailure (msg : list nat) | AThrowHandler (e : nat) | ANoReturn.
Definition assert_fail (no_exceptions : bool) (beh : nat -> hbeh) (handler : option nat) (msg : list nat) : list aevent * aresult :=
  let after := if no_exceptions then AContinue else AThrowFailure msg in
  match handler with
  | None => ([], after)
  | Some h => ([ECall h msg], match beh h with HReturns => after | HThrows e => AThrowHandler e | HNever => ANoReturn end)
  end.
Inductive acall := ASetHandler (h : option nat) | ACheck (cond : bool) (msg : list nat).
Definition a_step (no_exceptions : bool) (beh : nat -> hbeh) (handler : option nat) (c : acall) : option nat * list aevent * aresult :=
  match c with
  | ASetHandler h => (h, [], AContinue)
  | ACheck true _ => (handler, [], AContinue)
  | ACheck false msg => let '(ev, r) := assert_fail no_exceptions beh handler msg in (handler, ev, r)
  end.
(** a program that catches every exception and goes on with the next call *)
Fixpoint a_run (no_exceptions : bool) (beh : nat -> hbeh) (handler : option nat) (cs : list acall) : list (list aevent * aresult) :=
  match cs with
  | [] => []
  | c :: cs' => let '(h', ev, r) := a_step no_exceptions beh handler c in
                (ev, r) :: match r with ANoReturn => [] | _ => a_run no_exceptions beh h' cs' end
  end.
