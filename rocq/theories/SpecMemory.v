(** What the reader keeps between two calls. *)
From Coq Require Import String Arith NArith Bool List.
From Verif Require Import ModelBase ModelLine ModelFormula ModelData ModelSource ModelReader ModelLazy SpecSize.
Import ListNotations.

(** The strings of a line, and the text that the error about a line quotes. *)
Definition held_line (x : item) : nat :=
  match x with
  | ILine PBlank => 0
  | ILine (PComment _ _ c) => length c
  | ILine (PMessage _ p t s) => length p + length t + length s
  | ILine (PCont _ p s) => length p + length s
  | IFail e => error_size e
  end.
(** The item that is delivered next, the line that has been looked at, and the bytes that have been
    read but not used.  (The rest of the reader is what is known from the header.) *)
Definition held_size (r : lreader) : nat :=
  match lr_next_unit r with Some x => uitem_size x | None => 0 end
  + match pk_peeked (lr_lines r) with Some (Some x) => held_line x | _ => 0 end
  + match li_inner (pk_iter (lr_lines r)) with Some s => length (s_buf s) | None => 0 end.
