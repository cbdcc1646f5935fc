(** Sizes of what is read and of what is delivered (C62). *)
From Coq Require Import String Arith NArith Bool List.
From Verif Require Import ModelBase ModelLine ModelFormula ModelData ModelSource ModelReader SpecReader.
Import ListNotations.

(** The number of bytes that a stream can deliver: nothing is asked for after a failure. *)
Fixpoint data_size (evs : list rd_event) : nat :=
  match evs with
  | [] => 0
  | RdData d :: evs' => length d + data_size evs'
  | RdInterrupted :: evs' => data_size evs'
  | RdError _ :: _ => 0
  end.

Fixpoint total (l : list nat) : nat := match l with [] => 0 | n :: l' => n + total l' end.
(** A string in a list or in an option counts for its characters and one more, so that
    numbers of strings are bounded as well.  The plural forms are not counted: all units
    share those of the header. *)
Definition string_size (s : str) : nat := S (length s).
Definition strings_size (l : list str) : nat := total (map string_size l).
Definition option_size (o : option str) : nat := match o with Some s => string_size s | None => 0 end.
Definition message_size (m : message) : nat :=
  match m with
  | MSimple id text => length id + option_size text
  | MPlural p => length (pl_singular p) + length (pl_plural p) + strings_size (pl_values p)
  end.
Definition notes_size (l : list note) : nat := total (map (fun n => string_size (note_value n)) l).
Definition comments_size (l : list comment) : nat := total (map (fun c => string_size (com_content c)) l).
(** All strings of a unit. *)
Definition content_size (u : unit_) : nat :=
  option_size (u_context u) + message_size (u_message u) + option_size (u_prev_context u) + message_size (u_prev_message u)
  + strings_size (u_flags u) + notes_size (u_notes u) + strings_size (u_locations u) + comments_size (u_comments u).
Definition unit_size (u : unit_) : nat := S (content_size u).
(** The text found in the file that a parse error shows. *)
Definition error_size (e : error) : nat := match e with EParse _ got _ => length got | _ => 0 end.
Definition uitem_size (x : uitem) : nat := match x with UOk u => unit_size u | UErr e => error_size e end.
Definition properties_size (m : smap str) : nat := total (map (fun kv => length (fst kv) + string_size (snd kv)) m).
Definition catalogue_size (c : catalogue) : nat :=
  notes_size (c_notes c) + comments_size (c_comments c) + properties_size (c_properties c) + total (map uitem_size (c_items c)).
