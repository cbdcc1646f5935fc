(** Vocabulary for reading on demand. *)
From Coq Require Import String Arith NArith Bool List.
From Verif Require Import ModelBase ModelUtf8 ModelLine ModelFormula ModelData ModelSource ModelReader ModelLazy
  SpecReader SpecBlock SpecFile.
Import ListNotations.

(** The line iterator after [k] calls of its [next]. *)
Fixpoint after (k : nat) (it : line_iter) : line_iter :=
  match k with O => it | S k' => after k' (snd (li_next it)) end.
(** The results of [k] calls of the [next] of the catalogue reader, and the reader after them. *)
Fixpoint calls (k : nat) (r : reader) : list (safe (option uitem)) * reader :=
  match k with
  | O => ([], r)
  | S k' => let (x, r') := po_next r in let (xs, r'') := calls k' r' in (x :: xs, r'')
  end.
Fixpoint lz_calls (k : nat) (r : lreader) : list (safe (option uitem)) * lreader :=
  match k with
  | O => ([], r)
  | S k' => let (x, r') := lz_po_next r in let (xs, r'') := lz_calls k' r' in (x :: xs, r'')
  end.
(** The results of reads that have not been asked for; [None] after a failure, when the
    source is given up. *)
Definition unread (r : lreader) : option (list rd_event) := option_map s_events (li_inner (pk_iter (lr_lines r))).
(** How many text lines have been read. *)
Definition lines_read (r : lreader) : N := (li_n (pk_iter (lr_lines r)) - 1)%N.

(** The unit [k] of the catalogue [c], counted from 0, ends before the lines [r]. *)
Inductive unit_ends (lib : lang_lib) (pf : platform) (pl : list po_line) (tl : option error) (c : catalogue) (k : nat) (r : list po_line) : Prop :=
| ue_intro h bls b forms us u items : pl = h ++ concat bls ++ b ++ r -> preamble lib pf h (concat bls ++ b ++ r) tl forms c ->
    Forall2 (unit_entry forms) bls us -> length us = k -> c_items c = map UOk us ++ UOk u :: items ->
    unit_entry forms b u -> ends_at forms b r tl -> unit_ends lib pf pl tl c k r.

(** The error [e], when it is delivered, after [n] text lines: a failure of the stream comes
    after them; a line that is not acceptable or does not fit is the last of them (the former are
    reported with the number of the next line); the keyword line that an error about an empty source names is one of them. *)
Definition error_read (e : error) (n : N) : Prop :=
  match e with
  | EIo m _ => m = n + 1
  | EParse m _ [] => m = n + 1
  | EParse m _ _ => m = n
  | EUnexpected m _ => m <= n
  | EPluralForms _ => False
  end%N.
(** An entry with an empty id, whose first keyword line is [n], ends before the lines [r]. *)
Definition sourceless_at (pl : list po_line) (tl : option error) (n : N) (r : list po_line) : Prop :=
  exists forms a cs F N L C obs k ks pc pm c text, pl = a ++ (cs ++ k :: ks) ++ r /\ po_line_no k = n /\ block_comments cs F N L C
    /\ keywords forms obs (k :: ks) pc pm c (MSimple [] text) /\ ends_at forms (cs ++ k :: ks) r tl.
