(** The work of reading a whole stream (see ModelWork.v for what is counted). *)
From Coq Require Import String Arith NArith Bool List.
From Verif Require Import ModelBase ModelLine ModelFormula ModelData ModelSource ModelReader ModelWork SpecReader SpecBlock.
Import ListNotations.
Local Open Scope nat_scope.

(** Parse, then iterate up to the first [None], as [read_catalogue]. *)
Definition read_catalogue_w (w : po_line -> nat) (lib : lang_lib) (pf : platform) (evs : list rd_event) : outcome catalogue * nat :=
  match reader_new_w w lib pf (responses (li_new evs)) with
  | (Ok r, c) =>
      match po_collect_w w (S (S (length (responses (li_new evs))))) r with
      | (Some l, c') => (Ok (Catalogue (rd_header_notes r) (rd_header_comments r) (rd_header_properties r)
                                       (rd_target_language r) l), c + c')
      | (None, c') => (Panic, c + c')
      end
  | (Err e, c) => (Err e, c)
  | (Panic, c) => (Panic, c)
  end.
Definition work (w : po_line -> nat) (lib : lang_lib) (pf : platform) (evs : list rd_event) : nat := snd (read_catalogue_w w lib pf evs).

(** Polls only: clones cost nothing. *)
Definition polls_only (l : po_line) : nat := 0.
(** Characters of the strings of a line. *)
Definition line_chars (l : po_line) : nat :=
  match l with
  | PComment _ _ s => length s
  | PMessage _ p t s => length p + length t + length s
  | PCont _ p s => length p + length s
  | PBlank => 0
  end.

(** The forms asked for by the units of a catalogue: for each plural unit as many as
    declared. *)
Definition forms_asked (items : list uitem) : nat :=
  fold_right (fun x n => match x with
    | UOk u => match u_message u with MPlural p => N.to_nat (nforms (pl_forms p)) | _ => 0 end
    | UErr _ => 0
    end + n) 0 items.
