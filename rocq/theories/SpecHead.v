(** The header as GNU gettext defines it ([is_header] in gettext-tools/src/message.h;
    obsolete entries are left out when the charset is looked up in the header). *)
From Coq Require Import List.
From Verif Require Import ModelBase ModelFormula ModelData ModelReader.
Import ListNotations.

(** An entry with an empty id, without context, that is not obsolete. *)
Definition empty_id (m : message) : Prop :=
  match m with MSimple id _ => id = [] | MPlural p => pl_singular p = [] end.
Definition gettext_header (u : unit_) : Prop := u_context u = None /\ u_obsolete u = false /\ empty_id (u_message u).
