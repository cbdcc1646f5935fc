(** The catalogues that can be read (C119). *)
From Coq Require Import String NArith List.
From Verif Require Import ModelBase ModelLine ModelFormula ModelData ModelReader SpecLine SpecSource SpecReader SpecBlock SpecHeader SpecWriter.
Import ListNotations.
Local Open Scope N_scope.

(** Notes and comments of the header are comment lines; keys and values of the properties have the
    shape of C64, keys occur once; the plural forms are those the properties define, the language
    the one they name; the units are well formed for these plural forms. *)
Record possible (lib : lang_lib) (pf : platform) (c : catalogue) (us : list unit_) : Prop := {
  po_notes : forall n, In n (c_notes c) -> comment_text (note_kind (note_origin n)) (note_value n);
  po_comments : forall x, In x (c_comments c) -> ~ In (com_kind x) [44; 58; 46; 32] /\ comment_text (com_kind x) (com_content x);
  po_keys : NoDup (map fst (c_properties c));
  po_properties : forall k v, In (k, v) (c_properties c) -> property_shape k v /\ scalars k /\ scalars v;
  po_language : language_of lib (c_properties c) (c_language c);
  po_units : exists forms, header_forms_of pf (c_properties c) forms /\ Forall (well_formed forms) us }.
