(** The content of an entry: what is left of its lines if one does not look at the layout. *)
From Coq Require Import String Arith NArith Bool List.
From Verif Require Import ModelBase ModelLine ModelFormula ModelData ModelReader SpecLine SpecReader SpecBlock SpecHeader SpecFile SpecAny.
Import ListNotations.
Local Open Scope N_scope.

(** ** Strings *)
(** The text of the continuation lines with the marker [p] that come first. *)
Fixpoint continued_text (p : str) (b : list po_line) : str :=
  match b with
  | PCont _ q s :: b' => if str_eqb p q then s ++ continued_text p b' else []
  | _ => []
  end.
(** The fields of an entry: marker, keyword, text. *)
Fixpoint entry_fields (b : list po_line) : list (str * str * str) :=
  match b with
  | [] => []
  | PMessage _ p t s :: b' => (p, t, s ++ continued_text p b') :: entry_fields b'
  | _ :: b' => entry_fields b'
  end.
(** The numbers of plural forms are not looked at (only their order counts, C39), and a previous
    msgid with the empty string is the same as none. *)
Definition numberless (t : str) : str := if str_eqb (firstn 7 t) (lit "msgstr[") then lit "msgstr[" else t.
Definition telling (f : str * str * str) : bool :=
  let '(_, t, s) := f in negb (str_eqb t (lit "|msgid") && is_empty s).
Definition entry_strings (b : list po_line) : list (str * str * str) :=
  map (fun f => let '(p, t, s) := f in (p, numberless t, s)) (filter telling (entry_fields b)).

(** ** Comments *)
(** Kind and text of the comments whose kind is one of those chosen. *)
Definition texts_of (chosen : N -> bool) (b : list po_line) : list (N * str) :=
  flat_map (fun l => match l with PComment _ k s => if chosen k then [(k, s)] else [] | _ => [] end) b.
Definition note_kind (k : N) : bool := N.eqb k 46 || N.eqb k 32.
Definition other_kind (k : N) : bool := negb (N.eqb k 44 || N.eqb k 58 || note_kind k).
Definition all_words (b : list po_line) (ws : list str) : Prop :=
  exists wss, Forall2 words (map snd (texts_of (N.eqb 58) b)) wss /\ ws = concat wss.
Definition all_flags (b : list po_line) (fs : list str) : Prop :=
  exists fss, Forall2 flag_list (map snd (texts_of (N.eqb 44) b)) fss /\ fs = concat fss.

(** The same strings; the same notes and the same other comments in the same order; the same
    locations; the same flags (in any order, apart from repetitions). *)
Definition same_content (b b' : list po_line) : Prop :=
  entry_strings b = entry_strings b'
  /\ texts_of note_kind b = texts_of note_kind b' /\ texts_of other_kind b = texts_of other_kind b'
  /\ (exists ws, all_words b ws /\ all_words b' ws)
  /\ (exists fs fs', all_flags b fs /\ all_flags b' fs' /\ forall f, In f fs <-> In f fs').
(** The same unit for its users: the flags are a set (src/unit.rs:55). *)
Definition equal_units (u u' : unit_) : Prop :=
  u_context u = u_context u' /\ u_message u = u_message u' /\ u_prev_context u = u_prev_context u' /\ u_prev_message u = u_prev_message u'
  /\ (forall f, In f (u_flags u) <-> In f (u_flags u')) /\ u_notes u = u_notes u' /\ u_locations u = u_locations u' /\ u_comments u = u_comments u'
  /\ u_state u = u_state u' /\ u_obsolete u = u_obsolete u'.
(** The lines [pl] are those of a header, if there is one, with the plural forms [forms]; then
    the entries [bls] of the units, in order; then others. *)
Definition stream_blocks (lib : lang_lib) (pf : platform) (pl : list po_line) (c : catalogue) (forms : option plural_forms) (bls : list (list po_line)) : Prop :=
  exists h rest, pl = h ++ concat bls ++ rest
  /\ (h = [] /\ forms = None /\ no_header lib c
      \/ exists u ps, (entry None h u \/ headless None h u) /\ header u ps /\ header_forms_of pf ps forms /\ header_shown lib u ps c)
  /\ Forall2 (unit_entry forms) bls (units (c_items c)).
