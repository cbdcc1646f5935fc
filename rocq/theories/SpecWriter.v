(** Writing catalogues in PO syntax: which text lines stand for which units. *)
From Coq Require Import String Arith NArith ZArith Bool List.
From Verif Require Import ModelBase ModelLine ModelFormula ModelData ModelSource ModelReader SpecLine SpecFormula SpecSource SpecReader SpecBlock SpecHeader.
Import ListNotations.
Local Open Scope N_scope.

(** ** Strings *)
(** A line with a marker, perhaps a keyword, and one piece of a string. *)
Definition string_line (flags : str) (kw : option str) (piece s : str) : Prop :=
  exists body, quoted_line s flags kw body /\ unescapes body piece.
(** A string in one or more pieces, cut anywhere. *)
Inductive writes_string (flags kw : str) : str -> list str -> Prop :=
| ws_intro p l ps ls : string_line flags (Some kw) p l -> Forall2 (string_line flags None) ps ls ->
    writes_string flags kw (p ++ concat ps) (l :: ls).
Inductive writes_opt (flags kw : str) : option str -> list str -> Prop :=
| wo_none : writes_opt flags kw None []
| wo_some s ls : writes_string flags kw s ls -> writes_opt flags kw (Some s) ls.
(** The forms of a plural entry, numbered from [i]. *)
Inductive writes_forms (flags : str) : N -> list str -> list str -> Prop :=
| wf_nil i : writes_forms flags i [] []
| wf_cons i kw v vs a b : msgstr_kw i kw -> writes_string flags kw v a -> writes_forms flags (i + 1) vs b ->
    writes_forms flags i (v :: vs) (a ++ b).

(** ** Messages *)
(** An empty translation and none are written in the same way. *)
Inductive writes_message (forms : option plural_forms) (obs : bool) : message -> list str -> Prop :=
| wm_simple id t a b : t <> Some [] -> writes_string (own obs) (lit "msgid") id a ->
    writes_string (own obs) (lit "msgstr") (opt_str t) b -> writes_message forms obs (MSimple id t) (a ++ b)
| wm_plural id pl vs a b c : vs <> [] -> N.of_nat (length vs) <= nforms forms ->
    writes_string (own obs) (lit "msgid") id a -> writes_string (own obs) (lit "msgid_plural") pl b ->
    writes_forms (own obs) 0 vs c -> writes_message forms obs (MPlural (Plural forms id pl vs)) (a ++ b ++ c).
Inductive writes_previous (forms : option plural_forms) (obs : bool) : message -> list str -> Prop :=
| wp_none : writes_previous forms obs (MSimple [] None) []
| wp_simple id a : writes_string (prev obs) (lit "msgid") id a -> writes_previous forms obs (MSimple id None) a
| wp_plural id pl a b : writes_string (prev obs) (lit "msgid") id a -> writes_string (prev obs) (lit "msgid_plural") pl b ->
    writes_previous forms obs (MPlural (Plural forms id pl [])) (a ++ b).

(** ** Comments *)
(** [#] kind blanks text; and the line must not be one with a string: see C05. *)
Definition comment_line (k : char) (text s : str) : Prop :=
  exists w, blanks w /\ not_white_first text /\ s = [35; k] ++ w ++ text /\ forall flags kw body, ~ quoted_line s flags kw body.
Definition flag_text (f : str) : Prop := not_white_first f /\ not_white_last f /\ ~ In 44 f.
Definition note_kind (o : origin) : char := match o with Developer => 46 | Translator => 32 end.
Fixpoint joined (sep : str) (ps : list str) : str :=
  match ps with
  | [] => []
  | [p] => p
  | p :: ps' => p ++ sep ++ joined sep ps'
  end.
(** Comment lines in any order; flags and locations may be spread over several lines. *)
Inductive writes_comments : list str -> list note -> list str -> list comment -> list str -> Prop :=
| wc_nil : writes_comments [] [] [] [] []
| wc_flags fs s F N L C ls : fs <> [] -> Forall flag_text fs -> comment_line 44 (joined (lit ", ") fs) s ->
    writes_comments F N L C ls -> writes_comments (fs ++ F) N L C (s :: ls)
| wc_locations ws s F N L C ls : Forall word ws -> comment_line 58 (joined (lit " ") ws) s ->
    writes_comments F N L C ls -> writes_comments F N (ws ++ L) C (s :: ls)
| wc_note o t s F N L C ls : comment_line (note_kind o) t s ->
    writes_comments F N L C ls -> writes_comments F (Note o t :: N) L C (s :: ls)
| wc_other k t s F N L C ls : ~ In k [44; 58; 46; 32] -> comment_line k t s ->
    writes_comments F N L C ls -> writes_comments F N L (Comment k t :: C) (s :: ls).

(** ** Units *)
Inductive writes_unit (forms : option plural_forms) : unit_ -> list str -> Prop :=
| wu_intro F N L C cs obs pc a pm b c d m e st : writes_comments F N L C cs ->
    writes_opt (prev obs) (lit "msgctxt") pc a -> writes_previous forms obs pm b ->
    writes_opt (own obs) (lit "msgctxt") c d -> writes_message forms obs m e -> state_of F m st ->
    writes_unit forms (Unit c m pc pm (distinct F) N L C st obs) (cs ++ a ++ b ++ d ++ e).
(** Units one after the other; blank lines may be anywhere between them. *)
Inductive writes_units (forms : option plural_forms) : list unit_ -> list str -> Prop :=
| wus_nil : writes_units forms [] []
| wus_blank w us ls : blanks w -> writes_units forms us ls -> writes_units forms us (w :: ls)
| wus_unit u us a ls : has_source u -> writes_unit forms u a -> writes_units forms us ls -> writes_units forms (u :: us) (a ++ ls).

(** ** The header *)
Definition property_text (p : str * str) : Prop :=
  let (k, v) := p in
  (~ In 58 k /\ one_line k /\ not_white_first k /\ not_white_last k) /\ one_line v /\ not_white_first v /\ not_white_last v.
(** One line [key: value] for each property, each ended by a line feed. *)
Definition header_text (props : list (str * str)) : str := flat_map (fun p => fst p ++ lit ": " ++ snd p ++ [10]) props.
(** An entry with an empty id, whose text gives the properties; first in the file. *)
Inductive writes_header (notes : list note) (comments : list comment) (props : list (str * str)) : list str -> Prop :=
| wh_intro F L cs a b : writes_comments F notes L comments cs -> Forall property_text props ->
    writes_string [] (lit "msgid") [] a -> writes_string [] (lit "msgstr") (header_text props) b ->
    writes_header notes comments props (cs ++ a ++ b)
| wh_blank w ls : blanks w -> writes_header notes comments props ls -> writes_header notes comments props (w :: ls).
Definition lookup (k : str) (props : list (str * str)) : option str :=
  option_map snd (find (fun p => str_eqb k (fst p)) props).

(** ** Units that can be written *)
Definition comment_text (k : char) (t : str) : Prop :=
  one_line t /\ scalars t /\ exists s, one_line s /\ scalars s /\ comment_line k t s.
Definition message_text (forms : option plural_forms) (m : message) : Prop :=
  match m with
  | MSimple id t => scalars id /\ scalars (opt_str t) /\ t <> Some []
  | MPlural p => pl_forms p = forms /\ scalars (pl_singular p) /\ scalars (pl_plural p) /\ Forall scalars (pl_values p)
      /\ pl_values p <> [] /\ N.of_nat (length (pl_values p)) <= nforms forms
  end.
Definition previous_text (forms : option plural_forms) (m : message) : Prop :=
  match m with
  | MSimple id t => scalars id /\ t = None
  | MPlural p => pl_forms p = forms /\ scalars (pl_singular p) /\ scalars (pl_plural p) /\ pl_values p = []
  end.
Record well_formed (forms : option plural_forms) (u : unit_) : Prop := WellFormed {
  wfu_context : scalars (opt_str (u_context u));
  wfu_prev_context : scalars (opt_str (u_prev_context u));
  wfu_message : message_text forms (u_message u) /\ has_source u;
  wfu_previous : previous_text forms (u_prev_message u);
  wfu_flags : NoDup (u_flags u) /\ forall f, In f (u_flags u) -> flag_text f /\ one_line f /\ scalars f;
  wfu_locations : forall l, In l (u_locations u) -> word l /\ scalars l;
  wfu_notes : forall n, In n (u_notes u) -> comment_text (note_kind (note_origin n)) (note_value n);
  wfu_comments : forall c, In c (u_comments u) -> ~ In (com_kind c) [44; 58; 46; 32] /\ comment_text (com_kind c) (com_content c);
  wfu_state : state_of (u_flags u) (u_message u) (u_state u) }.

(** The definition of plural forms: nplurals=COUNT; plural=EXPRESSION; *)
Definition forms_definition (count src : str) : str := lit "nplurals=" ++ count ++ lit "; plural=" ++ src ++ lit ";".
(** What a catalogue shows besides its units. *)
Definition same_catalogue (c c' : catalogue) : Prop :=
  c_notes c = c_notes c' /\ c_comments c = c_comments c' /\ (forall k, sm_get k (c_properties c) = sm_get k (c_properties c'))
  /\ c_language c = c_language c'.
