(** Messages as GNU gettext writes them (message_print_po and message_print_po_obsolete, with wrap
    for the strings, in gettext-tools/src/write-po.c; the escapes are those of UTF-8 files). *)
From Coq Require Import String Arith NArith Bool List.
From Verif Require Import ModelBase ModelLine ModelFormula ModelData ModelSource ModelReader SpecLine SpecBlock SpecHeader SpecWriter SpecFlags SpecExtracted SpecMarks LineThms.
Import ListNotations.
Local Open Scope N_scope.

(** The comments of translators and those extracted from the program, line by line; the locations,
    as they are put on lines; the flags; the previous context and the previous id, perhaps with
    plural; context; id; the translation, or the plural of the id with the translations. *)
Record gmsg := GMsg {
  gm_comments : list str; gm_extracted : list str; gm_places : list (list str); gm_flags : list str;
  gm_prev_context : option str; gm_prev : option (str * option str);
  gm_context : option str; gm_id : str; gm_texts : str + str * list str; gm_obsolete : bool }.

(** ** Strings *)
(** Character and letter after the backslash: the named escapes of C. *)
Definition named_escapes : list (char * char) := [(7, 97); (8, 98); (9, 116); (10, 110); (11, 118); (12, 102); (13, 114); (34, 34); (92, 92)].
Definition output_char (c : char) : str :=
  match find (fun p => fst p =? c) named_escapes with Some p => [92; snd p] | None => [c] end.
Definition output_escape (s : str) : str := flat_map output_char s.
Definition mark_prefix (m : mark) : str := match mark_text m with [] => [] | t => t ++ [32] end.
(** A string in one or more pieces, each on a line of its own. *)
Inductive output_string (m : mark) (kw : str) : str -> list str -> Prop :=
| os_intro p ps : output_string m kw (p ++ concat ps)
    ((mark_prefix m ++ kw ++ [32; 34] ++ output_escape p ++ [34]) :: map (fun q => mark_prefix m ++ [34] ++ output_escape q ++ [34]) ps).
Inductive output_opt (m : mark) (kw : str) : option str -> list str -> Prop :=
| oo_none : output_opt m kw None []
| oo_some s ls : output_string m kw s ls -> output_opt m kw (Some s) ls.
Inductive output_numbered (m : mark) : N -> list str -> list str -> Prop :=
| on_nil i : output_numbered m i [] []
| on_cons i kw v vs a b : msgstr_kw i kw -> output_string m kw v a -> output_numbered m (i + 1) vs b -> output_numbered m i (v :: vs) (a ++ b).
Inductive output_texts (m : mark) : str + str * list str -> list str -> Prop :=
| ot_simple t ls : output_string m (lit "msgstr") t ls -> output_texts m (inl t) ls
| ot_plural p vs a b : output_string m (lit "msgid_plural") p a -> output_numbered m 0 vs b -> output_texts m (inr (p, vs)) (a ++ b).
Inductive output_previous (m : mark) : option (str * option str) -> list str -> Prop :=
| op_none : output_previous m None []
| op_some id p a b : output_string m (lit "msgid") id a -> output_opt m (lit "msgid_plural") p b -> output_previous m (Some (id, p)) (a ++ b).

(** ** Comments *)
(** [#] and, after a space, the text if there is any. *)
Definition output_comment (start text : str) : str := match text with [] => start | _ => start ++ 32 :: text end.
Definition output_places (ps : list str) : str := lit "#:" ++ flat_map (fun p => 32 :: p) ps.
Definition output_flags (fs : list str) : list str := match fs with [] => [] | _ => [lit "#, " ++ joined (lit ", ") fs] end.

(** ** Messages *)
Inductive output_message : gmsg -> list str -> Prop :=
| om_intro C E P F pc pv c id t obs a b d i x :
    output_opt (obs, true) (lit "msgctxt") pc a -> output_previous (obs, true) pv b ->
    output_opt (obs, false) (lit "msgctxt") c d -> output_string (obs, false) (lit "msgid") id i -> output_texts (obs, false) t x ->
    output_message (GMsg C E P F pc pv c id t obs)
      (map (output_comment (lit "#")) C ++ map (output_comment (lit "#.")) E ++ map output_places P ++ output_flags F ++ a ++ b ++ d ++ i ++ x).
(** An empty line in front of each message. *)
Definition output_file (ms : list gmsg) (ls : list str) : Prop :=
  exists bls, Forall2 output_message ms bls /\ ls = concat (map (cons []) bls).

(** ** What is read *)
(** The unit has the content of the message. *)
Definition conveys (forms : option plural_forms) (m : gmsg) (u : unit_) : Prop :=
  u_context u = gm_context m
  /\ u_message u = match gm_texts m with inl t => MSimple (gm_id m) (some_text t) | inr (p, vs) => MPlural (Plural forms (gm_id m) p vs) end
  /\ u_prev_context u = gm_prev_context m
  /\ u_prev_message u = match gm_prev m with None => MSimple [] None | Some (id, None) => MSimple id None | Some (id, Some p) => MPlural (Plural forms id p []) end
  /\ u_flags u = distinct (gm_flags m) /\ u_locations u = concat (gm_places m)
  /\ u_notes u = map (Note Translator) (gm_comments m) ++ map (Note Developer) (gm_extracted m)
  /\ u_comments u = [] /\ u_obsolete u = gm_obsolete m /\ state_of (gm_flags m) (u_message u) (u_state u).
(** No control character but tab, line feed, carriage return among those with a named escape. *)
Definition no_controls (s : str) : Prop := forall c, In c s -> ~ In c [7; 8; 11; 12].
Definition if_any (o : option str) : list str := match o with Some s => [s] | None => [] end.
Definition gm_strings (m : gmsg) : list str :=
  if_any (gm_prev_context m) ++ match gm_prev m with None => [] | Some (id, p) => id :: if_any p end
  ++ if_any (gm_context m) ++ gm_id m :: match gm_texts m with inl t => [t] | inr (p, vs) => p :: vs end.
Definition ordinary (m : gmsg) : Prop := Forall no_controls (gm_strings m) /\ Forall not_white_first (gm_comments m ++ gm_extracted m).
(** Such a character is replaced by its escape, white space at the beginning of comments is lost. *)
Definition spoilt_char (c : char) : str := if existsb (N.eqb c) [7; 8; 11; 12] then output_char c else [c].
Definition spoilt (s : str) : str := flat_map spoilt_char s.
Definition altered (m m' : gmsg) : Prop :=
  exists C' E', Forall2 unindented (gm_comments m) C' /\ Forall2 unindented (gm_extracted m) E'
  /\ m' = GMsg C' E' (gm_places m) (gm_flags m) (option_map spoilt (gm_prev_context m))
            (option_map (fun q => (spoilt (fst q), option_map spoilt (snd q))) (gm_prev m))
            (option_map spoilt (gm_context m)) (spoilt (gm_id m))
            (match gm_texts m with inl t => inl (spoilt t) | inr (p, vs) => inr (spoilt p, map spoilt vs) end) (gm_obsolete m).
(** Messages whose comments are no strings (see C05), whose locations have no white space inside
    (see C87), whose flags are not empty, with an id, and with no more forms than the header defines. *)
Definition readable (forms : option plural_forms) (m : gmsg) : Prop :=
  Forall (fun t => ~ string_text t) (gm_comments m) /\ Forall (Forall word) (gm_places m) /\ Forall (fun f => flag_text f /\ f <> []) (gm_flags m)
  /\ gm_id m <> [] /\ match gm_texts m with inl _ => True | inr (_, vs) => vs <> [] /\ N.of_nat (length vs) <= nforms forms end.
