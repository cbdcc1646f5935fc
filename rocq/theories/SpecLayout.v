(** Entries without comments in the syntax of GNU gettext (gettext-tools/src/po-lex.c and
    po-gram-gen.y): keywords and strings, with white space, including line breaks, between
    them as one likes.  A string does not go over the end of a line. *)
From Coq Require Import String Arith NArith Bool List.
From Verif Require Import ModelBase ModelLine ModelFormula ModelData ModelSource ModelReader SpecLine SpecBlock SpecGettext.
Import ListNotations.
Local Open Scope N_scope.

Inductive gtok :=
| GKeyword (kw : str)
| GString (body : str).
(** Blank, tab, carriage return, form feed, vertical tab. *)
Definition gettext_blank (w : str) : Prop := forall c, In c w -> In c [32; 9; 13; 12; 11].
Inductive gettext_keyword : str -> Prop :=
| gk_msgctxt : gettext_keyword (lit "msgctxt")
| gk_msgid : gettext_keyword (lit "msgid")
| gk_msgid_plural : gettext_keyword (lit "msgid_plural")
| gk_msgstr : gettext_keyword (lit "msgstr")
| gk_form i kw : msgstr_kw i kw -> gettext_keyword kw.
(** [line_tokens s ts]: the line [s] consists of the tokens [ts]. *)
Inductive line_tokens : str -> list gtok -> Prop :=
| lt_end w : gettext_blank w -> line_tokens w []
| lt_keyword w kw s ts : gettext_blank w -> gettext_keyword kw -> (forall c r, s = c :: r -> gettext_blank [c] \/ c = 34) ->
    line_tokens s ts -> line_tokens (w ++ kw ++ s) (GKeyword kw :: ts)
| lt_string w b s ts : gettext_blank w -> closed b -> line_tokens s ts -> line_tokens (w ++ [34] ++ b ++ [34] ++ s) (GString b :: ts).

(** A keyword with one or more strings; their values are put together. *)
Inductive gettext_field (kw : str) : list gtok -> str -> Prop :=
| gf_intro b bs t ts : gettext_means b t -> Forall2 gettext_means bs ts ->
    gettext_field kw (GKeyword kw :: GString b :: map GString bs) (t ++ concat ts).
(** msgstr[i], msgstr[i+1], ... *)
Inductive gettext_forms : N -> list gtok -> list str -> Prop :=
| gfs_nil i : gettext_forms i [] []
| gfs_cons i kw a v b vs : msgstr_kw i kw -> gettext_field kw a v -> gettext_forms (i + 1) b vs -> gettext_forms i (a ++ b) (v :: vs).
Inductive gettext_context : list gtok -> option str -> Prop :=
| gc_none : gettext_context [] None
| gc_some a s : gettext_field (lit "msgctxt") a s -> gettext_context a (Some s).
Inductive gettext_body (forms : option plural_forms) : list gtok -> message -> Prop :=
| gb_simple a id b text : gettext_field (lit "msgid") a id -> gettext_field (lit "msgstr") b text ->
    gettext_body forms (a ++ b) (MSimple id (some_text text))
| gb_plural a id b pl c vs : gettext_field (lit "msgid") a id -> gettext_field (lit "msgid_plural") b pl -> gettext_forms 0 c vs ->
    vs <> [] -> N.of_nat (length vs) <= nforms forms -> gettext_body forms (a ++ b ++ c) (MPlural (Plural forms id pl vs)).
(** An entry and the unit it stands for. *)
Inductive gettext_entry (forms : option plural_forms) : list gtok -> unit_ -> Prop :=
| ge_intro a c b m st : gettext_context a c -> gettext_body forms b m -> state_of [] m st ->
    gettext_entry forms (a ++ b) (Unit c m None (MSimple [] None) [] [] [] [] st false).

(** The tokens of a line that has a keyword and one string, or one string, or nothing; with
    common escapes only. *)
Inductive usual_tokens : list gtok -> Prop :=
| ut_nothing : usual_tokens []
| ut_field kw b : common_escapes b -> usual_tokens [GKeyword kw; GString b]
| ut_string b : common_escapes b -> usual_tokens [GString b].
