(** Markers of obsolete entries and of previous messages in the syntax of GNU gettext
    (gettext-tools/src/po-lex.c and po-gram-gen.y): a marker at the beginning of a line holds for
    the tokens of that line; the tokens of an entry are all obsolete, or none of them is. *)
From Coq Require Import String Arith NArith Bool List.
From Verif Require Import ModelBase ModelLine ModelFormula ModelData ModelSource ModelReader SpecLine SpecBlock SpecGettext SpecLayout.
Import ListNotations.
Local Open Scope N_scope.

(** Obsolete or not, of the previous message or not. *)
Definition mark : Type := bool * bool.
Definition no_mark : mark := (false, false).
Definition mark_text (m : mark) : str :=
  match m with
  | (false, false) => []
  | (true, false) => lit "#~"
  | (false, true) => lit "#|"
  | (true, true) => lit "#~|"
  end.
(** A line, its marker and its tokens. *)
Definition marked_line (s : str) (l : mark * list gtok) : Prop :=
  exists w r, s = w ++ mark_text (fst l) ++ r /\ gettext_blank w /\ line_tokens r (snd l).
Definition with_mark (m : mark) (ts : list gtok) : list (mark * gtok) := map (pair m) ts.
Definition line_marks (l : mark * list gtok) : list (mark * gtok) := with_mark (fst l) (snd l).

(** The previous message: a context needs an id. *)
Inductive gettext_previous (forms : option plural_forms) : list gtok -> option str -> message -> Prop :=
| gp_none : gettext_previous forms [] None (MSimple [] None)
| gp_simple a c b id : gettext_context a c -> gettext_field (lit "msgid") b id -> gettext_previous forms (a ++ b) c (MSimple id None)
| gp_plural a c b id d pl : gettext_context a c -> gettext_field (lit "msgid") b id -> gettext_field (lit "msgid_plural") d pl ->
    gettext_previous forms (a ++ b ++ d) c (MPlural (Plural forms id pl [])).
(** An entry without comments, obsolete or not, and the unit it stands for. *)
Inductive marked_entry (forms : option plural_forms) : list (mark * gtok) -> unit_ -> Prop :=
| me_intro obs p pc pm a c b m st : gettext_previous forms p pc pm -> gettext_context a c -> gettext_body forms b m -> state_of [] m st ->
    marked_entry forms (with_mark (obs, true) p ++ with_mark (obs, false) (a ++ b)) (Unit c m pc pm [] [] [] [] st obs).
(** Lines with a keyword and one string, or one string, or nothing at all (not even a marker). *)
Definition usual_line (l : mark * list gtok) : Prop := usual_tokens (snd l) /\ (snd l = [] -> fst l = no_mark).
