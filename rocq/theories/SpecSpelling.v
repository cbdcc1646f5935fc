(** Keywords as GNU gettext reads them (gettext-tools/src/po-lex.c and po-gram-gen.y): the
    brackets and the number after msgstr are tokens of their own, so there may be white space
    around them, and zeros in front of the number. *)
From Coq Require Import String Arith NArith Bool List.
From Verif Require Import ModelBase ModelLine SpecLine SpecBlock SpecGettext SpecLayout.
Import ListNotations.
Local Open Scope N_scope.

Definition ascii_digits (ds : str) : Prop := ds <> [] /\ forall c, In c ds -> 48 <= c <= 57.
Definition index_value (ds : str) : N := fold_left (fun a d => a * 10 + (d - 48)) ds 0.
(** [spelling sp kw]: the text [sp] stands for the keyword [kw] (indices without zeros in front). *)
Inductive spelling : str -> str -> Prop :=
| sp_word kw : In kw [lit "msgctxt"; lit "msgid"; lit "msgid_plural"; lit "msgstr"; lit "domain"] -> spelling kw kw
| sp_form w1 w2 ds w3 kw : gettext_blank w1 -> gettext_blank w2 -> gettext_blank w3 -> ascii_digits ds -> msgstr_kw (index_value ds) kw ->
    spelling (lit "msgstr" ++ w1 ++ lit "[" ++ w2 ++ ds ++ w3 ++ lit "]") kw.
(** A keyword and a string on a line. *)
Definition spelling_line (s sp kw b : str) : Prop :=
  exists w w' w'', s = w ++ sp ++ w' ++ [34] ++ b ++ [34] ++ w'' /\ gettext_blank w /\ gettext_blank w' /\ gettext_blank w'' /\ spelling sp kw /\ closed b.
(** Lines with these keywords, with a string each. *)
Definition standard (kws : list str) (ls : list string) : Prop := Forall2 (fun s kw => exists sp b, spelling_line (lit s) sp kw b) ls kws.
(** The keywords of an entry with two plural forms. *)
Definition two_forms : list str := [lit "msgid"; lit "msgid_plural"; lit "msgstr[0]"; lit "msgstr[1]"].
