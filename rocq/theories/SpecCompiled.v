(** What msgfmt of GNU gettext puts into the compiled catalogue (gettext-tools/src/msgfmt.c,
    [msgfmt_frob_new_message] and [msgdomain_write_mo]: no obsolete, fuzzy or untranslated messages;
    a message is untranslated if its first text is empty). *)
From Coq Require Import String NArith List.
From Verif Require Import ModelBase ModelLine ModelData SpecLine SpecBlock SpecFlags.
Import ListNotations.

(** The first text (of msgstr or msgstr[0]) is there and not empty. *)
Definition first_text (u : unit_) : Prop := exists t ts, translations (u_message u) = t :: ts /\ t <> [].
(** The unit [u] with the comment lines [cs] is compiled. *)
Definition compiled (cs : list po_line) (u : unit_) : Prop :=
  u_obsolete u = false /\ ~ gettext_flag cs (lit "fuzzy") /\ first_text u.
