(** The numbers of messages that msgfmt of GNU gettext reports with the option --statistics
    (gettext-tools/src/msgfmt.c, [msgfmt_frob_new_message]: obsolete messages are not counted; a
    message is untranslated if its first text is empty, else fuzzy if it has that flag, else
    translated). *)
From Coq Require Import String NArith List Bool.
From Verif Require Import ModelBase ModelLine ModelData SpecLine SpecBlock SpecFlags SpecCompiled.
Import ListNotations.

(** The entries [bls] of the units [us]: numbers of translated, fuzzy and untranslated messages. *)
Inductive msgfmt_report : list (list po_line) -> list unit_ -> nat -> nat -> nat -> Prop :=
| mr_nil : msgfmt_report [] [] 0 0 0
| mr_obsolete b u bls us t f n : u_obsolete u = true -> msgfmt_report bls us t f n -> msgfmt_report (b :: bls) (u :: us) t f n
| mr_untranslated b u bls us t f n : u_obsolete u = false -> ~ first_text u -> msgfmt_report bls us t f n -> msgfmt_report (b :: bls) (u :: us) t f (S n)
| mr_fuzzy b u bls us t f n : u_obsolete u = false -> first_text u -> gettext_flag b (lit "fuzzy") -> msgfmt_report bls us t f n -> msgfmt_report (b :: bls) (u :: us) t (S f) n
| mr_translated b u bls us t f n : u_obsolete u = false -> first_text u -> ~ gettext_flag b (lit "fuzzy") -> msgfmt_report bls us t f n -> msgfmt_report (b :: bls) (u :: us) (S t) f n.

(** The numbers of units with a certain state, without the obsolete ones; and how many of these
    have no first text. *)
Inductive tally (st : state) : list unit_ -> nat -> nat -> Prop :=
| ta_nil : tally st [] 0 0
| ta_other u us k h : u_obsolete u = true \/ u_state u <> st -> tally st us k h -> tally st (u :: us) k h
| ta_text u us k h : u_obsolete u = false -> u_state u = st -> first_text u -> tally st us k h -> tally st (u :: us) (S k) h
| ta_hollow u us k h : u_obsolete u = false -> u_state u = st -> ~ first_text u -> tally st us k h -> tally st (u :: us) (S k) (S h).

(** Flags are separated by commas, and white space is that of C. *)
Definition comma_flags (b : list po_line) (u : unit_) : Prop :=
  comments_white c_white 44%N b /\ forall f x, In f (u_flags u) -> In x f -> ~ white x.
