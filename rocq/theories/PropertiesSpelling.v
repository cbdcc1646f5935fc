(** Keywords, compared with GNU gettext (C97). *)
From Coq Require Import String Arith NArith ZArith Bool List Lia.
From Verif Require Import ModelBase ModelUtf8 ModelLine ModelFormula ModelData ModelSource ModelReader
  SpecLine SpecFormula SpecSource SpecReader SpecBlock SpecHeader SpecFile SpecGettext SpecLayout SpecSpelling FileIntro BlockWitness SpellingFacts.
Import ListNotations.
Local Open Scope N_scope.

(** C97: false of the code that keywords can be written as in gettext.  A line with a keyword
    and a string is read if the keyword is not domain and has its standard spelling; else it is
    refused. *)
Theorem C97_spelling_partial : forall s sp kw b n, one_line s -> spelling_line s sp kw b ->
  (sp = kw /\ kw <> lit "domain" /\ parse_line s n = Some (PMessage n [] kw (unescape b)))
  \/ (~ (sp = kw /\ kw <> lit "domain") /\ parse_line s n = None).
Proof. exact spelling_read. Qed.
Print Assumptions C97_spelling_partial.
(** Entries that gettext reads and that make the file fail: zeros in front of an index, *)
Theorem C97_zeros_refuted : exists ls, standard two_forms ls /\ forall lib pf, read_catalogue lib pf (lf_stream ls) = Err (EParse 4 (lit "msgstr[00] ""x""") []).
Proof. exact zeros_refuted. Qed.
Print Assumptions C97_zeros_refuted.
(** spaces around the index, *)
Theorem C97_spaced_refuted : exists ls, standard two_forms ls /\ forall lib pf, read_catalogue lib pf (lf_stream ls) = Err (EParse 4 (lit "msgstr [0] ""x""") []).
Proof. exact spaced_refuted. Qed.
Print Assumptions C97_spaced_refuted.
(** and the name of a domain. *)
Theorem C97_domain_refuted : exists ls, standard [lit "domain"; lit "msgid"; lit "msgstr"] ls /\ forall lib pf, read_catalogue lib pf (lf_stream ls) = Err (EParse 2 (lit "domain ""d""") []).
Proof. exact domain_refuted. Qed.
Print Assumptions C97_domain_refuted.
Example C97_example : map (fun s => parse_line (lit s) 1) ["msgstr[1] ""x"""; "msgstr[01] ""x"""; "msgstr [1] ""x"""; "msgstr[1 ] ""x"""; "domain ""x"""]%string
  = [Some (PMessage 1 [] (lit "msgstr[1]") (lit "x")); None; None; None; None].
Proof. vm_compute. reflexivity. Qed.
