(** Line breaks in entries, compared with GNU gettext (C84). *)
From Coq Require Import String Arith NArith ZArith Bool List Lia.
From Verif Require Import ModelBase ModelUtf8 ModelLine ModelFormula ModelData ModelSource ModelReader
  SpecLine SpecFormula SpecSource SpecReader SpecBlock SpecHeader SpecFile SpecGettext SpecLayout FileIntro BlockWitness IndepFacts LayoutFacts LayoutMore.
Import ListNotations.
Local Open Scope N_scope.

(** C84: false of the code that entries can be broken into lines as one likes.  True if each
    line has a keyword and one string, or one string, or nothing, and the escapes are common ones. *)
Theorem C84_layout_partial : forall lib pf hls v ps forms ls tss es us bs evs, heading_text pf hls v ps forms ->
  Forall2 line_tokens ls tss -> Forall2 (gettext_entry forms) es us -> concat tss = concat es -> Forall has_source us -> Forall usual_tokens tss ->
  contents bs None (hls ++ ls) None -> delivers evs bs None ->
  exists c, read_catalogue lib pf evs = Ok c /\ header_shown lib v ps c /\ c_items c = map UOk us.
Proof. exact layout_read. Qed.
Print Assumptions C84_layout_partial.
(** ... and only then. *)
Theorem C84_exact_partial : forall lib pf hls v ps forms ls tss es us bs evs, heading_text pf hls v ps forms ->
  Forall2 line_tokens ls tss -> Forall2 (gettext_entry forms) es us -> concat tss = concat es -> Forall has_source us ->
  contents bs None (hls ++ ls) None -> delivers evs bs None ->
  ((exists c, read_catalogue lib pf evs = Ok c /\ c_items c = map UOk us) <-> Forall usual_tokens tss).
Proof. exact layout_exact. Qed.
Print Assumptions C84_exact_partial.
(** A line that ends with a keyword is refused. *)
Theorem C84_keyword_last : forall s ts kw n, one_line s -> line_tokens s (ts ++ [GKeyword kw]) -> parse_line s n = None.
Proof. exact keyword_last. Qed.
Print Assumptions C84_keyword_last.
(** What follows the first string of a line becomes part of its text, with the quotes. *)
Theorem C84_field_and_more : forall s kw b ts b' n, one_line s -> line_tokens s (GKeyword kw :: GString b :: ts ++ [GString b']) ->
  exists rest, parse_line s n = Some (PMessage n [] kw (unescape b ++ 34 :: rest)).
Proof. exact field_and_more. Qed.
Print Assumptions C84_field_and_more.
(** An entry with a line break after its first keyword makes the file fail. *)
Theorem C84_broken_refuted : exists ls tss es u, Forall2 line_tokens (map lit ls) tss /\ Forall2 (gettext_entry None) es [u] /\ concat tss = concat es /\ has_source u
  /\ forall lib pf, read_catalogue lib pf (lf_stream ls) = Err (EParse 2 (lit "msgid") []).
Proof. exact broken_refuted. Qed.
Print Assumptions C84_broken_refuted.
(** An entry on a single line is lost without an error. *)
Theorem C84_long_refuted : exists ls tss es u, Forall2 line_tokens (map lit ls) tss /\ Forall2 (gettext_entry None) es [u] /\ concat tss = concat es /\ has_source u
  /\ forall lib pf, exists c, read_catalogue lib pf (lf_stream ls) = Ok c /\ c_items c = [].
Proof. exact long_refuted. Qed.
Print Assumptions C84_long_refuted.
Example C84_example : Forall2 line_tokens (map lit usual_lines) [[GKeyword (lit "msgid"); GString (lit "a")]; [GKeyword (lit "msgstr"); GString (lit "b")]]
  /\ gettext_entry None [GKeyword (lit "msgid"); GString (lit "a"); GKeyword (lit "msgstr"); GString (lit "b")] (simple_unit (lit "a") (lit "b"))
  /\ match read_catalogue demo_lib demo_pf (lf_stream ("msgid """"" :: "msgstr """"" :: usual_lines)%string) with Ok c => c_items c | _ => [] end = [UOk (simple_unit (lit "a") (lit "b"))]
  /\ parse_line (lit "msgid ""a"" msgstr ""b""") 1 = Some (PMessage 1 [] (lit "msgid") (lit "a"" msgstr ""b")) /\ parse_line (lit "msgid") 1 = None.
Proof. split; [exact usual_lines_tokens|]. split; [exact demo_entry|]. repeat split; vm_compute; reflexivity. Qed.
