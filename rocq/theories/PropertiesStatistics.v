(** C115: numbers of units, compared with msgfmt --statistics. *)
From Coq Require Import String Arith NArith ZArith Bool List.
From Verif Require Import ModelBase ModelUtf8 ModelLine ModelFormula ModelData ModelSource ModelReader
  SpecLine SpecFormula SpecSource SpecReader SpecBlock SpecHeader SpecFile SpecAny SpecFlags SpecCompiled SpecContent SpecStatistics FileIntro FlagFacts PieceFacts StatisticsFacts.
Import ListNotations.

(** C115 *)
(** False of the code that the numbers of units that are not obsolete, by their state, are those that
    msgfmt reports.  Exactly, if flags are separated by commas: the units without first text
    ([hf] among the translated ones, [hw] among the fuzzy ones) count as untranslated in gettext;
    so the numbers are the same exactly if there are no such units. *)
Theorem C115_statistics_partial : forall lib pf evs bs fin rs c, pieces evs bs fin -> answers 1 bs fin rs -> read_catalogue lib pf evs = Ok c ->
  exists forms bls, stream_blocks lib pf (kept rs) c forms bls
    /\ (Forall2 comma_flags bls (units (c_items c)) -> forall tf hf tw hw te he,
        tally StFinal (units (c_items c)) tf hf -> tally StNeedsWork (units (c_items c)) tw hw -> tally StEmpty (units (c_items c)) te he ->
        (forall t f n, msgfmt_report bls (units (c_items c)) t f n <-> t + hf = tf /\ f + hw = tw /\ n = te + hf + hw)
        /\ (msgfmt_report bls (units (c_items c)) tf tw te <-> hf = 0 /\ hw = 0)).
Proof. exact statistics_any. Qed.
Print Assumptions C115_statistics_partial.
(** There are these numbers, for every list of units, *)
Theorem C115_tally : forall st us, exists k h, tally st us k h /\ forall k' h', tally st us k' h' -> k' = k /\ h' = h.
Proof. exact tally_single. Qed.
Print Assumptions C115_tally.
(** and their sum is the number of units that are not obsolete. *)
Theorem C115_sum : forall us tf hf tw hw te he, tally StFinal us tf hf -> tally StNeedsWork us tw hw -> tally StEmpty us te he ->
  tf + tw + te = length (filter (fun u => negb (u_obsolete u)) us).
Proof. exact tallies_sum. Qed.
Print Assumptions C115_sum.
(** A fuzzy unit without text: untranslated in gettext, fuzzy here. *)
Theorem C115_fuzzy_refuted : exists ls b u, file (str_stream ls) ls None b None /\ entry None b u /\ comma_flags b u
  /\ (forall lib pf, exists c, read_catalogue lib pf (str_stream ls) = Ok c /\ c_items c = [UOk u])
  /\ tally StNeedsWork [u] 1 1 /\ msgfmt_report [b] [u] 0 0 1 /\ ~ msgfmt_report [b] [u] 0 1 0.
Proof. exact fuzzy_statistics_refuted. Qed.
Print Assumptions C115_fuzzy_refuted.
(** A unit whose first form is empty: untranslated in gettext, translated here. *)
Theorem C115_first_refuted : exists ls b u, file (str_stream ls) ls None b None /\ comma_flags b u
  /\ (forall lib pf, exists c, read_catalogue lib pf (str_stream ls) = Ok c /\ c_items c = [UOk u])
  /\ tally StFinal [u] 1 1 /\ msgfmt_report [b] [u] 0 0 1 /\ ~ msgfmt_report [b] [u] 1 0 0.
Proof. exact first_statistics_refuted. Qed.
Print Assumptions C115_first_refuted.
(** Flags separated by a space: fuzzy in gettext, translated here. *)
Theorem C115_space_refuted : exists ls b u, file (str_stream ls) ls None b None /\ entry None b u
  /\ (forall lib pf, exists c, read_catalogue lib pf (str_stream ls) = Ok c /\ c_items c = [UOk u])
  /\ tally StFinal [u] 1 0 /\ msgfmt_report [b] [u] 0 1 0 /\ ~ msgfmt_report [b] [u] 1 0 0.
Proof. exact space_statistics_refuted. Qed.
Print Assumptions C115_space_refuted.
(** Four units, one of them obsolete: one translated, one fuzzy, one untranslated. *)
Example C115_example : exists a b d e,
  (exists c, read_catalogue demo_lib demo_pf (lf_stream ["msgid ""a"""; "msgstr ""x"""; "#, fuzzy"; "msgid ""b"""; "msgstr ""y"""; "msgid ""d"""; "msgstr """""; "#~ msgid ""e"""; "#~ msgstr ""z"""]%string) = Ok c
     /\ c_items c = map UOk [a; b; d; e])
  /\ tally StFinal [a; b; d; e] 1 0 /\ tally StNeedsWork [a; b; d; e] 1 0 /\ tally StEmpty [a; b; d; e] 1 1.
Proof.
  do 4 eexists. split; [eexists; split; vm_compute; reflexivity|]. split; [|split].
  - apply ta_text; [reflexivity|reflexivity|do 2 eexists; split; [reflexivity|discriminate]|].
    apply ta_other; [right; discriminate|]. apply ta_other; [right; discriminate|]. apply ta_other; [left; reflexivity|constructor].
  - apply ta_other; [right; discriminate|]. apply ta_text; [reflexivity|reflexivity|do 2 eexists; split; [reflexivity|discriminate]|].
    apply ta_other; [right; discriminate|]. apply ta_other; [left; reflexivity|constructor].
  - apply ta_other; [right; discriminate|]. apply ta_other; [right; discriminate|].
    apply ta_hollow; [reflexivity|reflexivity|intros (t & ts & E & _); discriminate E|]. apply ta_other; [left; reflexivity|constructor].
Qed.
