(** Which entry is taken for the header. *)
From Coq Require Import String Arith NArith ZArith Bool List Lia.
From Verif Require Import ModelBase ModelUtf8 ModelLine ModelFormula ModelData ModelSource ModelReader
  SpecLine SpecFormula SpecSource SpecReader SpecBlock SpecHeader SpecFile SpecHead BaseFacts LineFacts BlockFacts SoundFacts BlocksFacts FileFacts BlockThms EntryThms HeaderThms FileIntro BlockWitness.
Import ListNotations.
Local Open Scope N_scope.

Theorem first_is_header lib pf evs ls e pl tl b r u c : file evs ls e pl tl -> pl = b ++ r -> entry None b u -> ends_at None b r tl -> read_catalogue lib pf evs = Ok c ->
  ((exists t, u_message u = MSimple [] t) -> exists ps, header u ps /\ header_shown lib u ps c)
  /\ ((forall t, u_message u <> MSimple [] t) -> no_header lib c /\ exists items, c_items c = UOk u :: items).
Proof.
  intros Fi E En Ea R. split.
  - intros (t & Em). destruct (header_exists u) as (ps & H); [intros S; exact (S t Em)|]. exists ps. split; [exact H|].
    apply (read_header_ok lib pf evs ls e pl tl b u ps r c Fi E (fe_entry _ _ _ _ En Ea) H R).
  - intros S. destruct (first_unit lib pf evs ls e pl tl b r u Fi E (conj En S) Ea) as (c' & items & R' & N & Ei). rewrite R in R'. injection R' as <-. eauto.
Qed.

(** * Witnesses *)
Definition context_lines : list string := ["msgctxt ""x"""; "msgid """""; "msgstr ""K: v\n"""]%string.
Definition context_parsed : list po_line := [PMessage 1 [] (lit "msgctxt") (lit "x"); PMessage 2 [] (lit "msgid") []; PMessage 3 [] (lit "msgstr") (lit "K: v" ++ [10])].
Definition context_unit : unit_ := Unit (Some (lit "x")) (MSimple [] (Some (lit "K: v" ++ [10]))) None (MSimple [] None) [] [] [] [] StFinal false.
Lemma context_file : file (lf_stream context_lines) (map lit context_lines) None context_parsed None.
Proof. apply lf_file; [discriminate|reflexivity|vm_compute; reflexivity]. Qed.
Lemma context_entry : entry None context_parsed context_unit.
Proof.
  apply (en_intro None [] [] [] [] [] false context_parsed None (MSimple [] None) (Some (lit "x")) (MSimple [] (Some (lit "K: v" ++ [10])))).
  - constructor.
  - apply (kws_intro None false [] None [] (MSimple [] None) [PMessage 1 [] (lit "msgctxt") (lit "x")] (Some (lit "x"))); [apply of_none|apply pv_none|apply of_some; apply (own_line false)|].
    apply (bd_simple None false [_] [] [_] (lit "K: v" ++ [10])); apply own_line.
  - apply (so_final [] _ (lit "K: v" ++ [10])); [intros []|left; reflexivity|discriminate].
Qed.
(** Taken for the header by the code, not by gettext. *)
Theorem context_refuted : exists ls pl u, file (lf_stream ls) (map lit ls) None pl None /\ entry None pl u /\ ~ gettext_header u
  /\ forall lib pf, exists c, read_catalogue lib pf (lf_stream ls) = Ok c /\ c_items c = [] /\ sm_get (lit "K") (c_properties c) = Some (lit "v").
Proof.
  exists context_lines, context_parsed, context_unit. split; [exact context_file|]. split; [exact context_entry|]. split; [intros (E & _); discriminate|].
  intros lib pf. eexists. split; [vm_compute; reflexivity|]. split; vm_compute; reflexivity.
Qed.
Definition obsolete_lines : list string := ["#~ msgid """""; "#~ msgstr ""K: v\n"""]%string.
Definition obsolete_parsed : list po_line := [PMessage 1 (lit "~") (lit "msgid") []; PMessage 2 (lit "~") (lit "msgstr") (lit "K: v" ++ [10])].
Definition obsolete_unit : unit_ := Unit None (MSimple [] (Some (lit "K: v" ++ [10]))) None (MSimple [] None) [] [] [] [] StFinal true.
Lemma obsolete_file : file (lf_stream obsolete_lines) (map lit obsolete_lines) None obsolete_parsed None.
Proof. apply lf_file; [discriminate|reflexivity|vm_compute; reflexivity]. Qed.
Lemma obsolete_entry : entry None obsolete_parsed obsolete_unit.
Proof.
  apply (en_intro None [] [] [] [] [] true obsolete_parsed None (MSimple [] None) None (MSimple [] (Some (lit "K: v" ++ [10])))).
  - constructor.
  - apply (kws_intro None true [] None [] (MSimple [] None) [] None); [constructor|constructor|constructor|].
    apply (bd_simple None true [_] [] [_] (lit "K: v" ++ [10])); apply (own_line true).
  - apply (so_final [] _ (lit "K: v" ++ [10])); [intros []|left; reflexivity|discriminate].
Qed.
Theorem obsolete_refuted : exists ls pl u, file (lf_stream ls) (map lit ls) None pl None /\ entry None pl u /\ ~ gettext_header u /\ u_context u = None
  /\ forall lib pf, exists c, read_catalogue lib pf (lf_stream ls) = Ok c /\ c_items c = [] /\ sm_get (lit "K") (c_properties c) = Some (lit "v").
Proof.
  exists obsolete_lines, obsolete_parsed, obsolete_unit. split; [exact obsolete_file|]. split; [exact obsolete_entry|]. split; [intros (_ & E & _); discriminate|]. split; [reflexivity|].
  intros lib pf. eexists. split; [vm_compute; reflexivity|]. split; vm_compute; reflexivity.
Qed.
(** Taken for the header by gettext, not by the code. *)
Definition plural_lines : list string := ["msgid """""; "msgid_plural """""; "msgstr[0] ""K: v\n"""]%string.
Definition plural_parsed : list po_line := [PMessage 1 [] (lit "msgid") []; PMessage 2 [] (lit "msgid_plural") []; PMessage 3 [] (lit "msgstr[0]") (lit "K: v" ++ [10])].
Definition plural_unit : unit_ := Unit None (MPlural (Plural None [] [] [lit "K: v" ++ [10]])) None (MSimple [] None) [] [] [] [] StFinal false.
Lemma plural_file : file (lf_stream plural_lines) (map lit plural_lines) None plural_parsed None.
Proof. apply lf_file; [discriminate|reflexivity|vm_compute; reflexivity]. Qed.
Lemma plural_entry : entry None plural_parsed plural_unit.
Proof.
  apply (en_intro None [] [] [] [] [] false plural_parsed None (MSimple [] None) None (MPlural (Plural None [] [] [lit "K: v" ++ [10]]))).
  - constructor.
  - apply (kws_intro None false [] None [] (MSimple [] None) [] None); [constructor|constructor|constructor|].
    apply (bd_plural None false [_] [] [_] [] [PMessage 3 [] (lit "msgstr[0]") (lit "K: v" ++ [10])] [lit "K: v" ++ [10]]); [apply own_line|apply own_line| |discriminate].
    apply (vs_cons (own false) 2 0 0 (lit "msgstr[0]") [PMessage 3 [] (lit "msgstr[0]") (lit "K: v" ++ [10])] (lit "K: v" ++ [10]) [] []); [lia|lia| |apply own_line|constructor].
    exists (lit "0"). split; [|reflexivity]. apply (dc_digit 0). lia.
  - apply (so_final [] _ (lit "K: v" ++ [10])); [intros []|left; reflexivity|discriminate].
Qed.
Theorem plural_refuted : exists ls pl u, file (lf_stream ls) (map lit ls) None pl None /\ entry None pl u /\ gettext_header u
  /\ forall lib pf, exists c, read_catalogue lib pf (lf_stream ls) = Ok c /\ c_items c = [UOk u] /\ sm_get (lit "K") (c_properties c) = None.
Proof.
  exists plural_lines, plural_parsed, plural_unit. split; [exact plural_file|]. split; [exact plural_entry|]. split; [repeat split|].
  intros lib pf. eexists. split; [vm_compute; reflexivity|]. split; vm_compute; reflexivity.
Qed.
(** Refused by the code although gettext has it as a message. *)
Definition later_lines : list string := ["msgid ""a"""; "msgstr ""b"""; "msgctxt ""x"""; "msgid """""; "msgstr ""t"""; "msgid ""c"""; "msgstr ""d"""]%string.
Definition later_parsed : list po_line := [PMessage 3 [] (lit "msgctxt") (lit "x"); PMessage 4 [] (lit "msgid") []; PMessage 5 [] (lit "msgstr") (lit "t")].
Definition later_unit : unit_ := Unit (Some (lit "x")) (MSimple [] (Some (lit "t"))) None (MSimple [] None) [] [] [] [] StFinal false.
Lemma later_file : file (lf_stream later_lines) (map lit later_lines) None
  (simple_block 1 2 (lit "a") (lit "b") ++ later_parsed ++ simple_block 6 7 (lit "c") (lit "d")) None.
Proof. apply lf_file; [discriminate|reflexivity|vm_compute; reflexivity]. Qed.
Lemma later_entry : entry None later_parsed later_unit.
Proof.
  apply (en_intro None [] [] [] [] [] false later_parsed None (MSimple [] None) (Some (lit "x")) (MSimple [] (Some (lit "t")))).
  - constructor.
  - apply (kws_intro None false [] None [] (MSimple [] None) [PMessage 3 [] (lit "msgctxt") (lit "x")] (Some (lit "x"))); [apply of_none|apply pv_none|apply of_some; apply (own_line false)|].
    apply (bd_simple None false [_] [] [_] (lit "t")); apply own_line.
  - apply (so_final [] _ (lit "t")); [intros []|left; reflexivity|discriminate].
Qed.
Theorem later_refuted : exists ls a b c u v w, file (lf_stream ls) (map lit ls) None (a ++ b ++ c) None /\ entry None a u /\ entry None b v /\ entry None c w
  /\ ~ gettext_header u /\ ~ gettext_header v /\ ~ gettext_header w
  /\ forall lib pf, exists c, read_catalogue lib pf (lf_stream ls) = Ok c /\ c_items c = [UOk u; UErr (EUnexpected 3 (lit "Source should not be empty"))].
Proof.
  exists later_lines, (simple_block 1 2 (lit "a") (lit "b")), later_parsed, (simple_block 6 7 (lit "c") (lit "d")).
  exists (simple_unit (lit "a") (lit "b")), later_unit, (simple_unit (lit "c") (lit "d")).
  split; [exact later_file|]. split; [apply simple_entry|]. split; [exact later_entry|]. split; [apply simple_entry|].
  split; [intros (_ & _ & E); discriminate|]. split; [intros (E & _); discriminate|]. split; [intros (_ & _ & E); discriminate|].
  intros lib pf. eexists. split; vm_compute; reflexivity.
Qed.
