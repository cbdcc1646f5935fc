(** Independence of entries, equality of formulas, kinds of errors, numbers of units (C53-C56, C62). *)
From Coq Require Import String Arith NArith ZArith Bool List Lia Permutation.
From Verif Require Import ModelBase ModelUtf8 ModelLine ModelFormula ModelData ModelSource ModelReader
  SpecLine SpecFormula SpecSource SpecReader SpecBlock SpecHeader SpecFile SpecAny FileIntro BlockWitness
  SpecSize PanicFacts FirstFacts ErrorFacts IndepFacts SizeFacts AnyErrors.
Import ListNotations.
Local Open Scope N_scope.

(** C53 *)
(** A header and entries one after the other: the units are those of the entries, each
    determined by its own lines and the plural forms, wherever it stands. *)
Theorem C53_entries_independent : forall lib pf hls v ps forms blks us bs evs, heading_text pf hls v ps forms -> Forall2 (entry_text forms) blks us ->
  contents bs None (hls ++ concat blks) None -> delivers evs bs None ->
  exists c, read_catalogue lib pf evs = Ok c /\ header_shown lib v ps c /\ c_items c = map UOk us.
Proof. exact entries_independent. Qed.
Print Assumptions C53_entries_independent.
Theorem C53_entries_independent_without_header : forall lib pf blk u blks us bs evs, entry_text None blk u -> Forall2 (entry_text None) blks us ->
  contents bs None (blk ++ concat blks) None -> delivers evs bs None ->
  read_catalogue lib pf evs = Ok (Catalogue [] [] [] (lang_invariant lib) (map UOk (u :: us))).
Proof. exact entries_independent_plain. Qed.
Print Assumptions C53_entries_independent_without_header.
Theorem C53_lines_determine_unit : forall forms ls u u', entry_text forms ls u -> entry_text forms ls u' -> u = u'.
Proof. exact entry_text_unique. Qed.
Print Assumptions C53_lines_determine_unit.
Theorem C53_order_of_entries : forall lib pf hls v ps forms blks blks' us bs bs' evs evs', heading_text pf hls v ps forms -> Forall2 (entry_text forms) blks us ->
  Permutation blks blks' -> contents bs None (hls ++ concat blks) None -> delivers evs bs None ->
  contents bs' None (hls ++ concat blks') None -> delivers evs' bs' None ->
  exists c c', read_catalogue lib pf evs = Ok c /\ read_catalogue lib pf evs' = Ok c' /\ Permutation (c_items c) (c_items c').
Proof. exact entries_permuted. Qed.
Print Assumptions C53_order_of_entries.
Theorem C53_header_matters_by_its_forms : forall lib pf hls hls' v v' ps ps' forms blks us bs bs' evs evs',
  heading_text pf hls v ps forms -> heading_text pf hls' v' ps' forms -> Forall2 (entry_text forms) blks us ->
  contents bs None (hls ++ concat blks) None -> delivers evs bs None ->
  contents bs' None (hls' ++ concat blks) None -> delivers evs' bs' None ->
  exists c c', read_catalogue lib pf evs = Ok c /\ read_catalogue lib pf evs' = Ok c' /\ c_items c = c_items c'.
Proof. exact header_matters_by_forms. Qed.
Print Assumptions C53_header_matters_by_its_forms.
Example C53_example : heading_text demo_pf [lit "msgid """""; lit "msgstr """""] (simple_unit [] []) [] None
  /\ entry_text None [lit "msgid ""a"""; lit "msgstr ""b"""; []] (simple_unit (lit "a") (lit "b"))
  /\ entry_text None [lit "msgid ""c"""; lit "msgstr """""] (simple_unit (lit "c") [])
  /\ option_map c_items (match read_catalogue demo_lib demo_pf (lf_stream ["msgid """""; "msgstr """""; "msgid ""c"""; "msgstr """""; "msgid ""a"""; "msgstr ""b"""; ""]%string) with Ok c => Some c | _ => None end)
     = Some [UOk (simple_unit (lit "c") []); UOk (simple_unit (lit "a") (lit "b"))].
Proof.
  split; [apply empty_heading|]. split; [apply simple_text; [reflexivity|vm_compute; reflexivity|vm_compute; reflexivity|discriminate]|].
  split; [apply simple_text; [reflexivity|vm_compute; reflexivity|vm_compute; reflexivity|discriminate]|vm_compute; reflexivity].
Qed.

(** C54 *)
Theorem C54_formula_equality : forall a b, node_eqb a b = true <-> a = b.
Proof. exact node_eqb_iff. Qed.
Print Assumptions C54_formula_equality.
Example C54_example : node_eqb (NBin BAdd NVar (NNum 1)) (NBin BAdd NVar (NNum 1)) = true /\ node_eqb (NBin BAdd NVar (NNum 1)) (NBin BSub NVar (NNum 1)) = false
  /\ node_eqb (NCond NVar NVar (NNum 0)) (NCond NVar (NNum 0) NVar) = false.
Proof. repeat split. Qed.

(** C55 *)
Theorem C55_errors_of_the_iteration : forall lib pf evs c x, read_catalogue lib pf evs = Ok c -> In (UErr x) (c_items c) -> iteration_error x.
Proof. exact any_iteration_error. Qed.
Print Assumptions C55_errors_of_the_iteration.
Theorem C55_errors_of_parse : forall lib pf evs ls e pl tl x, file evs ls e pl tl -> read_catalogue lib pf evs = Err x ->
  iteration_error x \/ exists h r u ps, pl = h ++ r /\ entry None h u /\ ends_at None h r tl /\ header u ps /\ header_error pf ps x.
Proof. exact errors_of_parse. Qed.
Print Assumptions C55_errors_of_parse.
(** Also if the stream goes on after a report of its end: *)
Theorem C55_errors_of_parse_any : forall lib pf evs bs f rs x, pieces evs bs f -> answers 1 bs f rs -> read_catalogue lib pf evs = Err x ->
  iteration_error x \/ exists h r u ps, kept rs = h ++ r /\ entry None h u /\ header u ps /\ header_error pf ps x.
Proof. exact any_errors_of_parse. Qed.
Print Assumptions C55_errors_of_parse_any.
Example C55_example :
  let r ls := match read_catalogue demo_lib demo_pf (lf_stream ls) with Ok c => c_items c | Err x => [UErr x] | Panic => [] end in
  (r ["msgid """""; "msgstr ""Plural-Forms: nplurals=2\n"""] = [UErr (EUnexpected 0 (lit "Bad value list definition: `nplurals=2`"))]
   /\ r ["msgid """""; "msgstr ""Plural-Forms: nplurals=x;\n"""] = [UErr (EPluralForms (lit "invalid digit found in string"))]
   /\ r ["msgid """""; "msgstr """""; "msgid """""; "msgstr ""a"""] = [UErr (EUnexpected 3 (lit "Source should not be empty"))]
   /\ r ["msgid """""; "msgstr """""; "msgid ""b"""; "msgid ""c"""] = [UErr (EParse 4 [] (lit "msgstr"))])%string.
Proof. vm_compute. repeat split. Qed.

(** C56 *)
Theorem C56_units_bounded : forall lib pf evs bs f rs c, pieces evs bs f -> answers 1 bs f rs -> read_catalogue lib pf evs = Ok c ->
  (length (units (c_items c)) <= msgid_lines (kept rs))%nat.
Proof. exact any_units_bounded. Qed.
Print Assumptions C56_units_bounded.
(** Without errors: one unit per msgid line, but for the header and an unfinished last entry. *)
Theorem C56_units_counted : forall lib pf evs ls e pl tl c, file evs ls e pl tl -> read_catalogue lib pf evs = Ok c -> (forall x, ~ In (UErr x) (c_items c)) ->
  exists h t, msgid_lines pl = (h + length (c_items c) + t)%nat /\ (h <= 1)%nat /\ (t <= 1)%nat.
Proof. exact units_counted. Qed.
Print Assumptions C56_units_counted.
Theorem C56_one_per_entry : forall forms b u, entry forms b u -> msgid_lines b = 1%nat.
Proof. exact entry_msgid. Qed.
Print Assumptions C56_one_per_entry.
Example C56_example : let ls := ["msgid """""; "msgstr """""; "#| msgid ""x"""; "msgid ""a"""; "msgstr """"" ; "msgid ""b"""]%string in
  msgid_lines (fst (parse_lines 1 (map lit ls))) = 3%nat
  /\ demo_ids (read_catalogue demo_lib demo_pf (lf_stream ls)) = [inl (lit "a")].
Proof. vm_compute. split; reflexivity. Qed.

(** C62 *)
(** Whatever a stream does: all that is shown of the file is, taken together, not bigger than
    the bytes that were read. *)
Theorem C62_catalogue_bounded : forall lib pf evs,
  match read_catalogue lib pf evs with
  | Ok c => (catalogue_size c <= data_size evs)%nat
  | Err e => (error_size e <= data_size evs)%nat
  | Panic => False
  end.
Proof. exact catalogue_bounded. Qed.
Print Assumptions C62_catalogue_bounded.
(** Counted for the unit below: 4 for the location, 4 and 1 for the flags, 2 for the note, 3 for
    the context, 2 and 3 for the ids, 4 for each form, 3 for the previous id, 1 for the unit. *)
Example C62_example :
  let ls := ["#: a:1"; "#, c-x,"; "#.b"; "#| msgid ""old"""; "msgctxt ""cc"""; "msgid ""id"""; "msgid_plural ""ids"""; "msgstr[0] ""one"""; "msgstr[1] ""two"""]%string in
  (exists u, read_catalogue demo_lib demo_pf (lf_stream ls) = Ok (Catalogue [] [] [] (lang_invariant demo_lib) [UOk u]) /\ unit_size u = 31%nat)
  /\ data_size (lf_stream ls) = 109%nat
  /\ read_catalogue demo_lib demo_pf [RdData (utf8 (lit "oops"))] = Err (EParse 2 (lit "oops") [])
  /\ error_size (EParse 2 (lit "oops") []) = 4%nat /\ data_size [RdData (utf8 (lit "oops"))] = 4%nat.
Proof. vm_compute. split; [eexists; split; reflexivity|]. repeat split. Qed.
