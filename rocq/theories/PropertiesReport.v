(** Error messages of whole files, with the texts of errors about formulas (C90, C107). *)
From Coq Require Import String Arith NArith ZArith Bool List Lia.
From Verif Require Import ModelBase ModelUtf8 ModelLine ModelFormula ModelData ModelSource ModelReader ModelParser ModelReport ReportSize
  SpecLine SpecFormula SpecSource SpecReader SpecBlock SpecHeader SpecFile SpecAny SpecParser SpecError SpecSize SpecFault SpecReport FileIntro ReportFacts ReportThms.
Import ListNotations.
Local Open Scope N_scope.

(** C90, whole files: the reader with the texts of errors about formulas gives the same results
    as that of the main model, unless the formula of the header is none; then the text is that of
    the first error in this formula. *)
Theorem C90_file : forall early expected lib pf evs bs f rs, cautious early -> pieces evs bs f -> answers 1 bs f rs ->
  (report_catalogue early expected lib pf evs = read_catalogue lib pf evs /\ read_catalogue lib pf evs <> Err (EPluralForms formula_error_text))
  \/ exists h r u ps def vs w1 m w2 ft, kept rs = h ++ r /\ entry None h u /\ header u ps /\ property ps (lit "Plural-Forms") = Some def
     /\ bindings def vs /\ last_value (lit "plural") vs = Some (w1 ++ m ++ w2) /\ blanks w1 /\ blanks w2 /\ m <> [] /\ not_white_first m /\ not_white_last m /\ fault_of m ft
     /\ read_catalogue lib pf evs = Err (EPluralForms formula_error_text)
     /\ report_catalogue early expected lib pf evs = Err (EPluralForms (fault_text (expected (w1 ++ m ++ w2) ft) ft)).
Proof. exact report_file. Qed.
Print Assumptions C90_file.
(** C100, for every stream: errors of parsing are about a line, or about the definition of plural forms. *)
Theorem C100_any : forall lib pf evs bs f rs x, pieces evs bs f -> answers 1 bs f rs -> read_catalogue lib pf evs = Err x ->
  stream_error rs x \/ exists h r u ps def, kept rs = h ++ r /\ entry None h u /\ header u ps
    /\ property ps (lit "Plural-Forms") = Some def /\ def <> [] /\ one_line def /\ (length def <= length (concat bs))%nat /\ forms_fault pf def x.
Proof. exact any_header_fault. Qed.
Print Assumptions C100_any.
(** C107: false of the code that error messages are single lines: an unexpected token in a formula
    gives two, if there is a list of expected ones ... *)
Theorem C107_lines_refuted : exists ls, forall early expected lib pf io, cautious early -> expected (lit "n n") (FToken 2 (lit "n") 3) <> [] ->
  exists x t, report_catalogue early expected lib pf (lf_stream ls) = Err x /\ shows io x t /\ In 10 t.
Proof. exists two_lines. exact two_lines_shown. Qed.
Print Assumptions C107_lines_refuted.
(** ... and this is the only way, for messages of I/O errors that are lines. *)
Theorem C107_lines_partial : forall early expected lib pf evs io x t, cautious early -> (forall i, one_line (io i)) -> (forall s ft w, In w (expected s ft) -> one_line w) ->
  report_catalogue early expected lib pf evs = Err x \/ (exists c, report_catalogue early expected lib pf evs = Ok c /\ In (UErr x) (c_items c)) -> shows io x t ->
  one_line t \/ exists a b, t = lit "Error in plurals forms: Unrecognized " ++ a ++ [10] ++ lit "Expected one of " ++ b /\ one_line a /\ one_line b.
Proof. exact messages_lines. Qed.
Print Assumptions C107_lines_partial.
(** Messages are not longer than the file, the digits of the line number, the text of the I/O
    error and a constant (errors about formulas: below). *)
Theorem C107_length : forall lib pf evs io x t ds, read_catalogue lib pf evs = Err x \/ (exists c, read_catalogue lib pf evs = Ok c /\ In (UErr x) (c_items c)) ->
  shows io x t -> decimal (named_line x) ds -> (length t <= data_size evs + length ds + io_length io x + 80)%nat.
Proof. exact messages_length. Qed.
Print Assumptions C107_length.
(** Errors about formulas included, messages also hold two offsets, each at most four bytes per
    byte of the file, and the texts of the expected tokens. *)
Theorem C107_length_formulas : forall early expected lib pf evs io x t ds dd K, cautious early -> (forall s ft, (length (concat (expected s ft)) + 4 * length (expected s ft) <= K)%nat) ->
  report_catalogue early expected lib pf evs = Err x \/ (exists c, report_catalogue early expected lib pf evs = Ok c /\ In (UErr x) (c_items c)) ->
  shows io x t -> decimal (named_line x) ds -> decimal (N.of_nat (4 * data_size evs)) dd ->
  (length t <= data_size evs + length ds + io_length io x + 2 * length dd + K + 100)%nat.
Proof. exact messages_length_all. Qed.
Print Assumptions C107_length_formulas.
Example C107_example :
  match report_catalogue (fun _ _ => false) (fun _ _ => [lit "a"; lit "b"]) demo_lib demo_pf (lf_stream two_lines) with Err x => error_format (fun _ => []) x | _ => [] end
  = lit "Error in plurals forms: Unrecognized token `n` found at 2:3" ++ [10] ++ lit "Expected one of a or b"
  /\ match report_catalogue (fun _ _ => false) (fun _ _ => []) demo_lib demo_pf (lf_stream ["oops"]%string) with Err x => error_format (fun _ => []) x | _ => [] end
  = lit "Parse error at line 2, got " ++ [8216] ++ lit "oops" ++ [8217].
Proof. vm_compute. split; reflexivity. Qed.
Example C107_length_example :
  match report_catalogue (fun _ _ => false) (fun _ _ => [lit "a"; lit "b"]) demo_lib demo_pf (lf_stream two_lines) with Err x => (length (error_format (fun _ => []) x), data_size (lf_stream two_lines)) | _ => (0, 0)%nat end
  = (82, 58)%nat.
Proof. vm_compute. reflexivity. Qed.
