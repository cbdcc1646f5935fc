(** C10, C15, C68, C96 and C113 with the texts of errors about formulas. *)
From Coq Require Import String Arith NArith ZArith Bool List Lia.
From Verif Require Import ModelBase ModelLine ModelFormula ModelData ModelUtf8 ModelSource ModelReader ModelParser ModelReport
  SpecLine SpecSource SpecReader SpecBlock SpecHeader SpecFile SpecParser SpecRearranged LineFacts FileIntro ReportThms ReportLayout.
Import ListNotations.
Local Open Scope N_scope.

(** C10: blank lines and indentation have no influence, on the texts of errors about formulas neither. *)
Theorem C10_texts : forall early expected lib pf evs evs' bs bs' f f' ls ls' e c, cautious early -> delivers evs bs f -> delivers evs' bs' f' ->
  contents bs f ls e -> contents bs' f' ls' e -> respaced 1 1 c ls ls' ->
  catalogue_sim (corresponding c) indented (report_catalogue early expected lib pf evs) (report_catalogue early expected lib pf evs').
Proof. exact report_spacing. Qed.
Print Assumptions C10_texts.
(** C15: nor have the cuts of strings, *)
Theorem C15_texts : forall early expected lib pf Rn evs evs' ls ls' e e' pl pl' tl tl', cautious early -> file evs ls e pl tl -> file evs' ls' e' pl' tl' ->
  resplit Rn pl pl' -> same_end Rn tl tl' -> catalogue_sim Rn eq (report_catalogue early expected lib pf evs) (report_catalogue early expected lib pf evs').
Proof. exact report_split. Qed.
Print Assumptions C15_texts.
(** C68: the other properties of the header, *)
Theorem C68_texts : forall early expected lib pf Rn evs ls e h r tl u ps evs' ls' e' h' r' tl' u' ps', cautious early ->
  file evs ls e (h ++ r) tl -> first_entry h r tl u -> header u ps -> file evs' ls' e' (h' ++ r') tl' -> first_entry h' r' tl' u' -> header u' ps' ->
  property ps (lit "Plural-Forms") = property ps' (lit "Plural-Forms") -> resplit Rn r r' -> same_end Rn tl tl' ->
  match report_catalogue early expected lib pf evs, report_catalogue early expected lib pf evs' with
  | Ok c, Ok c' => Forall2 (uitem_sim Rn eq) (c_items c) (c_items c') /\ (property ps (lit "Language") = property ps' (lit "Language") -> c_language c = c_language c')
  | Err x, Err x' => x = x'
  | _, _ => False
  end.
Proof. exact report_influence. Qed.
Print Assumptions C68_texts.
(** C113: their order, *)
Theorem C113_texts : forall early expected lib pf Rn evs ls e h r tl u t hls evs' ls' e' h' r' tl' u' t' hls', cautious early ->
  file evs ls e (h ++ r) tl -> first_entry h r tl u -> u_message u = MSimple [] t -> text_lines (opt_str t) hls ->
  file evs' ls' e' (h' ++ r') tl' -> first_entry h' r' tl' u' -> u_message u' = MSimple [] t' -> text_lines (opt_str t') hls' ->
  rearranged hls hls' -> resplit Rn r r' -> same_end Rn tl tl' ->
  match report_catalogue early expected lib pf evs, report_catalogue early expected lib pf evs' with
  | Ok c, Ok c' => (forall k, sm_get k (c_properties c) = sm_get k (c_properties c')) /\ c_language c = c_language c' /\ Forall2 (uitem_sim Rn eq) (c_items c) (c_items c')
  | Err x, Err x' => x = x'
  | _, _ => False
  end.
Proof. exact report_rearranged. Qed.
Print Assumptions C113_texts.
(** C96: or the platform, as long as words are equally wide. *)
Theorem C96_texts_same_width : forall early expected lib pf pf' evs, usize_bits pf = usize_bits pf' -> report_catalogue early expected lib pf evs = report_catalogue early expected lib pf' evs.
Proof. exact report_same_width. Qed.
Print Assumptions C96_texts_same_width.
(** An error about a formula; with other spacing, cuts, and properties; with another formula. *)
Definition text_in (ls : list string) : outcome catalogue := report_catalogue (fun _ _ => false) (fun _ _ => []) demo_lib demo_pf (lf_stream ls).
Definition formula_lines : list string := ["msgid """""; "msgstr ""Plural-Forms: nplurals=2; plural=n n;"""; "msgid ""a"""]%string.
Example C10_texts_example : text_in formula_lines = Err (EPluralForms (lit "Unrecognized token `n` found at 2:3"))
  /\ text_in [""; "  msgid """""; " "; "msgstr ""Plural-Forms: nplurals=2; plural=n n;"""; "msgid ""a"""]%string = text_in formula_lines
  /\ respaced 1 1 [(1, 2); (2, 4); (3, 5); (4, 6)] (map lit formula_lines) (map lit [""; "  msgid """""; " "; "msgstr ""Plural-Forms: nplurals=2; plural=n n;"""; "msgid ""a"""]%string).
Proof.
  assert (forall k, blanks (repeat 32 k)) as B by (intros k c I; apply repeat_spec in I; subst; apply is_ws_white; reflexivity).
  split; [vm_compute; reflexivity|]. split; [vm_compute; reflexivity|]. cbn [map formula_lines].
  apply (rs_right _ _ _ []); [exact (B 0%nat)|]. apply (rs_line _ _ _ [] (repeat 32 2)); [exact (B 0%nat)|apply B|].
  apply (rs_right _ _ _ (repeat 32 1)); [apply B|]. apply (rs_line _ _ _ [] []); [exact (B 0%nat)|exact (B 0%nat)|]. apply (rs_line _ _ _ [] []); [exact (B 0%nat)|exact (B 0%nat)|]. apply rs_end.
Qed.
Example C15_texts_example : text_in ["msgid """""; "msgstr """""; """Plural-Forms: nplurals=2; """; """plural=n n;"""; "msgid ""a"""]%string = text_in formula_lines
  /\ text_in ["msgid """""; "msgstr ""X: y\nPlural-Forms: nplurals=2; plural=n n;\nLanguage: fr"""; "msgid ""a"""]%string = text_in formula_lines
  /\ text_in ["msgid """""; "msgstr ""Plural-Forms: nplurals=2; plural=n  n;"""; "msgid ""a"""]%string <> text_in formula_lines.
Proof. split; [vm_compute; reflexivity|]. split; [vm_compute; reflexivity|]. vm_compute. discriminate. Qed.
