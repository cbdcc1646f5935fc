(** Examples that satisfy all conditions of a theorem together. *)
From Coq Require Import String Arith NArith ZArith Bool List.
From Verif Require Import ModelBase ModelUtf8 ModelLine ModelFormula ModelData ModelSource ModelReader
  SpecLine SpecFormula SpecSource SpecReader SpecBlock SpecHeader SpecFile SpecWriter SpecExtracted SpecMarks SpecRuntime SpecRule SpecRuleMore SpecOutput SpecShown SpecBare SpecWhole
  FileIntro EvalFacts HeaderWitness RuleFacts RuleMore OutputFacts RuleFacts ShownWitness CatalogueWitness InstanceFacts.
Import ListNotations.
Local Open Scope N_scope.

(** C51, C82 and C94: all conditions of the theorems hold together of one file. *)
Example C51_example_together : exists h r u ps c v p f ts,
  file (lf_stream ruled_lines) (map lit ruled_lines) None (h ++ r) None /\ first_entry h r None u /\ u_message u = MSimple [] (Some usual_text) /\ header u ps
  /\ property ps (lit "Plural-Forms") = Some (forms_definition (lit "2") (lit "n != 1")) /\ rule_text usual_text (lit "2") (lit "n != 1")
  /\ decimal 2 (lit "2") /\ one_line (lit "n != 1") /\ ~ In 59 (lit "n != 1") /\ not_white_first (lit "n != 1") /\ not_white_last (lit "n != 1") /\ ~ blanks (lit "n != 1")
  /\ (forall x, In x (lit "n != 1") -> white x -> x = 32 \/ x = 9) /\ tokens_of (lit "n != 1") ts /\ common MExpr ts usual_formula /\ derives GExpr ts usual_formula
  /\ read_catalogue demo_lib demo_pf (lf_stream ruled_lines) = Ok c /\ nth_error (c_items c) 0 = Some (UOk v) /\ u_message v = MPlural p /\ pl_forms p = Some f
  /\ gettext_header (pf_definition f) (pf_count f) (pf_formula f) /\ N.of_nat (length (pl_values p)) = pf_count f /\ pf_count f = 2 /\ pf_formula f = usual_formula
  /\ word64 demo_pf /\ value usual_formula 5 = Some 1%Z /\ runs 5 usual_formula 1 /\ natural usual_formula 5 = Some 1
  /\ msg_get_plural_text demo_pf (u_message v) 5 = Some (Some (lit "y")).
Proof. exact ruled_instance. Qed.
(** C81 *)
Example C81_example_together : exists c c',
  let ls := ["# "; "msgid ""a"""; "msgstr ""b"""]%string in let ls' := ["msgid ""a"""; "msgstr ""b"""]%string in
  let pl := PComment 1 32 [] :: simple_block 2 3 (lit "a") (lit "b") in let pl' := simple_block 1 2 (lit "a") (lit "b") in
  file (lf_stream ls) (map lit ls) None pl None /\ file (lf_stream ls') (map lit ls') None pl' None /\ bare pl pl'
  /\ Forall2 same_text (filter no_comment pl) (filter no_comment pl') /\ first_has_id pl /\ first_has_id pl'
  /\ read_catalogue demo_lib demo_pf (lf_stream ls) = Ok c /\ (forall x, ~ In (UErr x) (c_items c)) /\ read_catalogue demo_lib demo_pf (lf_stream ls') = Ok c' /\ (forall x, ~ In (UErr x) (c_items c')).
Proof. exact uncommented_instance. Qed.
(** C61 *)
Example C61_example_together : let b := utf8 (lit "msgid ""a""") ++ [10] ++ utf8 (lit "msgstr ""b""") ++ [10] ++ utf8 (lit "# x") ++ [10] in let b1 := utf8 (lit "msgid ""c""") ++ [10] in
  let ls := ["msgid ""a"""; "msgstr ""b"""; "# x"]%string in
  pieces [RdData b; RdData []; RdData b1] [b; b1] None /\ delivers [RdData b] b None /\ contents b None (map lit ls) None
  /\ parsed 1 (map lit ls) None (simple_block 1 2 (lit "a") (lit "b") ++ [PComment 3 32 (lit "x")]) None /\ terminated b.
Proof. exact resumed_instance. Qed.
(** C68 *)
Example C68_example_together : exists u ps u' ps',
  let ls := ["msgid """""; "msgstr ""X: y\n"""; "msgid ""a"""; "msgstr ""b"""]%string in
  let ls' := [""; "msgid """""; "msgstr ""Language: fr\n"""; ""; "msgid ""a"""; "msgstr """""; """b"""]%string in
  let h := simple_block 1 2 [] (unescape (lit "X: y\n")) in let h' := simple_block 2 3 [] (unescape (lit "Language: fr\n")) in
  let r := simple_block 3 4 (lit "a") (lit "b") in let r' := simple_block 5 6 (lit "a") [] ++ [PCont 7 [] (lit "b")] in
  file (lf_stream ls) (map lit ls) None (h ++ r) None /\ first_entry h r None u /\ header u ps
  /\ file (lf_stream ls') (map lit ls') None (h' ++ r') None /\ first_entry h' r' None u' /\ header u' ps'
  /\ property ps (lit "Plural-Forms") = None /\ property ps' (lit "Plural-Forms") = None /\ property ps (lit "Language") <> property ps' (lit "Language")
  /\ resplit (fun n n' => n < n') r r' /\ same_end (fun n n' => n < n') None None.
Proof. exact headers_instance. Qed.
(** C10 *)
Example C10_example_together : let ls := ["msgid ""a"""; "msgstr ""b"""]%string in let ls' := [""; "  msgid ""a"""; "   "; " msgstr ""b"""; ""]%string in
  file (lf_stream ls) (map lit ls) None (simple_block 1 2 (lit "a") (lit "b")) None /\ file (lf_stream ls') (map lit ls') None (simple_block 2 4 (lit "a") (lit "b")) None
  /\ respaced 1 1 [(1, 2); (2, 4); (3, 6)] (map lit ls) (map lit ls').
Proof. exact respaced_instance. Qed.
(** C14 *)
Example C14_example_together : let ls := (sample_head ++ sample_body)%list in exists bs,
  writes_header [Note Translator (lit "By me")] [] sample_props (map lit sample_head) /\ NoDup (map fst sample_props) /\ header_forms_of demo_pf sample_props (Some sample_forms)
  /\ writes_units (Some sample_forms) [sample_unit] (map lit sample_body) /\ contents bs None (map lit sample_head ++ map lit sample_body) None /\ delivers (lf_stream ls) bs None
  /\ read_catalogue demo_lib demo_pf (lf_stream ls) = Ok (Catalogue [Note Translator (lit "By me")] [] sample_props (lit "de") [UOk sample_unit]).
Proof. exact sample_catalogue. Qed.
