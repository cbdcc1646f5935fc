(** Files and streams that satisfy all conditions of a theorem together. *)
From Coq Require Import String Arith NArith ZArith Bool List Lia.
From Verif Require Import ModelBase ModelUtf8 ModelLine ModelFormula ModelData ModelSource ModelReader
  SpecLine SpecFormula SpecSource SpecReader SpecBlock SpecHeader SpecFile SpecWriter SpecExtracted SpecMarks SpecRuntime SpecRule SpecRuleMore SpecOutput SpecShown SpecBare SpecWhole
  BaseFacts LexFacts FormulaThms EvalFacts HeaderFacts HeaderThms BlockThms BlockFacts FileIntro FileFacts IndepFacts FlagFacts RuntimeFacts RuleFacts RuleMore OutputFacts ShownFacts ShownWitness HeaderWitness BareFacts BareWitness PieceFacts StreamThms FirstFacts.
Import ListNotations.
Local Open Scope N_scope.

(** A header with a plural rule, and an entry with plural. *)
Definition ruled_lines : list string := rule_lines "Language: de\nPlural-Forms: nplurals=2; plural=n != 1;\n".
Theorem ruled_instance : exists h r u ps c v p f ts,
  file (lf_stream ruled_lines) (map lit ruled_lines) None (h ++ r) None /\ first_entry h r None u /\ u_message u = MSimple [] (Some usual_text) /\ header u ps
  /\ property ps (lit "Plural-Forms") = Some (forms_definition (lit "2") (lit "n != 1")) /\ rule_text usual_text (lit "2") (lit "n != 1")
  /\ decimal 2 (lit "2") /\ one_line (lit "n != 1") /\ ~ In 59 (lit "n != 1") /\ not_white_first (lit "n != 1") /\ not_white_last (lit "n != 1") /\ ~ blanks (lit "n != 1")
  /\ (forall x, In x (lit "n != 1") -> white x -> x = 32 \/ x = 9) /\ tokens_of (lit "n != 1") ts /\ common MExpr ts usual_formula /\ derives GExpr ts usual_formula
  /\ read_catalogue demo_lib demo_pf (lf_stream ruled_lines) = Ok c /\ nth_error (c_items c) 0 = Some (UOk v) /\ u_message v = MPlural p /\ pl_forms p = Some f
  /\ gettext_header (pf_definition f) (pf_count f) (pf_formula f) /\ N.of_nat (length (pl_values p)) = pf_count f /\ pf_count f = 2 /\ pf_formula f = usual_formula
  /\ word64 demo_pf /\ value usual_formula 5 = Some 1%Z /\ runs 5 usual_formula 1 /\ natural usual_formula 5 = Some 1
  /\ msg_get_plural_text demo_pf (u_message v) 5 = Some (Some (lit "y")).
Proof.
  assert (not_white_first (lit "n != 1")) as A by (intros c s E; injection E as <- _; vm_compute; intuition discriminate).
  assert (not_white_last (lit "n != 1")) as B by (intros c s E; change (lit "n != 1") with (lit "n != " ++ [49]) in E; apply app_inj_tail in E as [_ <-]; vm_compute; intuition discriminate).
  assert (common MExpr [TVar; TNe; TNum (lit "1")] usual_formula) as C.
  { apply m_expr, m_or, m_and. apply (m_ne [TVar] [TNum (lit "1")] NVar (NNum (digits_value (lit "1")))); [repeat constructor|].
    apply m_not, m_add, m_mul, m_num; [discriminate|intros c I; cbn in I; destruct I as [<-|[]]; lia|vm_compute; discriminate]. }
  assert (tokens_of (lit "n != 1") [TVar; TNe; TNum (lit "1")]) as T by (apply (lex_iff 20%nat); [vm_compute; repeat constructor|vm_compute; reflexivity]).
  assert (forall x, In x (lit "n != 1") -> white x -> x = 32 \/ x = 9) as W by (intros x I Wx; cbn in I; cbn in Wx; intuition (subst; auto; discriminate)).
  assert (~ In 59 (lit "n != 1")) as S by (intros I; cbn in I; intuition discriminate).
  assert (one_line (lit "n != 1")) as O by (intros I; cbn in I; intuition discriminate).
  pose proof (simple_entry None 1 2 [] usual_text) as En.
  assert (~ has_source (simple_unit [] usual_text)) as NS by (intros H; exact (H _ eq_refl)). destruct (header_exists (simple_unit [] usual_text) NS) as (ps & H).
  destruct (header_shown_of demo_lib (simple_unit [] usual_text) ps [] H) as (_ & _ & P & _). cbn [c_properties] in P.
  exists (simple_block 1 2 [] usual_text). eexists. exists (simple_unit [] usual_text), ps. do 4 eexists. exists [TVar; TNe; TNum (lit "1")].
  split; [apply lf_file; [discriminate|reflexivity|vm_compute; reflexivity]|].
  split; [apply fe_entry; [exact En|apply (starter_ends None _ _ _ _ None En); right; do 4 eexists; split; [reflexivity|]; vm_compute; auto]|].
  split; [reflexivity|]. split; [exact H|]. split; [rewrite <- P; vm_compute; reflexivity|]. split; [exact usual_rule|]. split; [exact (dc_digit 2 eq_refl)|].
  split; [exact O|]. split; [exact S|]. split; [exact A|]. split; [exact B|].
  split; [intros Bl; specialize (Bl 110 (or_introl eq_refl)); cbn in Bl; intuition discriminate|]. split; [exact W|]. split; [exact T|]. split; [exact C|]. split; [exact (common_derives MExpr _ _ C)|].
  split; [vm_compute; reflexivity|]. split; [reflexivity|]. split; [reflexivity|]. split; [reflexivity|].
  split; [apply (usual_definition (lit "2") (lit "n != 1") 2 [TVar; TNe; TNum (lit "1")] usual_formula (dc_digit 2 eq_refl) S O W T); exact (proj1 (proj2 (common_agreement _ _ C)))|].
  split; [reflexivity|]. split; [reflexivity|]. split; [reflexivity|]. split; [reflexivity|]. split; [reflexivity|]. split; [|split; [reflexivity|vm_compute; reflexivity]].
  apply (execute_runs usual_formula 5 1); [split; vm_compute; discriminate|repeat split; vm_compute; discriminate|vm_compute; reflexivity].
Qed.
(** A file with comments and the file without them. *)
Theorem uncommented_instance : exists c c',
  let ls := ["# "; "msgid ""a"""; "msgstr ""b"""]%string in let ls' := ["msgid ""a"""; "msgstr ""b"""]%string in
  let pl := PComment 1 32 [] :: simple_block 2 3 (lit "a") (lit "b") in let pl' := simple_block 1 2 (lit "a") (lit "b") in
  file (lf_stream ls) (map lit ls) None pl None /\ file (lf_stream ls') (map lit ls') None pl' None /\ bare pl pl'
  /\ Forall2 same_text (filter no_comment pl) (filter no_comment pl') /\ first_has_id pl /\ first_has_id pl'
  /\ read_catalogue demo_lib demo_pf (lf_stream ls) = Ok c /\ (forall x, ~ In (UErr x) (c_items c)) /\ read_catalogue demo_lib demo_pf (lf_stream ls') = Ok c' /\ (forall x, ~ In (UErr x) (c_items c')).
Proof.
  do 2 eexists. cbv zeta. split; [apply lf_file; [discriminate|reflexivity|vm_compute; reflexivity]|]. split; [apply lf_file; [discriminate|reflexivity|vm_compute; reflexivity]|].
  split; [vm_compute; repeat constructor|]. split; [vm_compute; repeat constructor|]. split; [exact id_example|].
  split; [|split; [vm_compute; reflexivity|split; [intros x [E|[]]; discriminate|split; [vm_compute; reflexivity|intros x [E|[]]; discriminate]]]].
  intros h r u Eh H He. pose proof (headless_msgid _ _ _ H) as M. destruct h as [|c1 h]; cbn [app] in Eh.
  - subst r. destruct He as [B _]. apply B. left. exists [PMessage 2 [] (lit "msgstr") (lit "b")], (simple_unit (lit "a") (lit "b")). exact (simple_entry None 1 2 (lit "a") (lit "b")).
  - injection Eh as <- _. discriminate.
Qed.
(** A stream that goes on after its end, and comes to it after a comment. *)
Theorem resumed_instance : let b := utf8 (lit "msgid ""a""") ++ [10] ++ utf8 (lit "msgstr ""b""") ++ [10] ++ utf8 (lit "# x") ++ [10] in let b1 := utf8 (lit "msgid ""c""") ++ [10] in
  let ls := ["msgid ""a"""; "msgstr ""b"""; "# x"]%string in
  pieces [RdData b; RdData []; RdData b1] [b; b1] None /\ delivers [RdData b] b None /\ contents b None (map lit ls) None
  /\ parsed 1 (map lit ls) None (simple_block 1 2 (lit "a") (lit "b") ++ [PComment 3 32 (lit "x")]) None /\ terminated b.
Proof.
  cbv zeta. set (b := utf8 _ ++ _). set (ls := ["msgid ""a"""; "msgstr ""b"""; "# x"]%string).
  assert (file (lf_stream ls) (map lit ls) None (simple_block 1 2 (lit "a") (lit "b") ++ [PComment 3 32 (lit "x")]) None) as (bs & f & D & C & P) by (apply lf_file; [discriminate|reflexivity|vm_compute; reflexivity]).
  change (lf_stream ls) with [RdData b] in D. assert (bs = b /\ f = None) as [-> ->]. { inversion D; subst. match goal with H : delivers [] _ _ |- _ => inversion H; subst end. rewrite app_nil_r. auto. }
  split; [|split; [exact D|split; [exact C|split; [exact P|]]]].
  - pose proof (pc_data (utf8 (lit "msgid ""c""") ++ [10]) _ _ _ _ ltac:(discriminate) pc_end) as Q. exact (pc_data b _ _ _ _ ltac:(discriminate) (pc_report _ _ _ Q)).
  - right. eexists (utf8 (lit "msgid ""a""") ++ [10] ++ utf8 (lit "msgstr ""b""") ++ [10] ++ utf8 (lit "# x")). reflexivity.
Qed.
(** Files that differ in the header only. *)
Theorem headers_instance : exists u ps u' ps',
  let ls := ["msgid """""; "msgstr ""X: y\n"""; "msgid ""a"""; "msgstr ""b"""]%string in
  let ls' := [""; "msgid """""; "msgstr ""Language: fr\n"""; ""; "msgid ""a"""; "msgstr """""; """b"""]%string in
  let h := simple_block 1 2 [] (unescape (lit "X: y\n")) in let h' := simple_block 2 3 [] (unescape (lit "Language: fr\n")) in
  let r := simple_block 3 4 (lit "a") (lit "b") in let r' := simple_block 5 6 (lit "a") [] ++ [PCont 7 [] (lit "b")] in
  file (lf_stream ls) (map lit ls) None (h ++ r) None /\ first_entry h r None u /\ header u ps
  /\ file (lf_stream ls') (map lit ls') None (h' ++ r') None /\ first_entry h' r' None u' /\ header u' ps'
  /\ property ps (lit "Plural-Forms") = None /\ property ps' (lit "Plural-Forms") = None /\ property ps (lit "Language") <> property ps' (lit "Language")
  /\ resplit (fun n n' => n < n') r r' /\ same_end (fun n n' => n < n') None None.
Proof.
  assert (forall v, ~ has_source (simple_unit [] v)) as NS by (intros v H; exact (H _ eq_refl)).
  destruct (header_exists (simple_unit [] (unescape (lit "X: y\n"))) (NS _)) as (ps & H). destruct (header_exists (simple_unit [] (unescape (lit "Language: fr\n"))) (NS _)) as (ps' & H').
  destruct (header_shown_of demo_lib _ ps [] H) as (_ & _ & P & _). destruct (header_shown_of demo_lib _ ps' [] H') as (_ & _ & P' & _). cbn [c_properties] in P, P'.
  exists (simple_unit [] (unescape (lit "X: y\n"))), ps, (simple_unit [] (unescape (lit "Language: fr\n"))), ps'. cbv zeta.
  split; [apply lf_file; [discriminate|reflexivity|vm_compute; reflexivity]|].
  split; [apply fe_entry; [apply simple_entry|eapply starter_ends; [apply simple_entry|right; do 4 eexists; split; [reflexivity|vm_compute; auto]]]|]. split; [exact H|].
  split; [apply lf_file; [discriminate|reflexivity|vm_compute; reflexivity]|].
  split; [apply fe_entry; [apply simple_entry|eapply starter_ends; [apply simple_entry|right; do 4 eexists; split; [reflexivity|vm_compute; auto]]]|]. split; [exact H'|].
  split; [rewrite <- P; vm_compute; reflexivity|]. split; [rewrite <- P'; vm_compute; reflexivity|]. split; [rewrite <- P, <- P'; vm_compute; discriminate|]. split; [|constructor].
  apply (rs_field _ 3 5 [] (lit "msgid") (lit "a") (lit "a") [] [] [] []); [reflexivity|constructor|constructor|reflexivity| | |].
  1, 2: intros n x l E; discriminate.
  apply (rs_field _ 4 6 [] (lit "msgstr") (lit "b") [] [] [PCont 7 [] (lit "b")] [] (lit "b") [] []); [reflexivity|constructor|apply (st_cons [] 7 (lit "b") [] []); constructor|reflexivity| | |constructor].
  all: intros n x l E; discriminate.
Qed.
(** The same lines with other white space. *)
Theorem respaced_instance : let ls := ["msgid ""a"""; "msgstr ""b"""]%string in let ls' := [""; "  msgid ""a"""; "   "; " msgstr ""b"""; ""]%string in
  file (lf_stream ls) (map lit ls) None (simple_block 1 2 (lit "a") (lit "b")) None /\ file (lf_stream ls') (map lit ls') None (simple_block 2 4 (lit "a") (lit "b")) None
  /\ respaced 1 1 [(1, 2); (2, 4); (3, 6)] (map lit ls) (map lit ls').
Proof.
  cbv zeta. split; [apply lf_file; [discriminate|reflexivity|vm_compute; reflexivity]|]. split; [apply lf_file; [discriminate|reflexivity|vm_compute; reflexivity]|].
  assert (blanks [] /\ blanks [32] /\ blanks [32; 32] /\ blanks [32; 32; 32]) as (B0 & B1 & B2 & B3) by (repeat split; intros c I; cbn in I; intuition (subst; vm_compute; tauto)).
  apply (rs_right 1 1 _ [] _ _ B0). apply (rs_line 1 2 _ [] [32; 32] (lit "msgid ""a""") _ _ B0 B2).
  apply (rs_right 2 3 _ [32; 32; 32] _ _ B3). apply (rs_line 2 4 _ [] [32] (lit "msgstr ""b""") _ _ B0 B1). apply (rs_right 3 5 _ [] _ _ B0). apply rs_end.
Qed.
