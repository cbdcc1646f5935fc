(** Errors in plural formulas (C90). *)
From Coq Require Import String Arith NArith ZArith Bool List Lia.
From Verif Require Import ModelBase ModelLine ModelFormula ModelData ModelParser SpecLine SpecFormula SpecSource SpecReader SpecParser ParserThms.
Import ListNotations.

(** C90: the parser always ends. *)
Theorem C90_total : forall early s, formula_result early s <> None.
Proof. exact result_total. Qed.
Print Assumptions C90_total.

(** It accepts the formulas, with their trees (C30), whether errors are
    reported early or not. *)
Theorem C90_accepts_formulas : forall early s e, cautious early -> (formula_result early s = Some (inl e) <-> formula_parse s = Some e).
Proof. exact result_formula. Qed.
Print Assumptions C90_accepts_formulas.
(** The same, said with the grammar. *)
Theorem C90_accepts_grammar : forall early s e, cautious early -> (formula_result early s = Some (inl e)
  <-> (blanks s /\ e = NVar) \/ (~ blanks s /\ exists ts, tokens_of s ts /\ derives GExpr ts e)).
Proof. exact result_grammar. Qed.
Print Assumptions C90_accepts_grammar.

(** For any other text, without the blanks around it, the error is the first one in the text:
    the first token with which no formula can go on, with its place; or the place where no
    token begins; or the end of the text; or a number that does not fit in 64 bits. *)
Theorem C90_error : forall early s f, cautious early -> formula_result early s = Some (inr f) ->
  exists w1 m w2, s = w1 ++ m ++ w2 /\ blanks w1 /\ blanks w2 /\ m <> [] /\ not_white_first m /\ not_white_last m /\ fault_of m f.
Proof. exact result_fault. Qed.
Print Assumptions C90_error.
(** There is one such error, but for numbers that are too large. *)
Theorem C90_error_unique : forall s f f', fault_of s f -> fault_of s f' -> f <> FLarge -> f' <> FLarge -> f = f'.
Proof. exact fault_unique. Qed.
Print Assumptions C90_error_unique.
Theorem C90_error_is_no_formula : forall s f ts e, fault_of s f -> tokens_of s ts -> ~ derives GExpr ts e.
Proof. exact fault_no_formula. Qed.
Print Assumptions C90_error_is_no_formula.

(** In the plural forms of a header: the text of the error tells this place. *)
Theorem C90_forms_error : forall early expected pf input values, cautious early -> parse_map input = Some values -> formula_parse (formula_source values) = None ->
  exists w1 m w2 f, formula_source values = w1 ++ m ++ w2 /\ blanks w1 /\ blanks w2 /\ m <> [] /\ not_white_first m /\ not_white_last m /\ fault_of m f
    /\ forms_result early expected pf input = Some (Err (EPluralForms (fault_text (expected (formula_source values) f) f))).
Proof. exact forms_fault. Qed.
Print Assumptions C90_forms_error.
(** What the texts are. *)
Theorem C90_texts : forall expected,
  (forall n, fault_text expected (FInvalid n) = lit "Invalid token at " ++ dec_str n)
  /\ (forall n, fault_text expected (FEof n) = lit "Unrecognized EOF found at " ++ dec_str n ++ expected_text expected)
  /\ (forall a w b, fault_text expected (FToken a w b) = lit "Unrecognized token `" ++ w ++ lit "` found at " ++ dec_str a ++ lit ":" ++ dec_str b ++ expected_text expected)
  /\ fault_text expected FLarge = lit "number too large to fit in target type".
Proof. exact fault_texts. Qed.
Print Assumptions C90_texts.
Theorem C90_expected_texts : expected_text [] = []
  /\ (forall x, expected_text [x] = 10%N :: lit "Expected one of " ++ x)
  /\ forall x l y, expected_text (x :: l ++ [y]) = 10%N :: lit "Expected one of " ++ x ++ flat_map (fun z => lit ", " ++ z) l ++ lit " or " ++ y.
Proof. exact expected_texts. Qed.
Print Assumptions C90_expected_texts.
Theorem C90_forms_same : forall early expected pf input, cautious early ->
  (forall values, parse_map input = Some values -> formula_parse (formula_source values) <> None) ->
  forms_result early expected pf input = Some (plural_forms_parse pf input).
Proof. exact forms_same. Qed.
Print Assumptions C90_forms_same.

(** Errors reported late and early. *)
Example C90_cautious : cautious (fun _ _ => false) /\ cautious after_var /\ after_var [Y TVar] (Some TVar) = true.
Proof. split; [exact never_cautious|split; [exact after_var_cautious|reflexivity]]. Qed.
Definition late : list symbol -> option tok -> bool := fun _ _ => false.
Example C90_example :
  map (fun s => formula_result late (lit s)) ["n n"; "1+"; " n $ 1"; "(n + 1"; "n ! 2"; "n == not"; "99999999999999999999"; "1 ) 99999999999999999999"; "n ? 1 : "; "n = 1"]%string
  = map (fun f => Some (inr f)) [FToken 2 (lit "n") 3; FEof 2; FInvalid 2; FEof 6; FToken 2 (lit "!") 3; FEof 8; FLarge; FToken 2 (lit ")") 3; FEof 7; FInvalid 2]
  /\ formula_result late (lit "n > 1") = Some (inl (NBin BGt NVar (NNum 1)))
  /\ formula_result after_var (lit "n n") = Some (inr (FToken 2 (lit "n") 3)).
Proof. repeat split; vm_compute; reflexivity. Qed.
(** The test in reader.rs:324-349 (there behind Plural-Forms:). *)
Example C90_text : let expected := fun _ _ => map lit ["""("""; """-"""; """n"""; "r#""[0-9]+""#"]%string in
  option_map (fun r => match r with Err e => error_format (fun _ => []) e | _ => [] end) (forms_result late expected demo_pf (lit "plural=1+;"))
  = Some (lit "Error in plurals forms: Unrecognized EOF found at 2" ++ [10%N] ++ lit "Expected one of ""("", ""-"", ""n"" or r#""[0-9]+""#").
Proof. vm_compute. reflexivity. Qed.
