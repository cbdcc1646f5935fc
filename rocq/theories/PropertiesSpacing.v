(** White space and parentheses in plural formulas (C92). *)
From Coq Require Import String Arith NArith ZArith Bool List Lia.
From Verif Require Import ModelBase ModelLine ModelFormula ModelData ModelParser SpecLine SpecFormula SpecParser SpecSpacing SpacingFacts PropertiesParser.
Import ListNotations.

(** C92 *)
(** White space that is put in between two tokens, or taken out where a token still ends, has no influence. *)
Theorem C92_blanks : forall a b w, between a b -> blanks w -> formula_parse (a ++ w ++ b) = formula_parse (a ++ b).
Proof. exact spaced_parse. Qed.
Print Assumptions C92_blanks.
(** If the text is no formula the error remains the same, too; only the places after the white space are moved. *)
Theorem C92_errors : forall early a b w, not_white_first a -> a <> [] -> between a b -> blanks w ->
  formula_result early (a ++ w ++ b) = option_map (moved_result (size a) (size w)) (formula_result early (a ++ b)).
Proof. exact spaced_result. Qed.
Print Assumptions C92_errors.
(** Parentheses around a formula have no influence. *)
Theorem C92_parentheses : forall s e, formula_parse s = Some e -> ~ blanks s -> formula_parse (40%N :: s ++ [41%N]) = Some e.
Proof. exact parenthesised. Qed.
Print Assumptions C92_parentheses.
(** Places between tokens, and places that are not: there white space has influence. *)
Example C92_between : between (lit "n>") (lit " =1") /\ between (lit "n") (lit ">=1") /\ between (lit "n ") (lit ">=1") /\ between (lit "n>=") (lit "1").
Proof. exact between_examples. Qed.
Example C92_example :
  map (fun s => formula_parse (lit s)) ["n>=1"; " n >= 1"; "(n>=1)"; "n> =1"; "n>=1 0"; "n>=10"]%string
  = [Some (NBin BGte NVar (NNum 1)); Some (NBin BGte NVar (NNum 1)); Some (NBin BGte NVar (NNum 1)); None; None; Some (NBin BGte NVar (NNum 10))]
  /\ map (fun s => formula_result late (lit s)) ["n n+"; "n  n+"; "n+"; "n  +"; "n$"; "n  $"]%string
  = map (fun f => Some (inr f)) [FToken 2 (lit "n") 3; FToken 3 (lit "n") 4; FEof 2; FEof 4; FInvalid 1; FInvalid 3].
Proof. vm_compute. split; reflexivity. Qed.
