(** The text of the grammar file. *)
From Coq Require Import String Arith NArith ZArith Bool List.
From Verif Require Import ModelBase ModelFormula SpecLine SpecGrammar GrammarFacts.
Import ListNotations.

(** C30: formulas are read by the grammar whose text stands in the source *)
Theorem C30_grammar_file : exists g, grammar_of grammar_file = Some g
  /\ forall s e, formula_parse s = Some e <-> (blanks s /\ e = NVar) \/ (~ blanks s /\ grammar_formula g s e).
Proof. exact grammar_file_read. Qed.
Print Assumptions C30_grammar_file.
(** The start of the grammar; texts that are no grammars; a formula of the grammar. *)
Example C30_grammar_example :
  option_map (fun g => map (fun r => (gr_name r, length (gr_alts r))) g) (grammar_of grammar_file)
    = Some (map (fun x => (lit (fst x), snd x)) [("Formula", 1); ("Expr", 2); ("Or", 3); ("And", 3); ("Logical", 7); ("Not", 3); ("Add", 3); ("Mul", 4); ("Factor", 2); ("Term", 3); ("Num", 1)]%string)
  /\ map (fun t => grammar_of (lit t)) ["A"; "A = {"; "A = { x y"; "= x;"; "A = <x;"]%string = [None; None; None; None; None]
  /\ exists g, grammar_of grammar_file = Some g /\ grammar_formula g (lit "n or(2 )") (NBin BOr NVar (NNum 2)).
Proof.
  split; [vm_compute; reflexivity|]. split; [vm_compute; reflexivity|]. destruct grammar_file_read as (g & G & H). exists g. split; [exact G|].
  assert (formula_parse (lit "n or(2 )") = Some (NBin BOr NVar (NNum 2))) as E by (vm_compute; reflexivity).
  apply H in E as [[_ E]|[_ E]]; [discriminate E|exact E].
Qed.
