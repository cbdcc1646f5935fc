(** C104: the time taken by formulas; C65: the stack for comparing them. *)
From Coq Require Import String Arith NArith ZArith Bool List.
From Verif Require Import ModelBase ModelLine ModelUtf8 ModelFormula ModelData ModelSource ModelReader ModelParser ModelSteps
  SpecLine SpecFormula SpecReader SpecHeader SpecMachine SpecSteps SpecParser FileIntro StepFacts.
Import ListNotations.
Local Open Scope nat_scope.

(** C104 *)
(** The counted evaluation is the evaluation; *)
Theorem C104_counted : forall checks e n, fst (steps_execute checks e n) = execute checks e n.
Proof. exact steps_execute_same. Qed.
Print Assumptions C104_counted.
(** it looks at each part of the formula at most once, whatever the count is. *)
Theorem C104_evaluation : forall checks e n, snd (steps_execute checks e n) <= tree_size e.
Proof. exact steps_execute_bound. Qed.
Print Assumptions C104_evaluation.
(** A formula has no more parts than its text has characters (the empty text stands for n). *)
Theorem C104_size : forall s e, formula_parse s = Some e -> tree_size e <= Nat.max 1 (length s).
Proof. exact text_size. Qed.
Print Assumptions C104_size.
(** So looking up a text of a delivered message takes no more steps than its formula has characters. *)
Theorem C104_lookup : forall lib pf evs c u p f checks n, read_catalogue lib pf evs = Ok c -> In (UOk u) (c_items c) -> plural_in u p -> pl_forms p = Some f ->
  snd (steps_execute checks (pf_formula f) n) <= Nat.max 1 (length (pf_source f)).
Proof. exact lookup_steps. Qed.
Print Assumptions C104_lookup.
(** Comparing two formulas takes no more steps than the smaller one has parts. *)
Theorem C104_comparison_counted : forall a b, fst (steps_eqb a b) = node_eqb a b.
Proof. exact steps_eqb_same. Qed.
Print Assumptions C104_comparison_counted.
Theorem C104_comparison : forall a b, snd (steps_eqb a b) <= Nat.min (tree_size a) (tree_size b).
Proof. exact steps_eqb_bound. Qed.
Print Assumptions C104_comparison.
(** The parser shifts and reduces at most eleven times per character, whether it accepts or refuses the text
    (and always ends with a result). *)
Theorem C104_parser_counted : forall early unread fuel stack ts, fst (steps_run early unread fuel stack ts) = run early unread fuel stack ts.
Proof. exact steps_run_same. Qed.
Print Assumptions C104_parser_counted.
Theorem C104_parser_result : forall early s, fst (steps_formula_result early s) = formula_result early s.
Proof. exact steps_formula_result_same. Qed.
Print Assumptions C104_parser_result.
Theorem C104_parser : forall early s, snd (steps_formula_result early s) <= 11 * length s + 1 /\ formula_result early s <> None.
Proof. exact parse_ends. Qed.
Print Assumptions C104_parser.
Example C104_example :
  let f s := match formula_parse (lit s) with Some e => (tree_size e, map (fun n => snd (steps_execute false e n)) [0; 1; 2]%Z) | None => (0, []) end in
  (f "n+n+n" = (5, [5; 5; 5]) /\ f "n>1 && n%2" = (7, [4; 4; 7]) /\ f "n==0 ? 1 : n*n*n" = (10, [5; 9; 9]) /\ f "" = (1, [1; 1; 1]))%string
  /\ map (fun s => parse_steps (fun _ _ => false) (lit s)) ["n"; "n+n"; "(n"; ""]%string = [11; 17; 12; 0].
Proof. vm_compute. repeat split; reflexivity. Qed.

(** C65, for the comparison of formulas: room for the lower of the two trees is enough, *)
Theorem C65_compare_room : forall room a b, Nat.min (height a) (height b) <= room -> stack_eqb room a b = Some (node_eqb a b).
Proof. exact stack_eqb_enough. Qed.
Print Assumptions C65_compare_room.
(** with less room the answer is the same, if there is one, *)
Theorem C65_compare_same : forall room a b r, stack_eqb room a b = Some r -> r = node_eqb a b.
Proof. exact stack_eqb_same. Qed.
Print Assumptions C65_compare_same.
(** and comparing a formula with a copy of itself needs as much as its height. *)
Theorem C65_compare_exact : forall room e, stack_eqb room e e = Some true <-> height e <= room.
Proof. exact stack_eqb_self. Qed.
Print Assumptions C65_compare_exact.
