(** Plural rules as they may be written so that the crate and GNU gettext read them alike. *)
From Coq Require Import String NArith List.
From Verif Require Import ModelBase ModelUtf8 ModelLine ModelFormula ModelData ModelSource ModelReader
  SpecLine SpecSource SpecReader SpecBlock SpecFile SpecWriter SpecRuntime SpecRule.
Import ListNotations.
Local Open Scope N_scope.

Definition gaps (w : str) : Prop := forall c, In c w -> c = 32 \/ c = 9.
(** The number of forms [kd] and the formula [src], in any order, spaces and tabs after the equals
    signs and around the semicolons. *)
Inductive written_rule (kd src : str) : str -> Prop :=
| wr_count_first w1 w2 w3 w4 w5 : gaps w1 -> gaps w2 -> gaps w3 -> gaps w4 -> gaps w5 ->
    written_rule kd src (lit "nplurals=" ++ w1 ++ kd ++ w2 ++ lit ";" ++ w3 ++ lit "plural=" ++ w4 ++ src ++ w5 ++ lit ";")
| wr_formula_first w1 w2 w3 w4 w5 : gaps w1 -> gaps w2 -> gaps w3 -> gaps w4 -> gaps w5 ->
    written_rule kd src (lit "plural=" ++ w4 ++ src ++ w5 ++ lit ";" ++ w3 ++ lit "nplurals=" ++ w1 ++ kd ++ w2 ++ lit ";").
(** One line of the text has the key Plural-Forms and the definition [def]; the lines in front of it
    do not mention a plural rule. *)
Definition rule_line (t def : str) : Prop :=
  exists ls k w w' ls', t = separated 10 (ls ++ (k ++ 58 :: w ++ def ++ w') :: ls')
    /\ trims_to k (lit "Plural-Forms") /\ one_line k /\ blanks w /\ one_line w /\ blanks w' /\ one_line w'
    /\ (forall l, In l (ls ++ ls') -> one_line l /\ ~ has_key (lit "Plural-Forms") l)
    /\ forall l, In l ls -> ~ mentions (lit "plural=") l /\ ~ mentions (lit "nplurals=") l.
