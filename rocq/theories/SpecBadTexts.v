(** The errors that reading can end with, with the texts of errors about formulas (C120). *)
From Coq Require Import String NArith List.
From Verif Require Import ModelBase ModelLine ModelFormula ModelData ModelReader ModelParser SpecLine SpecSource SpecReader SpecBlock SpecHeader SpecFault SpecWriter SpecParser SpecBadEnds.
Import ListNotations.
Local Open Scope N_scope.

(** The text [s] stands for the formula in the value [def] of Plural-Forms, and has the error [ft]. *)
Definition formula_fault (def s : str) (ft : fault) : Prop :=
  exists bs w1 m w2, property_shape (lit "Plural-Forms") def /\ scalars def /\ definition_list def /\ bindings def bs /\ last_value (lit "plural") bs = Some s
  /\ s = w1 ++ m ++ w2 /\ blanks w1 /\ blanks w2 /\ m <> [] /\ not_white_first m /\ not_white_last m /\ fault_of m ft.
Inductive text_error (expected : str -> fault -> list str) (pf : platform) : error -> Prop :=
| te_other x : possible_error pf x -> x <> EPluralForms formula_error_text -> text_error expected pf x
| te_formula def s ft : formula_fault def s ft -> text_error expected pf (EPluralForms (fault_text (expected s ft) ft)).
