(** The stack needed for refusing a text that is no formula (C91). *)
From Coq Require Import String Arith NArith ZArith Bool List Lia.
From Verif Require Import ModelBase ModelLine ModelFormula ModelData ModelMachine ModelParser ModelDiscard SpecFormula SpecReader SpecMachine SpecParser
  ParserThms DiscardFacts PropertiesParser.
Import ListNotations.

(** C91 *)
(** Room for as many nested calls as the text has characters is enough, whenever the parser
    notices the error ... *)
Theorem C91_room_of_text : forall room early s, length s <= room -> stack_formula room early s = Some (formula_result early s).
Proof. exact refusal_room. Qed.
Print Assumptions C91_room_of_text.
(** ... and one more for the plural forms of a header, where a formula without error is
    discarded when the count is bad. *)
Theorem C91_forms_room : forall room early expected pf input, cautious early ->
  (forall values, parse_map input = Some values -> length (formula_source values) < room) ->
  stack_forms room early expected pf input = Some (forms_result early expected pf input).
Proof. exact stack_forms_room. Qed.
Print Assumptions C91_forms_room.
(** With less room the answer is the same, if there is one. *)
Theorem C91_same_answer : forall room early s r, stack_formula room early s = Some r -> formula_result early s = r.
Proof. exact refusal_same. Qed.
Print Assumptions C91_same_answer.
Theorem C91_forms_same_answer : forall room early expected pf input r, stack_forms room early expected pf input = Some r -> forms_result early expected pf input = r.
Proof. exact stack_forms_same. Qed.
Print Assumptions C91_forms_same_answer.
(** There is none exactly for texts refused with a tree left over that is higher than the room. *)
Theorem C91_exact : forall room early s, stack_formula room early s = None <->
  (exists f, formula_result early s = Some (inr f)) /\ exists e, In e (left_over early s) /\ room < height e.
Proof. exact refusal_exact. Qed.
Print Assumptions C91_exact.
(** No fixed room is enough. *)
Theorem C91_fixed_room_refuted : forall early room, cautious early ->
  exists s f, length s = 2 * room + 2 /\ formula_result early s = Some (inr f) /\ stack_formula room early s = None.
Proof. exact refusal_overflows. Qed.
Print Assumptions C91_fixed_room_refuted.
Theorem C91_forms_fixed_room_refuted : forall early expected pf room, cautious early ->
  exists def m, length def = 2 * room + 22 /\ forms_result early expected pf def = Some (Err (EPluralForms m)) /\ stack_forms room early expected pf def = None.
Proof. exact stack_forms_overflow. Qed.
Print Assumptions C91_forms_fixed_room_refuted.
Example C91_example : left_over late (lit "n+n+") = [NBin BAdd NVar NVar] /\ left_over late (lit "n+n $") = [NVar]
  /\ left_over late (lit "1 ? (n : 2") = [NVar; NNum 1] /\ left_over late (lit "n 99999999999999999999") = [NVar] /\ left_over late (lit "1+99999999999999999999)") = [NNum 1]
  /\ map (fun room => stack_formula room late (lit "n+n+")) [1; 2] = [None; Some (Some (inr (FEof 4)))]
  /\ map (fun room => match stack_forms room late (fun _ _ => []) demo_pf (lit "plural=n+n+;") with Some _ => true | None => false end) [1; 2] = [false; true].
Proof. vm_compute. repeat split; reflexivity. Qed.
