(** Property C94: where the plural rule is looked for, compared with GNU gettext. *)
From Coq Require Import String Arith NArith ZArith Bool List.
From Verif Require Import ModelBase ModelUtf8 ModelLine ModelFormula ModelData ModelSource ModelReader
  SpecLine SpecFormula SpecSource SpecReader SpecBlock SpecHeader SpecFile SpecWriter SpecRuntime SpecRule SpecRuleMore FileIntro FormulaWitness RuleFacts RuleMore.
Import ListNotations.
Local Open Scope N_scope.

(** C94: false of the code that the plural rule in use is the one that the run-time library of GNU gettext finds
    in the text of the header. *)
(** True if one line has the key Plural-Forms and a definition as it is usually written, if no line in front
    mentions a rule, and if the formula is one that both read alike (C33). *)
Theorem C94_rule_partial : forall lib pf evs ls er pl tl h u t r c kd src count ts e,
  file evs ls er pl tl -> pl = h ++ r -> first_entry h r tl u -> u_message u = MSimple [] (Some t) -> rule_text t kd src ->
  decimal count kd -> count < 2 ^ usize_bits pf -> one_line src -> ~ In 59 src -> not_white_first src -> not_white_last src -> (forall x, In x src -> white x -> x = 32 \/ x = 9) ->
  tokens_of src ts -> common MExpr ts e -> read_catalogue lib pf evs = Ok c ->
  gettext_header t count e /\ forall v p, In (UOk v) (c_items c) -> plural_in v p -> exists f, pl_forms p = Some f /\ pf_count f = count /\ pf_formula f = e.
Proof. exact rule_agrees. Qed.
Print Assumptions C94_rule_partial.
(** The same for the two parts of the definition in any order, with spaces and tabs after the equals signs
    and around the semicolons. *)
Theorem C94_written_partial : forall lib pf evs ls er pl tl h u t def r c kd src count ts e,
  file evs ls er pl tl -> pl = h ++ r -> first_entry h r tl u -> u_message u = MSimple [] (Some t) -> rule_line t def -> written_rule kd src def ->
  decimal count kd -> count < 2 ^ usize_bits pf -> one_line src -> ~ In 59 src -> not_white_first src -> not_white_last src -> (forall x, In x src -> white x -> x = 32 \/ x = 9) ->
  tokens_of src ts -> common MExpr ts e -> read_catalogue lib pf evs = Ok c ->
  gettext_header t count e /\ forall v p, In (UOk v) (c_items c) -> plural_in v p -> exists f, pl_forms p = Some f /\ pf_count f = count /\ pf_formula f = e.
Proof. exact written_agrees. Qed.
Print Assumptions C94_written_partial.
(** Two definitions in a line: the first one in gettext, the last one here. *)
Theorem C94_first_definition_refuted : let t := lit "Plural-Forms: nplurals=2; plural=0; plural=n;" ++ [10] in
  exists evs f count e, rule_read evs t (Some f) /\ gettext_header t count e /\ pf_formula f <> e.
Proof. exact first_definition. Qed.
Print Assumptions C94_first_definition_refuted.
(** A line in front that mentions a rule: that one in gettext. *)
Theorem C94_other_line_refuted : let t := lit "X-Old: nplurals=2; plural=0;" ++ 10 :: lit "Plural-Forms: nplurals=2; plural=n;" ++ [10] in
  exists evs f count e, rule_read evs t (Some f) /\ gettext_header t count e /\ pf_formula f <> e.
Proof. exact other_line. Qed.
Print Assumptions C94_other_line_refuted.
(** Another spelling of the key: the rule is found in gettext, there are no forms here. *)
Theorem C94_other_key_refuted : let t := lit "plural-forms: nplurals=2; plural=n;" ++ [10] in
  exists evs count e, rule_read evs t None /\ gettext_header t count e.
Proof. exact other_key. Qed.
Print Assumptions C94_other_key_refuted.
(** Spaces around the equals signs: gettext finds no rule and takes its default, here the rule is read. *)
Theorem C94_spaces_refuted : let t := lit "Plural-Forms: nplurals = 2; plural = n;" ++ [10] in
  exists evs f count e, rule_read evs t (Some f) /\ gettext_choice t count e /\ pf_formula f <> e.
Proof. exact spaced_equals. Qed.
Print Assumptions C94_spaces_refuted.
Example C94_example : rule_text usual_text (lit "2") (lit "n != 1")
  /\ match read_catalogue demo_lib demo_pf (lf_stream (rule_lines "Language: de\nPlural-Forms: nplurals=2; plural=n != 1;\n")) with
     | Ok c => map (fun i => match i with UOk v => match u_message v with MPlural p => match pl_forms p with Some f => Some (pf_count f, pf_formula f) | None => None end | _ => None end | _ => None end) (c_items c)
               = [Some (2, NBin BNe NVar (NNum 1))]
     | _ => False end.
Proof. split; [exact usual_rule|vm_compute; reflexivity]. Qed.
Example C94_written_example : (exists def, rule_line turned_text def /\ written_rule (lit "2") (lit "n != 1") def)
  /\ match read_catalogue demo_lib demo_pf (lf_stream (rule_lines "Language: de\nPlural-Forms: plural= n != 1 ; nplurals=\t2;\n")) with
     | Ok c => map (fun i => match i with UOk v => match u_message v with MPlural p => match pl_forms p with Some f => Some (pf_count f, pf_formula f) | None => None end | _ => None end | _ => None end) (c_items c)
               = [Some (2, NBin BNe NVar (NNum 1))]
     | _ => False end.
Proof. split; [exact turned_rule|vm_compute; reflexivity]. Qed.
