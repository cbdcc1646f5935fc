(** Property C82: plural forms compared with the run-time library of GNU gettext. *)
From Coq Require Import String Arith NArith ZArith Bool List.
From Verif Require Import ModelBase ModelUtf8 ModelLine ModelFormula ModelData ModelSource ModelReader
  SpecLine SpecFormula SpecSource SpecReader SpecBlock SpecHeader SpecFile SpecWriter SpecRuntime FileIntro EvalFacts FormulaWitness RoundWitness RuntimeFacts.
Import ListNotations.
Local Open Scope N_scope.

(** C82: false of the code that the text chosen for a count is the one that GNU gettext chooses. *)
(** Where both read the same formula and all numbers stay natural and below 2^63, the texts are the same exactly if
    the value is below the number of forms; else gettext takes the first form and the crate none. *)
Theorem C82_selection_partial : forall lib pf evs c v p f n x,
  read_catalogue lib pf evs = Ok c -> In (UOk v) (c_items c) -> u_message v = MPlural p -> pl_forms p = Some f ->
  gettext_header (pf_definition f) (pf_count f) (pf_formula f) -> N.of_nat (length (pl_values p)) = pf_count f -> 0 < pf_count f ->
  word64 pf -> n < 2 ^ 63 -> natural (pf_formula f) n = Some x ->
  exists s, gettext_text c p n s /\ (forall s', gettext_text c p n s' -> s' = s)
    /\ (x < pf_count f -> msg_get_plural_text pf (u_message v) n = Some (Some s))
    /\ (pf_count f <= x -> nth_error (pl_values p) 0 = Some s /\ msg_get_plural_text pf (u_message v) n = Some None).
Proof. exact gettext_agrees. Qed.
Print Assumptions C82_selection_partial.
(** A definition as it is usually written is found by gettext (the formulas that both read alike: C33). *)
Theorem C82_usual_definition : forall kd src count ts e, decimal count kd -> ~ In 59 src -> one_line src -> (forall c, In c src -> white c -> c = 32 \/ c = 9) ->
  tokens_of src ts -> gnu CExpr ts e ->
  gettext_header (forms_definition kd src) count e.
Proof. exact usual_definition. Qed.
Print Assumptions C82_usual_definition.
Theorem C82_header_unique : forall s k e k' e', gettext_header s k e -> gettext_header s k' e' -> k = k' /\ e = e'.
Proof. exact gettext_header_det. Qed.
Print Assumptions C82_header_unique.
(** A value that is no index: the first form in gettext, none here. *)
Theorem C82_too_large_refuted : exists evs c v p f n x s, read_catalogue demo_lib demo_pf evs = Ok c /\ c_items c = [UOk v] /\ u_message v = MPlural p
  /\ pl_forms p = Some f /\ natural (pf_formula f) n = Some x /\ pf_count f <= x
  /\ gettext_text c p n s /\ msg_get_plural_text demo_pf (u_message v) n = Some None.
Proof. exact too_large_refuted. Qed.
Print Assumptions C82_too_large_refuted.
(** A negative difference: another form. *)
Theorem C82_difference_refuted : exists evs c v p f n s t, read_catalogue demo_lib demo_pf evs = Ok c /\ c_items c = [UOk v] /\ u_message v = MPlural p
  /\ pl_forms p = Some f /\ natural (pf_formula f) n = None
  /\ gettext_text c p n s /\ msg_get_plural_text demo_pf (u_message v) n = Some (Some t) /\ s <> t.
Proof. exact difference_refuted. Qed.
Print Assumptions C82_difference_refuted.
(** A definition without semicolon at its end: the whole file is refused. *)
Theorem C82_unended_refuted : exists h u ps r count e def, file (lf_stream unended_lines) (map lit unended_lines) None (h ++ r) None /\ first_entry h r None u /\ header u ps
  /\ property ps (lit "Plural-Forms") = Some def /\ gettext_header def count e
  /\ forall lib pf, exists x, read_catalogue lib pf (lf_stream unended_lines) = Err x.
Proof. exact unended_refuted. Qed.
Print Assumptions C82_unended_refuted.
(** No definition: gettext distinguishes 1 from all else, here there is no text for any count. *)
Theorem C82_default_refuted : exists evs u p s, (forall lib pf, exists c, read_catalogue lib pf evs = Ok c /\ c_items c = [UOk u] /\ gettext_text c p 1 s)
  /\ u_message u = MPlural p /\ forall pf n, msg_get_plural_text pf (u_message u) n = Some None.
Proof. exact default_refuted. Qed.
Print Assumptions C82_default_refuted.
Example C82_example :
  let e := NCond (NBin BEq (NBin BMod NVar (NNum 10)) (NNum 1)) (NNum 0) (NBin BSub NVar (NNum 3)) in
  map (natural e) [11; 5; 2] = [Some 0; Some 2; None] /\ map (gettext_eval e) [11; 5; 2] = [Some 0; Some 2; Some 18446744073709551615]
  /\ map (gettext_form 2 e) [11; 5; 2] = [Some 0; Some 0; Some 0]
  /\ selected demo_pf "nplurals=2; plural=n%10==1?0:n-3;" 11 = Some (Some (lit "x")) /\ selected demo_pf "nplurals=2; plural=n%10==1?0:n-3;" 4 = Some (Some (lit "y"))
  /\ selected demo_pf "nplurals=2; plural=n%10==1?0:n-3;" 5 = Some None.
Proof. vm_compute. repeat split. Qed.
