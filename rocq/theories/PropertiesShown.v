(** Property C105: what a program shows with gettext, and with the units. *)
From Coq Require Import String Arith NArith ZArith Bool List.
From Verif Require Import ModelBase ModelUtf8 ModelLine ModelFormula ModelData ModelSource ModelReader
  SpecLine SpecFormula SpecSource SpecReader SpecBlock SpecHeader SpecFile SpecWriter SpecExtracted SpecMarks SpecRuntime SpecRule SpecRuleMore SpecOutput SpecShown
  EvalFacts FileIntro FlagFacts RuleFacts ShownFacts ShownWitness.
Import ListNotations.
Local Open Scope N_scope.

(** C105: false of the code that a program which looks for a text among the delivered units shows what it shows with
    GNU gettext, that is with the catalogue that msgfmt compiles from the same messages. *)
(** True if the messages are those of C99, if the plural rule is one that both read alike (C94), if all forms are there and
    none of them is empty unless they all are, if messages are told apart by context and id, if no context and no id contains the
    character 4, and if the value of the formula is that of natural numbers and the number of a form (C82): then, for every
    context, id and count, there is exactly one answer of gettext, and it is that of the units. *)
Theorem C105_shown_partial : forall lib pf hls v t ps forms count e ms ls bs evs,
  heading_text pf hls v ps forms -> u_message v = MSimple [] (Some t) -> agreed_rule pf t count e -> word64 pf ->
  output_file ms ls -> Forall (readable forms) ms -> Forall ordinary ms -> Forall (complete count) ms -> single ms ->
  (forall m, In m ms -> separable (gm_context m) (gm_id m)) ->
  contents bs None (hls ++ ls) None -> delivers evs bs None ->
  exists c us, read_catalogue lib pf evs = Ok c /\ c_items c = map UOk us
    /\ forall ctx id n x, separable ctx id -> n < 2 ^ 63 -> natural e n = Some x -> x < count ->
       exists o, unit_answer pf us ctx id n = Some o /\ forall o', gettext_answer t ms ctx id n o' <-> o' = o.
Proof. exact shown_alike. Qed.
Print Assumptions C105_shown_partial.
(** The first text is empty: with gettext there is no translation, with the units there is one. *)
Theorem C105_hollow_refuted : exists ps f, heading_text demo_pf usual_heading (simple_unit [] usual_text) ps (Some f) /\ agreed_rule demo_pf usual_text 2 usual_formula
  /\ output_file [hollow_msg] hollow_file /\ readable (Some f) hollow_msg /\ ordinary hollow_msg /\ N.of_nat (length (gm_values hollow_msg)) = 2
  /\ gettext_answer usual_text [hollow_msg] None (lit "a") 5 None
  /\ exists c us, read_catalogue demo_lib demo_pf (str_stream (usual_heading ++ hollow_file)) = Ok c /\ c_items c = map UOk us
     /\ unit_answer demo_pf us None (lit "a") 5 = Some (Some (lit "y")).
Proof. exact hollow_shown. Qed.
Print Assumptions C105_hollow_refuted.
(** An id made of context, separator and id: with gettext it is found, with the units it is not. *)
Theorem C105_glued_refuted : exists ps f, heading_text demo_pf usual_heading (simple_unit [] usual_text) ps (Some f) /\ agreed_rule demo_pf usual_text 2 usual_formula
  /\ output_file [glued_msg] glued_file /\ readable (Some f) glued_msg /\ ordinary glued_msg /\ complete 2 glued_msg
  /\ gettext_answer usual_text [glued_msg] None (lit "c" ++ 4 :: lit "a") 5 (Some (lit "y"))
  /\ exists c us, read_catalogue demo_lib demo_pf (str_stream (usual_heading ++ glued_file)) = Ok c /\ c_items c = map UOk us
     /\ unit_answer demo_pf us (Some (lit "c")) (lit "a") 5 = Some (Some (lit "y")) /\ unit_answer demo_pf us None (lit "c" ++ 4 :: lit "a") 5 = Some None.
Proof. exact glued_shown. Qed.
Print Assumptions C105_glued_refuted.
(** The conditions hold of the second of these files, and the count 5; with its context and id the text is found. *)
Example C105_example : word64 demo_pf /\ single [glued_msg] /\ separable (gm_context glued_msg) (gm_id glued_msg) /\ separable (Some (lit "c")) (lit "a") /\ natural usual_formula 5 = Some 1
  /\ exists c us, read_catalogue demo_lib demo_pf (str_stream (usual_heading ++ glued_file)) = Ok c /\ c_items c = map UOk us
     /\ map (unit_answer demo_pf us (Some (lit "c")) (lit "a")) [1; 5] = [Some (Some (lit "x")); Some (Some (lit "y"))] /\ unit_answer demo_pf us None (lit "a") 5 = Some None.
Proof.
  assert (separable (Some (lit "c")) (lit "a")) as S by (split; intros I; cbn in I; intuition discriminate).
  split; [reflexivity|]. split; [apply single_one|]. split; [exact S|]. split; [exact S|]. split; [reflexivity|].
  eexists. eexists [_]. split; [vm_compute; reflexivity|]. split; [reflexivity|]. split; vm_compute; reflexivity.
Qed.
