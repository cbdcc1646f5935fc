(** Files for which gettext and the units show something else. *)
From Coq Require Import String Arith NArith ZArith Bool List Lia.
From Verif Require Import ModelBase ModelUtf8 ModelLine ModelFormula ModelData ModelSource ModelReader
  SpecLine SpecFormula SpecSource SpecReader SpecBlock SpecHeader SpecFile SpecWriter SpecExtracted SpecMarks SpecRuntime SpecRule SpecRuleMore SpecOutput SpecShown
  BaseFacts LexFacts FormulaThms HeaderFacts BlockThms BlockFacts FileIntro IndepFacts FlagFacts RuntimeFacts RuleFacts RuleMore OutputFacts ShownFacts.
Import ListNotations.
Local Open Scope N_scope.

Definition usual_heading : list str := [lit "msgid """""; lit "msgstr ""Language: de\nPlural-Forms: nplurals=2; plural=n != 1;\n"""].
Definition usual_formula : node := NBin BNe NVar (NNum 1).
Lemma usual_agreed : agreed_rule demo_pf usual_text 2 usual_formula.
Proof.
  exists (forms_definition (lit "2") (lit "n != 1")), (lit "2"), (lit "n != 1"), [TVar; TNe; TNum (lit "1")].
  split; [exact usual_rule|]. split; [apply (wr_count_first (lit "2") (lit "n != 1") [] [] [32] [] []); intros c I; cbn in I; intuition (subst; auto)|].
  split; [exact (dc_digit 2 eq_refl)|]. split; [reflexivity|]. split; [intros I; cbn in I; intuition discriminate|]. split; [intros I; cbn in I; intuition discriminate|].
  split; [intros c s E; injection E as <- _; vm_compute; intuition discriminate|].
  split; [intros c s E; change (lit "n != 1") with (lit "n != " ++ [49]) in E; apply app_inj_tail in E as [_ <-]; vm_compute; intuition discriminate|].
  split; [intros x I; cbn in I; intros W; cbn in W; intuition (subst; auto; discriminate)|].
  split; [apply (lex_iff 20%nat); [vm_compute; repeat constructor|vm_compute; reflexivity]|].
  apply m_expr, m_or, m_and. apply (m_ne [TVar] [TNum (lit "1")] NVar (NNum (digits_value (lit "1")))); [repeat constructor|].
  apply m_not, m_add, m_mul, m_num; [discriminate|intros c I; cbn in I; destruct I as [<-|[]]; lia|vm_compute; discriminate].
Qed.
Lemma usual_headed : exists ps f, heading_text demo_pf usual_heading (simple_unit [] usual_text) ps (Some f) /\ pf_count f = 2.
Proof.
  destruct (header_pairs_total usual_text) as [ps Hp].
  assert (header (simple_unit [] usual_text) ps) as H by (exists (Some usual_text); split; [reflexivity|exact Hp]).
  assert (exists forms, header_forms_of demo_pf ps forms) as [forms F].
  { apply header_pairs_iff in Hp. subst ps. eexists. eapply hf_some; [vm_compute; reflexivity|discriminate|].
    destruct usual_agreed as (def & kd & src & ts & _). clear.
    refine (proj2 (written_read demo_pf 2 (lit "2") (lit "n != 1") _ [TVar; TNe; TNum (lit "1")] usual_formula _ _ _ _ _ _ _ _ _ _ _) eq_refl).
    - apply (wr_count_first (lit "2") (lit "n != 1") [] [] [32] [] []); intros c I; cbn in I; intuition (subst; auto).
    - exact (dc_digit 2 eq_refl).
    - reflexivity.
    - intros I; cbn in I; intuition discriminate.
    - intros I; cbn in I; intuition discriminate.
    - intros c s E; injection E as <- _; vm_compute; intuition discriminate.
    - intros c s E; change (lit "n != 1") with (lit "n != " ++ [49]) in E; apply app_inj_tail in E as [_ <-]; vm_compute; intuition discriminate.
    - intros B. specialize (B 110 (or_introl eq_refl)). cbn in B. intuition discriminate.
    - apply (lex_iff 20%nat); [vm_compute; repeat constructor|vm_compute; reflexivity].
    - apply (common_derives MExpr). apply m_expr, m_or, m_and. apply (m_ne [TVar] [TNum (lit "1")] NVar (NNum (digits_value (lit "1")))); [repeat constructor|].
      apply m_not, m_add, m_mul, m_num; [discriminate|intros c I; cbn in I; destruct I as [<-|[]]; lia|vm_compute; discriminate]. }
  destruct (rule_forms demo_pf (simple_unit [] usual_text) usual_text ps forms 2 usual_formula eq_refl H F usual_agreed) as (_ & f & -> & C & _).
  exists ps, f. split; [|exact C]. exists (simple_block 1 2 [] usual_text).
  split; [exact (parse_lines_spec usual_heading (okb_lines usual_heading eq_refl) 1)|]. split; [apply simple_entry|]. auto.
Qed.
Definition pair_msg (ctx : option str) (id p : str) (vs : list str) : gmsg := GMsg [] [] [] [] None None ctx id (inr (p, vs)) false.
Lemma one_pair_output ctx id p x y : output_message (pair_msg ctx id p [x; y])
  (match ctx with Some c => [lit "msgctxt " ++ 34 :: output_escape c ++ [34]] | None => [] end ++
   [lit "msgid " ++ 34 :: output_escape id ++ [34]; lit "msgid_plural " ++ 34 :: output_escape p ++ [34]; lit "msgstr[0] " ++ 34 :: output_escape x ++ [34]; lit "msgstr[1] " ++ 34 :: output_escape y ++ [34]]).
Proof.
  apply (om_intro [] [] [] [] None None ctx id (inr (p, [x; y])) false [] [] (match ctx with Some c => [lit "msgctxt " ++ 34 :: output_escape c ++ [34]] | None => [] end) [_] [_; _; _]).
  - constructor.
  - constructor.
  - destruct ctx as [c|]; constructor. exact (one_piece (false, false) (lit "msgctxt") c).
  - exact (one_piece (false, false) (lit "msgid") id).
  - apply (ot_plural _ p [x; y] [_] [_; _]); [exact (one_piece (false, false) (lit "msgid_plural") p)|].
    apply (on_cons _ 0 (lit "msgstr[0]") x [y] [_] [_]); [exists (lit "0"); split; [exact (dc_digit 0 eq_refl)|reflexivity]|exact (one_piece (false, false) (lit "msgstr[0]") x)|].
    apply (on_cons _ 1 (lit "msgstr[1]") y [] [_] []); [exists (lit "1"); split; [exact (dc_digit 1 eq_refl)|reflexivity]|exact (one_piece (false, false) (lit "msgstr[1]") y)|constructor].
Qed.
Lemma pair_readable f ctx id p x y : id <> [] -> pf_count f = 2 -> readable (Some f) (pair_msg ctx id p [x; y]).
Proof. intros Ni C. split; [constructor|]. split; [constructor|]. split; [constructor|]. split; [exact Ni|]. split; [discriminate|]. cbn [nforms]. rewrite C. vm_compute. discriminate. Qed.
Definition no_controlsb (s : str) : bool := forallb (fun c => negb (existsb (N.eqb c) [7; 8; 11; 12])) s.
Lemma no_controls_b s : no_controlsb s = true -> no_controls s.
Proof.
  intros H c I J. unfold no_controlsb in H. rewrite forallb_forall in H. specialize (H c I). apply negb_true_iff in H.
  assert (existsb (N.eqb c) [7; 8; 11; 12] = true) by (apply existsb_exists; exists c; split; [exact J|apply N.eqb_refl]). congruence.
Qed.
Lemma single_one m : single [m].
Proof. intros a b [<-|[]] [<-|[]] _ _ _ _. reflexivity. Qed.

(** The first text is empty: gettext shows no translation, the unit has one. *)
Definition hollow_msg : gmsg := pair_msg None (lit "a") (lit "b") [[]; lit "y"].
Definition hollow_file : list str := [[]; lit "msgid ""a"""; lit "msgid_plural ""b"""; lit "msgstr[0] """""; lit "msgstr[1] ""y"""].
Theorem hollow_shown : exists ps f, heading_text demo_pf usual_heading (simple_unit [] usual_text) ps (Some f) /\ agreed_rule demo_pf usual_text 2 usual_formula
  /\ output_file [hollow_msg] hollow_file /\ readable (Some f) hollow_msg /\ ordinary hollow_msg /\ N.of_nat (length (gm_values hollow_msg)) = 2
  /\ gettext_answer usual_text [hollow_msg] None (lit "a") 5 None
  /\ exists c us, read_catalogue demo_lib demo_pf (str_stream (usual_heading ++ hollow_file)) = Ok c /\ c_items c = map UOk us
     /\ unit_answer demo_pf us None (lit "a") 5 = Some (Some (lit "y")).
Proof.
  destruct usual_headed as (ps & f & H & C). exists ps, f. split; [exact H|]. split; [exact usual_agreed|].
  split; [exists [tl hollow_file]; split; [constructor; [exact (one_pair_output None (lit "a") (lit "b") [] (lit "y"))|constructor]|reflexivity]|].
  split; [apply pair_readable; [discriminate|exact C]|]. split; [split; [repeat (constructor; [apply no_controls_b; reflexivity|]); constructor|constructor]|]. split; [reflexivity|].
  split; [apply ga_absent; intros m [<-|[]] (_ & _ & t & ts & E & N); injection E as <- _; congruence|].
  eexists. eexists [_]. split; [vm_compute; reflexivity|]. split; [reflexivity|vm_compute; reflexivity].
Qed.
(** An id that looks like context and id of another message. *)
Definition glued_msg : gmsg := pair_msg (Some (lit "c")) (lit "a") (lit "b") [lit "x"; lit "y"].
Definition glued_file : list str := [[]; lit "msgctxt ""c"""; lit "msgid ""a"""; lit "msgid_plural ""b"""; lit "msgstr[0] ""x"""; lit "msgstr[1] ""y"""].
Theorem glued_shown : exists ps f, heading_text demo_pf usual_heading (simple_unit [] usual_text) ps (Some f) /\ agreed_rule demo_pf usual_text 2 usual_formula
  /\ output_file [glued_msg] glued_file /\ readable (Some f) glued_msg /\ ordinary glued_msg /\ complete 2 glued_msg
  /\ gettext_answer usual_text [glued_msg] None (lit "c" ++ 4 :: lit "a") 5 (Some (lit "y"))
  /\ exists c us, read_catalogue demo_lib demo_pf (str_stream (usual_heading ++ glued_file)) = Ok c /\ c_items c = map UOk us
     /\ unit_answer demo_pf us (Some (lit "c")) (lit "a") 5 = Some (Some (lit "y")) /\ unit_answer demo_pf us None (lit "c" ++ 4 :: lit "a") 5 = Some None.
Proof.
  destruct usual_headed as (ps & f & H & C). exists ps, f. split; [exact H|]. split; [exact usual_agreed|].
  split; [exists [tl glued_file]; split; [constructor; [exact (one_pair_output (Some (lit "c")) (lit "a") (lit "b") (lit "x") (lit "y"))|constructor]|reflexivity]|].
  split; [apply pair_readable; [discriminate|exact C]|]. split; [split; [repeat (constructor; [apply no_controls_b; reflexivity|]); constructor|constructor]|].
  split; [split; [reflexivity|intros ts E; discriminate]|].
  split.
  - apply (ga_found _ _ _ _ _ glued_msg); [left; reflexivity|split; [reflexivity|split; [intros []|exists (lit "x"), [lit "y"]; split; [reflexivity|discriminate]]]|reflexivity|].
    exists 2, usual_formula, 1. split; [left|split; reflexivity].
    destruct H as (h & _ & _ & Hv & Hf). exact (proj1 (rule_forms demo_pf (simple_unit [] usual_text) usual_text ps (Some f) 2 usual_formula eq_refl Hv Hf usual_agreed)).
  - eexists. eexists [_]. split; [vm_compute; reflexivity|]. split; [reflexivity|]. split; vm_compute; reflexivity.
Qed.
