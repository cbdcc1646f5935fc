(** Witnesses and consequences for properties of entries that the code violates. *)
From Coq Require Import String Arith NArith ZArith Bool List Lia.
From Verif Require Import ModelBase ModelUtf8 ModelRegex ModelLine ModelFormula ModelData ModelSource ModelReader
  SpecLine SpecFormula SpecSource SpecReader SpecBlock SpecHeader SpecFile BaseFacts LineFacts DecFacts SourceFacts ReaderFacts ReadsFacts
  BlockFacts CommentFacts UnitFacts SoundFacts BlocksFacts FileFacts FileIntro BlockThms EntryThms HeaderThms.
Import ListNotations.
Local Open Scope N_scope.

(** * An unfinished last entry *)
Definition cut_lines : list string := ["msgid ""a"""; "msgstr ""b"""; "msgid ""c"""]%string.
Definition cut_parsed : list po_line := simple_block 1 2 (lit "a") (lit "b") ++ [PMessage 3 [] (lit "msgid") (lit "c")].
Lemma cut_file : file (lf_stream cut_lines) (map lit cut_lines) None cut_parsed None.
Proof. apply lf_file; [discriminate|reflexivity|vm_compute; reflexivity]. Qed.
Lemma cut_incomplete forms : incomplete forms [PMessage 3 [] (lit "msgid") (lit "c")].
Proof.
  exists (lit "msgstr"). apply (aw_str forms false [] [_] (lit "c")).
  - apply (og_intro forms false [] [] [] [] [] [] None [] (MSimple [] None) [] None); constructor.
  - apply (own_line false).
Qed.
Lemma cut_read lib pf : read_catalogue lib pf (lf_stream cut_lines) = Ok (Catalogue [] [] [] (lang_invariant lib) [UOk (simple_unit (lit "a") (lit "b"))]).
Proof.
  apply (read_plain lib pf _ _ _ _ _ (simple_unit (lit "a") (lit "b")) [] None cut_file). apply blocks_entries. split; [|reflexivity].
  exists [simple_block 1 2 (lit "a") (lit "b")], [PMessage 3 [] (lit "msgid") (lit "c")]. split; [reflexivity|]. split; [|apply cut_incomplete].
  constructor; [|constructor]. split; [apply simple_entry|]. intros text; discriminate.
Qed.
(** The lines of this file are not those of its entries. *)
Lemma cut_lost forms bls us : Forall2 (entry forms) bls us -> length us = 1%nat -> cut_parsed <> concat bls.
Proof.
  intros F L E. destruct F as [|b u bls us En F]; [discriminate|]. destruct F; [|discriminate]. cbn [concat] in E. rewrite app_nil_r in E. subst b.
  refine (starter_ends forms (simple_block 1 2 (lit "a") (lit "b")) _ (PMessage 3 [] (lit "msgid") (lit "c")) [] None (simple_entry _ _ _ _ _) _ _).
  - right. do 4 eexists. split; [reflexivity|]. cbn; auto.
  - exists [], u. rewrite app_nil_r. exact En.
Qed.
(** In general. *)
Theorem unfinished_silent lib pf evs ls e pl h r forms us : file evs ls e pl None -> pl = h ++ r -> heading pf h r None forms us -> entries forms r us ->
  exists c, read_catalogue lib pf evs = Ok c /\ c_items c = map UOk us.
Proof.
  intros Fi E H En. destruct (read_file lib pf evs ls e pl None h r forms us None Fi E H) as (c & R & Ei).
  - apply blocks_entries. auto.
  - exists c. split; [exact R|]. rewrite Ei. apply app_nil_r.
Qed.
Theorem unfinished_ignored lib pf evs ls e pl h bls tail forms us : file evs ls e pl None -> pl = h ++ concat bls ++ tail ->
  heading pf h (concat bls ++ tail) None forms us -> Forall2 (unit_entry forms) bls us -> incomplete forms tail ->
  exists c, read_catalogue lib pf evs = Ok c /\ c_items c = map UOk us.
Proof. intros Fi E H F I. apply (unfinished_silent lib pf evs ls e pl h _ forms us Fi E H). exists bls, tail. auto. Qed.

(** * Gaps *)
Definition gap_lines : list string := ["msgid ""a"""; "msgid_plural ""b"""; "msgstr[1] ""c"""]%string.
Lemma gap_file : file (lf_stream gap_lines) (map lit gap_lines) None
  [PMessage 1 [] (lit "msgid") (lit "a"); PMessage 2 [] (lit "msgid_plural") (lit "b"); PMessage 3 [] (lit "msgstr[1]") (lit "c")] None.
Proof. apply lf_file; [discriminate|reflexivity|vm_compute; reflexivity]. Qed.
Definition gap_unit : unit_ := Unit None (MPlural (Plural None (lit "a") (lit "b") [lit "c"])) None (MSimple [] None) [] [] [] [] StFinal false.
Definition gap_parsed : list po_line :=
  [PMessage 1 [] (lit "msgid") (lit "a"); PMessage 2 [] (lit "msgid_plural") (lit "b"); PMessage 3 [] (lit "msgstr[1]") (lit "c")].
Lemma kw_one : msgstr_kw 1 (lit "msgstr[1]").
Proof. exists (lit "1"). split; [|reflexivity]. apply (dc_digit 1). lia. Qed.
Lemma gap_entry : unit_entry None gap_parsed gap_unit.
Proof.
  split; [|intros text; discriminate].
  apply (en_intro None [] [] [] [] [] false gap_parsed None (MSimple [] None) None (MPlural (Plural None (lit "a") (lit "b") [lit "c"]))).
  - constructor.
  - change gap_parsed with ([] ++ [] ++ [] ++ gap_parsed). eapply (kws_intro None false); [constructor|constructor|constructor|].
    apply (bd_plural None false [_] (lit "a") [_] (lit "b") [PMessage 3 [] (lit "msgstr[1]") (lit "c")] [lit "c"]); [apply own_line|apply own_line| |discriminate].
    apply (vs_cons (own false) 2 0 1 (lit "msgstr[1]") [PMessage 3 [] (lit "msgstr[1]") (lit "c")] (lit "c") [] []); [lia|lia|exact kw_one|apply own_line|constructor].
  - apply so_final with (lit "c"); cbn; intuition discriminate.
Qed.
Lemma empty_incomplete forms : incomplete forms [].
Proof. exists (lit "msgid"). apply (aw_id forms false). apply (og_intro forms false [] [] [] [] [] [] None [] (MSimple [] None) [] None); constructor. Qed.
Theorem gap_refuted : exists evs ls pl forms c u p, file evs ls None pl None /\ unit_entry forms pl u
  /\ read_catalogue demo_lib demo_pf evs = Ok c /\ c_items c = [UOk u] /\ u_message u = MPlural p
  /\ exists s, nth_error (pl_values p) 0 = Some s /\ form_at pl 1 s /\ forall t, ~ form_at pl 0 t.
Proof.
  exists (lf_stream gap_lines), (map lit gap_lines), gap_parsed, None. do 3 eexists. split; [exact gap_file|]. split; [exact gap_entry|]. split.
  { apply (read_plain demo_lib demo_pf _ _ _ gap_parsed None gap_unit [] None gap_file). apply blocks_entries. split; [|reflexivity].
    exists [gap_parsed], []. split; [reflexivity|]. split; [constructor; [exact gap_entry|constructor]|apply empty_incomplete]. }
  split; [reflexivity|]. split; [reflexivity|]. exists (lit "c"). split; [reflexivity|]. destruct (entry_forms None gap_parsed gap_unit _ (proj1 gap_entry) eq_refl) as (ks & _ & _ & Le & H).
  cbn [pl_values length] in Le, H. assert (form_at gap_parsed 1 (lit "c")) as F1.
  { exists [PMessage 1 [] (lit "msgid") (lit "a"); PMessage 2 [] (lit "msgid_plural") (lit "b")], false, (lit "msgstr[1]"), [PMessage 3 [] (lit "msgstr[1]") (lit "c")], [].
    split; [reflexivity|]. split; [exact kw_one|]. split; [apply own_line|]. intros; discriminate. }
  split; [exact F1|]. intros t F0. apply H in F1 as (j & J1 & J2). apply H in F0 as (i & I1 & I2).
  destruct ks as [|k [|? ?]]; try discriminate Le. destruct j as [|[|j]]; try discriminate J1. destruct i as [|[|i]]; try discriminate I1. cbn in *. congruence.
Qed.

(** * Other witnesses *)
Theorem lost_refuted : exists evs ls pl, file evs ls None pl None /\ forall lib pf, exists c, read_catalogue lib pf evs = Ok c
  /\ (forall x, ~ In (UErr x) (c_items c)) /\ forall forms bls, Forall2 (entry forms) bls (units (c_items c)) -> pl <> concat bls.
Proof.
  exists (lf_stream cut_lines), (map lit cut_lines), cut_parsed. split; [exact cut_file|]. intros lib pf. eexists. split; [apply cut_read|].
  split; [intros x [H|[]]; discriminate H|]. intros forms bls F. exact (cut_lost forms bls _ F eq_refl).
Qed.
Definition oops_lines : list string := ["msgid ""a"""; "oops"]%string.
Theorem line_number_refuted : exists evs ls e pl tl x n, file evs ls e pl tl /\ read_catalogue demo_lib demo_pf evs = Err x
  /\ x = EParse n (lit "oops") [] /\ line_at ls 2 (lit "oops") /\ forall s, ~ line_at ls n s.
Proof.
  exists (lf_stream oops_lines), (map lit oops_lines), None. do 3 eexists. exists 3. split; [apply lf_file; [discriminate|reflexivity|vm_compute; reflexivity]|].
  split; [vm_compute; reflexivity|]. split; [reflexivity|]. split; [exists [lit "msgid ""a"""], []; split; reflexivity|].
  intros s (a & b & E & Le). apply (f_equal (@length str)) in E. rewrite app_length in E. cbn in E. lia.
Qed.
Definition headless_lines : list string := ["msgid_plural ""lost"""; "msgid ""a"""; "msgstr ""b"""]%string.
Theorem headless_refuted : exists evs ls pl n s r, file evs ls None pl None /\ pl = PMessage n [] (lit "msgid_plural") s :: r
  /\ forall lib pf, exists c, read_catalogue lib pf evs = Ok c /\ forall x, ~ In (UErr x) (c_items c).
Proof.
  exists (lf_stream headless_lines), (map lit headless_lines), (fst (parse_lines 1 (map lit headless_lines))). do 3 eexists.
  split; [apply lf_file; [discriminate|reflexivity|vm_compute; reflexivity]|]. split; [vm_compute; reflexivity|].
  intros lib pf. eexists. split; [vm_compute; reflexivity|]. intros x [H|[]]; discriminate H.
Qed.
(** * Files for examples *)
Definition surplus_lines : list string := ["msgid ""a"""; "msgstr ""b"""; "msgstr ""c"""]%string.
Definition ab_block : list po_line := simple_block 1 2 (lit "a") (lit "b").
Definition ab_unit : unit_ := simple_unit (lit "a") (lit "b").
Lemma ab_entry forms : unit_entry forms ab_block ab_unit.
Proof. split; [apply simple_entry|intros text; discriminate]. Qed.
Theorem first_unit_example :
  file (lf_stream cut_lines) (map lit cut_lines) None (simple_block 1 2 (lit "a") (lit "b") ++ [PMessage 3 [] (lit "msgid") (lit "c")]) None
  /\ unit_entry None (simple_block 1 2 (lit "a") (lit "b")) (simple_unit (lit "a") (lit "b"))
  /\ ends_at None (simple_block 1 2 (lit "a") (lit "b")) [PMessage 3 [] (lit "msgid") (lit "c")] None
  /\ demo_ids (read_catalogue demo_lib demo_pf (lf_stream cut_lines)) = [inl (lit "a")].
Proof.
  split; [exact cut_file|]. split; [apply ab_entry|]. split; [|vm_compute; reflexivity].
  apply (starter_ends None _ ab_unit); [apply ab_entry|]. right. do 4 eexists. split; [reflexivity|]. cbn; auto.
Qed.
Theorem entries_example : file (lf_stream cut_lines) (map lit cut_lines) None cut_parsed None
  /\ heading demo_pf [] cut_parsed None None [simple_unit (lit "a") (lit "b")] /\ entries None cut_parsed [simple_unit (lit "a") (lit "b")].
Proof.
  split; [exact cut_file|]. split; [constructor|]. exists [ab_block], [PMessage 3 [] (lit "msgid") (lit "c")]. split; [reflexivity|].
  split; [constructor; [apply ab_entry|constructor]|apply cut_incomplete].
Qed.
Lemma surplus_not_viable : ~ viable None (ab_block ++ [PMessage 3 [] (lit "msgstr") (lit "c")]).
Proof.
  intros V. refine (rest_not_begun None false ab_block (PMessage 3 [] (lit "msgstr") (lit "c")) [] None _ _ (or_introl V)). vm_compute. reflexivity.
Qed.
Theorem surplus_example : exists pl r, file (lf_stream surplus_lines) (map lit surplus_lines) None pl None
  /\ pl = [] ++ concat [simple_block 1 2 (lit "a") (lit "b")] ++ PMessage 3 [] (lit "msgstr") (lit "c") :: r
  /\ heading demo_pf [] (concat [simple_block 1 2 (lit "a") (lit "b")] ++ PMessage 3 [] (lit "msgstr") (lit "c") :: r) None None [simple_unit (lit "a") (lit "b")]
  /\ Forall2 (unit_entry None) [simple_block 1 2 (lit "a") (lit "b")] [simple_unit (lit "a") (lit "b")]
  /\ inner_line (PMessage 3 [] (lit "msgstr") (lit "c"))
  /\ ~ viable None (last [simple_block 1 2 (lit "a") (lit "b")] [] ++ [PMessage 3 [] (lit "msgstr") (lit "c")]).
Proof.
  eexists. exists []. split; [apply lf_file; [discriminate|reflexivity|vm_compute; reflexivity]|]. split; [reflexivity|]. split; [constructor|].
  split; [constructor; [apply ab_entry|constructor]|]. split; [|exact surplus_not_viable]. cbn. intuition discriminate.
Qed.
Theorem located_example : file (lf_stream surplus_lines) (map lit surplus_lines) None (fst (parse_lines 1 (map lit surplus_lines))) None
  /\ demo_ids (read_catalogue demo_lib demo_pf (lf_stream surplus_lines)) = [inl (lit "a"); inr (Some 3)].
Proof. split; [apply lf_file; [discriminate|reflexivity|vm_compute; reflexivity]|vm_compute; reflexivity]. Qed.
(** The hypotheses about later entries. *)
Definition sourceless_lines : list string := ["msgid ""a"""; "msgstr ""b"""; "# x"; "msgid """""; "msgstr ""c"""]%string.
Definition sourceless_keys : list po_line := [PMessage 4 [] (lit "msgid") []; PMessage 5 [] (lit "msgstr") (lit "c")].
Theorem sourceless_example : let pl := [] ++ concat [ab_block] ++ ([PComment 3 32 (lit "x")] ++ sourceless_keys) ++ [] in
  file (lf_stream sourceless_lines) (map lit sourceless_lines) None pl None /\ heading demo_pf [] pl None None [ab_unit] /\ Forall2 (unit_entry None) [ab_block] [ab_unit]
  /\ block_comments [PComment 3 32 (lit "x")] [] [Note Translator (lit "x")] [] []
  /\ keywords None false sourceless_keys None (MSimple [] None) None (MSimple [] (Some (lit "c")))
  /\ ends_at None ([PComment 3 32 (lit "x")] ++ sourceless_keys) [] None.
Proof.
  split; [apply lf_file; [discriminate|reflexivity|vm_compute; reflexivity]|]. split; [constructor|]. split; [constructor; [apply ab_entry|constructor]|].
  split; [apply bc_translator, bc_nil|]. split; [|reflexivity].
  apply (kws_intro None false [] None [] (MSimple [] None) [] None sourceless_keys); [constructor..|].
  apply (bd_simple None false [PMessage 4 [] (lit "msgid") []] [] [PMessage 5 [] (lit "msgstr") (lit "c")] (lit "c")); apply (own_line false).
Qed.
Definition context_lines : list string := ["msgid ""a"""; "msgstr ""b"""; "msgctxt ""c"""; "msgstr ""d"""]%string.
Theorem unfit_example : let inc := [PMessage 3 [] (lit "msgctxt") (lit "c")] in let l := PMessage 4 [] (lit "msgstr") (lit "d") in
  file (lf_stream context_lines) (map lit context_lines) None ([] ++ concat [ab_block] ++ inc ++ l :: []) None
  /\ heading demo_pf [] (concat [ab_block] ++ inc ++ l :: []) None None [ab_unit] /\ Forall2 (unit_entry None) [ab_block] [ab_unit]
  /\ awaited None inc (lit "msgid") /\ ~ begun None (inc ++ [l]).
Proof.
  cbv zeta. split; [apply lf_file; [discriminate|reflexivity|vm_compute; reflexivity]|]. split; [constructor|]. split; [constructor; [apply ab_entry|constructor]|].
  split.
  - apply (aw_id None false). apply (og_intro None false [] [] [] [] [] [] None [] (MSimple [] None) [PMessage 3 [] (lit "msgctxt") (lit "c")] (Some (lit "c"))); try constructor. apply (own_line false).
  - refine (rest_not_begun None false [PMessage 3 [] (lit "msgctxt") (lit "c")] (PMessage 4 [] (lit "msgstr") (lit "d")) [] None _ _). vm_compute. reflexivity.
Qed.
Theorem place_example : exists c, read_catalogue demo_lib demo_pf (lf_stream cut_lines) = Ok c
  /\ unit_at demo_lib demo_pf cut_parsed None c 0 None (simple_block 1 2 (lit "a") (lit "b")) (simple_unit (lit "a") (lit "b")).
Proof.
  eexists. split; [apply cut_read|]. eapply (ua_intro _ _ _ _ _ _ _ _ _ [] [] [PMessage 3 [] (lit "msgid") (lit "c")] [] []).
  - reflexivity.
  - apply pa_none. repeat split.
  - constructor.
  - reflexivity.
  - reflexivity.
  - apply ab_entry.
  - apply first_unit_example.
Qed.

(** A plural entry without source text, where the header should be. *)
Definition plural_header_lines : list string := ["msgid """""; "msgid_plural """""; "msgstr[0] ""Language: de\n"""; "msgstr[1] """""]%string.
Lemma plural_header : exists u, u_message u = MPlural (Plural None [] [] [lit "Language: de" ++ [10]; []])
  /\ forall lib pf, read_catalogue lib pf (lf_stream plural_header_lines) = Ok (Catalogue [] [] [] (lang_invariant lib) [UOk u]).
Proof. eexists (Unit _ _ _ _ _ _ _ _ _ _). split; [cbn; reflexivity|]. intros lib pf. vm_compute. reflexivity. Qed.
