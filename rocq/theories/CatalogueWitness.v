(** A catalogue with a header, a plural rule and a plural entry, written and read back. *)
From Coq Require Import String Arith NArith ZArith Bool List Lia.
From Verif Require Import ModelBase ModelUtf8 ModelRegex ModelLine ModelFormula ModelData ModelSource ModelReader
  SpecLine SpecFormula SpecSource SpecReader SpecBlock SpecHeader SpecFile SpecWriter BaseFacts LineFacts LineThms DecFacts HeaderFacts FileFacts FileIntro
  HeaderWitness WriterFacts RoundWitness.
Import ListNotations.
Local Open Scope N_scope.

Definition sample_head : list string := ["# By me"; "msgid """""; "msgstr """""; """Language: de\n"""; """Plural-Forms: nplurals=2; """; """plural=n != 1;\n"""]%string.
Definition sample_body : list string := [""; "msgid ""one file"""; "msgid_plural ""%d files"""; "msgstr[0] ""eine Datei"""; "msgstr[1] ""%d Dateien"""]%string.
Definition sample_props : list (str * str) := [(lit "Language", lit "de"); (lit "Plural-Forms", lit "nplurals=2; plural=n != 1;")].
Definition sample_forms : plural_forms := PluralForms (NBin BNe NVar (NNum 1)) 2 (lit "nplurals=2; plural=n != 1;") (lit "n != 1").
Definition sample_message : message := MPlural (Plural (Some sample_forms) (lit "one file") (lit "%d files") [lit "eine Datei"; lit "%d Dateien"]).
Definition sample_unit : unit_ := Unit None sample_message None (MSimple [] None) [] [] [] [] StFinal false.
Definition last_ok (s : str) : bool := match rev s with c :: _ => negb (is_ws c) | [] => true end.
Lemma last_by s : last_ok s = true -> not_white_last s.
Proof. intros H c r -> W. unfold last_ok in H. rewrite rev_unit in H. apply is_ws_white in W. rewrite W in H. discriminate. Qed.

Theorem sample_header : writes_header [Note Translator (lit "By me")] [] sample_props (map lit sample_head).
Proof.
  refine (wh_intro _ _ _ [] [] (map lit (firstn 1 sample_head)) (map lit (firstn 1 (skipn 1 sample_head))) (map lit (skipn 2 sample_head)) _ _ _ _).
  - apply (wc_note Translator); [cline|constructor].
  - unfold sample_props. repeat apply Forall_cons; try apply Forall_nil; (split; [split; [intros I; cbn in I; intuition discriminate|split; [one|split; [apply first_by; reflexivity|apply last_by; reflexivity]]]|split; [one|split; [apply first_by; reflexivity|apply last_by; reflexivity]]]).
  - change (@nil char) with (@nil char ++ concat []) at 2. constructor; [sline|constructor].
  - change (header_text sample_props) with ([] ++ concat [lit "Language: de" ++ [10]; lit "Plural-Forms: nplurals=2; "; lit "plural=n != 1;" ++ [10]]). constructor; [sline|].
    repeat constructor; (apply cont_line_by; [one|vm_compute; reflexivity]).
Qed.
Theorem sample_rule : header_forms_of demo_pf sample_props (Some sample_forms).
Proof. apply (hf_some _ _ (lit "nplurals=2; plural=n != 1;")); [reflexivity|discriminate|]. apply forms_parse_iff; [one|vm_compute; reflexivity]. Qed.
Theorem sample_units : writes_units (Some sample_forms) [sample_unit] (map lit sample_body).
Proof.
  change (map lit sample_body) with ([] :: map lit (skipn 1 sample_body) ++ []). apply wus_blank; [intros c []|]. apply wus_unit; [intros t; discriminate| |constructor].
  refine (wu_intro _ [] [] [] [] [] false None [] (MSimple [] None) [] None [] sample_message (map lit (skipn 1 sample_body)) StFinal _ _ _ _ _ _); try constructor.
  - refine (wm_plural _ false (lit "one file") (lit "%d files") [lit "eine Datei"; lit "%d Dateien"] (map lit (firstn 1 (skipn 1 sample_body))) (map lit (firstn 1 (skipn 2 sample_body)))
      (map lit (skipn 3 sample_body)) _ _ _ _ _); [discriminate|vm_compute; discriminate| | |].
    + string_whole (lit "one file").
    + string_whole (lit "%d files").
    + apply (wf_cons (own false) 0 (lit "msgstr[0]") (lit "eine Datei") [lit "%d Dateien"] (map lit (firstn 1 (skipn 3 sample_body))) (map lit (firstn 1 (skipn 4 sample_body)))).
      * apply msgstr_kw_iff. reflexivity.
      * string_whole (lit "eine Datei").
      * change (map lit (firstn 1 (skipn 4 sample_body))) with (map lit (firstn 1 (skipn 4 sample_body)) ++ []).
        apply (wf_cons (own false) 1 (lit "msgstr[1]")); [apply msgstr_kw_iff; reflexivity| |constructor].
        rewrite <- (app_nil_r (lit "%d Dateien")). apply (ws_intro _ _ (lit "%d Dateien") _ [] []); [|constructor]. apply string_line_by; [one|vm_compute; reflexivity|].
        apply (kw_msgstr_n 49 []); [lia|intros c []].
  - apply so_final with (lit "eine Datei"); [intros []|left; reflexivity|discriminate].
Qed.
Theorem sample_catalogue : let ls := (sample_head ++ sample_body)%list in exists bs,
  writes_header [Note Translator (lit "By me")] [] sample_props (map lit sample_head) /\ NoDup (map fst sample_props) /\ header_forms_of demo_pf sample_props (Some sample_forms)
  /\ writes_units (Some sample_forms) [sample_unit] (map lit sample_body) /\ contents bs None (map lit sample_head ++ map lit sample_body) None /\ delivers (lf_stream ls) bs None
  /\ read_catalogue demo_lib demo_pf (lf_stream ls) = Ok (Catalogue [Note Translator (lit "By me")] [] sample_props (lit "de") [UOk sample_unit]).
Proof.
  cbv zeta. destruct (lf_file (sample_head ++ sample_body) _ _ ltac:(discriminate) eq_refl (surjective_pairing _)) as (bs & f & D & C & _).
  assert (f = None) as ->. { unfold lf_stream in D. inversion D; subst. match goal with H : delivers [] _ _ |- _ => inversion H; subst end. reflexivity. }
  exists bs. rewrite <- map_app. split; [exact sample_header|]. split; [repeat constructor; cbn; intuition discriminate|]. split; [exact sample_rule|]. split; [exact sample_units|].
  split; [exact C|]. split; [exact D|]. vm_compute. reflexivity.
Qed.
