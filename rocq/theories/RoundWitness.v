(** Files for the examples of writing and reading. *)
From Coq Require Import String Arith NArith ZArith Bool List Lia.
From Verif Require Import ModelBase ModelUtf8 ModelRegex ModelLine ModelFormula ModelData ModelSource ModelReader
  SpecLine SpecFormula SpecSource SpecReader SpecBlock SpecHeader SpecFile SpecWriter BaseFacts LineFacts LineThms DecFacts SourceFacts FormulaFacts FormulaThms EvalFacts
  MapFacts CommentFacts HeaderFacts FileFacts FileIntro BlockThms EntryThms HeaderThms HeaderWitness SplitFacts WriterFacts WritableFacts SelectFacts FormulaWitness EvalFacts FormulaThms SplitFacts.
Import ListNotations.
Local Open Scope N_scope.

(** * Lines checked by computation *)
Lemma string_line_by flags kw p s : one_line s -> parse_line s 1 = Some (PMessage 1 flags (reported_tag flags kw) p) -> keyword kw ->
  string_line flags (Some kw) p s.
Proof.
  intros O H K. apply parse_line_message in H as (_ & kw' & body & Q & E & U); [|exact O]. exists body. split; [|exact U].
  assert (kw = kw') as <-; [|exact Q]. unfold reported_tag in E. destruct (_ || _); [injection E as ->|]; auto.
Qed.
Lemma cont_line_by flags p s : one_line s -> parse_line s 1 = Some (PCont 1 flags p) -> string_line flags None p s.
Proof. intros O H. apply parse_line_cont in H as (_ & body & Q & U); [|exact O]. exists body. split; assumption. Qed.
Lemma comment_line_by k w t s : s = [35; k] ++ w ++ t -> blanks w -> not_white_first t -> one_line s -> parse_line s 1 = Some (PComment 1 k t) -> comment_line k t s.
Proof. intros E B Nf O H. exists w. split; [exact B|]. split; [exact Nf|]. split; [exact E|]. apply parse_line_comment in H as (_ & _ & H); assumption. Qed.
Definition one_lineb (s : str) : bool := negb (existsb (N.eqb 10) s).
Lemma one_line_by s : one_lineb s = true -> one_line s.
Proof. unfold one_lineb. rewrite negb_true_iff. intros H I. rewrite (proj2 (existsb_exists _ _)) in H; [discriminate|]. exists 10. split; [exact I|reflexivity]. Qed.
Lemma first_by c s : is_ws c = false -> not_white_first (c :: s).
Proof. intros H x r E. injection E as <- _. intros W. apply is_ws_white in W. congruence. Qed.
Ltac one := apply one_line_by; vm_compute; reflexivity.
Ltac sline := apply string_line_by; [one|vm_compute; reflexivity|constructor].
Ltac string_whole p := rewrite <- (app_nil_r p); apply (ws_intro _ _ p _ [] []); [sline|constructor].
Ltac cline := first [eapply (comment_line_by _ [32]); [reflexivity|..] | eapply (comment_line_by _ []); [reflexivity|..]];
  [first [exact space_blanks|intros ? []]|apply first_by; vm_compute; reflexivity|one|vm_compute; reflexivity].

Definition round_lines : list string :=
  [""; "# first"; "#, fuzzy, c-format"; "#. for you"; "#: a.c:1 b.c:2"; "#=free"; "#| msgctxt ""k"""; "#| msgid ""old"""; "msgctxt ""ctx"""; "msgid """"";
   """a\n"""; """b"""; "msgid_plural ""p"""; "msgstr[0] ""x"""; "msgstr[1] """""; " "; "#~ msgid ""gone"""; "#~ msgstr ""away"""; "#~ ""!"""]%string.
Definition round_unit1 : unit_ :=
  Unit (Some (lit "ctx")) (MPlural (Plural None ([97; 10] ++ lit "b") (lit "p") [lit "x"; []])) (Some (lit "k")) (MSimple (lit "old") None)
    [lit "fuzzy"; lit "c-format"] [Note Translator (lit "first"); Note Developer (lit "for you")] [lit "a.c:1"; lit "b.c:2"]
    [Comment 61 (lit "free")] StNeedsWork false.
Definition round_unit2 : unit_ := Unit None (MSimple (lit "gone") (Some (lit "away!"))) None (MSimple [] None) [] [] [] [] StFinal true.
Theorem round_written : writes_units None [round_unit1; round_unit2] (map lit round_lines).
Proof.
  change (map lit round_lines) with ([] :: map lit (firstn 14 (skipn 1 round_lines)) ++ ([32] :: (map lit (skipn 16 round_lines) ++ []))).
  apply wus_blank; [intros c []|]. apply wus_unit; [intros t; discriminate| |apply wus_blank; [exact space_blanks|]; apply wus_unit; [intros t; discriminate| |constructor]].
  - refine (wu_intro None [lit "fuzzy"; lit "c-format"] [Note Translator (lit "first"); Note Developer (lit "for you")] [lit "a.c:1"; lit "b.c:2"]
      [Comment 61 (lit "free")] (map lit (firstn 5 (skipn 1 round_lines))) false (Some (lit "k")) (map lit (firstn 1 (skipn 6 round_lines)))
      (MSimple (lit "old") None) (map lit (firstn 1 (skipn 7 round_lines))) (Some (lit "ctx")) (map lit (firstn 1 (skipn 8 round_lines)))
      (MPlural (Plural None ([97; 10] ++ lit "b") (lit "p") [lit "x"; []])) (map lit (firstn 6 (skipn 9 round_lines))) StNeedsWork _ _ _ _ _ _).
    + apply (wc_note Translator); [cline|]. apply (wc_flags [lit "fuzzy"; lit "c-format"] _ []); [discriminate| |cline|].
      { repeat constructor; try (apply first_by; vm_compute; reflexivity); try (intros c s E; apply (f_equal (@rev N)) in E; rewrite rev_app_distr in E; injection E as <- _; intros W; apply is_ws_white in W; discriminate W); vm_compute; intuition discriminate. }
      apply (wc_note Developer); [cline|]. apply (wc_locations [lit "a.c:1"; lit "b.c:2"] _ [] [] []); [|cline|].
      { repeat constructor; try discriminate; intros c I W; apply is_ws_white in W; cbn in I; repeat destruct I as [<-|I]; try contradiction; discriminate W. }
      apply wc_other; [cbn; intuition discriminate| |constructor].
      cline.
    + constructor. string_whole (lit "k").
    + constructor. string_whole (lit "old").
    + constructor. string_whole (lit "ctx").
    + refine (wm_plural None false ([97; 10] ++ lit "b") (lit "p") [lit "x"; []] (map lit (firstn 3 (skipn 9 round_lines))) (map lit (firstn 1 (skipn 12 round_lines)))
        (map lit (firstn 2 (skipn 13 round_lines))) _ _ _ _ _); [discriminate|vm_compute; discriminate| | |].
      * change ([97; 10] ++ lit "b") with ([] ++ concat [[97; 10]; lit "b"]). constructor; [sline|]. repeat constructor; (apply cont_line_by; [one|vm_compute; reflexivity]).
      * string_whole (lit "p").
      * apply (wf_cons (own false) 0 (lit "msgstr[0]") (lit "x") [[]] (map lit (firstn 1 (skipn 13 round_lines))) (map lit (firstn 1 (skipn 14 round_lines)))).
        -- apply msgstr_kw_iff. reflexivity.
        -- string_whole (lit "x").
        -- change (map lit (firstn 1 (skipn 14 round_lines))) with (map lit (firstn 1 (skipn 14 round_lines)) ++ []).
           apply (wf_cons (own false) 1 (lit "msgstr[1]")); [apply msgstr_kw_iff; reflexivity| |constructor].
           change (@nil char) with (@nil char ++ concat []). constructor; [|constructor]. apply string_line_by; [one|vm_compute; reflexivity|].
           apply (kw_msgstr_n 49 []); [lia|intros c []].
    + apply so_fuzzy. left. reflexivity.
  - refine (wu_intro None [] [] [] [] [] true None [] (MSimple [] None) [] None [] (MSimple (lit "gone") (Some (lit "away!"))) (map lit (skipn 16 round_lines)) StFinal _ _ _ _ _ _); try constructor.
    + refine (wm_simple None true (lit "gone") (Some (lit "away!")) (map lit (firstn 1 (skipn 16 round_lines))) (map lit (skipn 17 round_lines)) _ _ _); [discriminate| |].
      * string_whole (lit "gone").
      * change (opt_str (Some (lit "away!"))) with (lit "away" ++ concat [lit "!"]). constructor; [sline|]. repeat constructor. apply cont_line_by; [one|vm_compute; reflexivity].
    + apply so_final with (lit "away!"); [intros []|left; reflexivity|discriminate].
Qed.

(** * Strings cut differently *)
Definition whole_lines : list string := ["msgid ""ab"""; "msgstr """""; """c"""]%string.
Definition pieces_lines : list string := ["msgid """""; """a"""; """b"""; "msgstr ""c"""]%string.
Theorem split_example : exists pl pl', file (lf_stream whole_lines) (map lit whole_lines) None pl None
  /\ file (lf_stream pieces_lines) (map lit pieces_lines) None pl' None /\ resplit (fun _ _ => True) pl pl'
  /\ demo_ids (read_catalogue demo_lib demo_pf (lf_stream pieces_lines)) = [inl (lit "ab")].
Proof.
  do 2 eexists. split; [apply lf_file; [discriminate|reflexivity|vm_compute; reflexivity]|].
  split; [apply lf_file; [discriminate|reflexivity|vm_compute; reflexivity]|]. split; [|vm_compute; reflexivity].
  assert (forall p n s, strings p [PCont n p s] s) as S1 by (intros p n s; rewrite <- (app_nil_r s) at 2; constructor; constructor).
  refine (rs_field _ 1 1 [] (lit "msgid") (lit "ab") [] [] [PCont 2 [] (lit "a"); PCont 3 [] (lit "b")] [] (lit "ab")
           [PMessage 2 [] (lit "msgstr") []; PCont 3 [] (lit "c")] [PMessage 4 [] (lit "msgstr") (lit "c")] Logic.I (st_nil _) _ eq_refl _ _ _).
  - apply (st_cons [] 2 (lit "a")). apply S1.
  - intros n s r; discriminate.
  - intros n s r; discriminate.
  - refine (rs_field _ 2 4 [] (lit "msgstr") [] (lit "c") [PCont 3 [] (lit "c")] [] (lit "c") [] [] [] Logic.I (S1 _ _ _) (st_nil _) eq_refl _ _ (rs_nil _)); intros n s r; discriminate.
Qed.

(** * Selection *)
Definition select_lines (formula : string) : list string :=
  ["msgid """""; "msgstr ""Plural-Forms: " ++ formula ++ "\n"""; "msgid ""a"""; "msgid_plural ""b"""; "msgstr[0] ""x"""; "msgstr[1] ""y"""]%string.
Definition selected (pf : platform) (formula : string) (n : N) : option (option str) :=
  match read_catalogue demo_lib pf (lf_stream (select_lines formula)) with
  | Ok c => match c_items c with [UOk u] => msg_get_plural_text pf (u_message u) n | _ => None end
  | _ => None
  end.
Definition big_formula : string := "nplurals=2; plural=n==5?4294967297:0;".
Theorem selection_truncated : exists evs c v p f, read_catalogue demo_lib release32 evs = Ok c /\ c_items c = [UOk v] /\ u_message v = MPlural p
  /\ pl_forms p = Some f /\ pf_count f = 2 /\ length (pl_values p) = 2%nat /\ value (pf_formula f) 5 = Some 4294967297%Z
  /\ exists s, msg_get_plural_text release32 (u_message v) 5 = Some (Some s).
Proof.
  exists (lf_stream (select_lines big_formula)).
  destruct (read_catalogue demo_lib release32 (lf_stream (select_lines big_formula))) as [c| |] eqn:E; vm_compute in E; [|discriminate E..].
  injection E as <-. do 4 eexists. split; [reflexivity|]. cbn [c_items]. split; [reflexivity|]. cbn [u_message]. split; [reflexivity|].
  cbn [pl_forms]. split; [reflexivity|]. split; [reflexivity|]. split; [reflexivity|]. split; [vm_compute; reflexivity|].
  eexists. vm_compute. reflexivity.
Qed.
