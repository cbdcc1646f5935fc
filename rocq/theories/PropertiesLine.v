(** Properties of the line layer (C01-C06, C10/C48 line level). *)
From Coq Require Import String Arith NArith Bool List Lia.
From Verif Require Import ModelBase ModelRegex ModelLine SpecLine BaseFacts LineFacts LineThms LineMore.
Import ListNotations.
Local Open Scope N_scope.

(** C01 *)
Theorem C01_unescape_inverts_escape : forall s, unescape (escape s) = s.
Proof. exact unescape_escape. Qed.
Print Assumptions C01_unescape_inverts_escape.

Theorem C01_written_string_is_read_back : forall kw s n, keyword kw ->
  parse_line (kw ++ [32; 34] ++ escape s ++ [34]) n = Some (PMessage n [] kw s).
Proof. exact written_string_read_back. Qed.
Print Assumptions C01_written_string_is_read_back.

Theorem C01_written_continuation_is_read_back : forall s n,
  parse_line ([34] ++ escape s ++ [34]) n = Some (PCont n [] s).
Proof. exact written_cont_read_back. Qed.
Print Assumptions C01_written_continuation_is_read_back.

Example C01_example : escape [97; 10; 34; 92; 110] = [97; 92; 110; 92; 34; 92; 92; 110]
  /\ unescape [97; 92; 110; 92; 34; 92; 92; 110] = [97; 10; 34; 92; 110]
  /\ escape [9; 13] = [92; 116; 92; 114] /\ unescape [92; 116; 92; 114] = [9; 13]
  /\ parse_line (lit "msgid ""\t\\t""") 3 = Some (PMessage 3 [] (lit "msgid") [9; 92; 116]).
Proof. repeat split; vm_compute; reflexivity. Qed.

(** C02 *)
Theorem C02_unescape_is_the_single_pass : forall s t, unescape s = t <-> unescapes s t.
Proof. exact unescape_iff. Qed.
Print Assumptions C02_unescape_is_the_single_pass.

Theorem C02_single_pass_deterministic : forall s t t', unescapes s t -> unescapes s t' -> t = t'.
Proof. exact unescapes_det. Qed.
Print Assumptions C02_single_pass_deterministic.

Theorem C02_lookup_never_out_of_bounds : forall c, replace_char c <> None.
Proof. exact replace_char_no_panic. Qed.
Print Assumptions C02_lookup_never_out_of_bounds.

Example C02_example : unescape [92; 97; 92; 92; 110; 92] = [92; 97; 92; 110; 92].
Proof. vm_compute; reflexivity. Qed.

(** C03 *)
Theorem C03_message_lines : forall s n m flags tag text, one_line s ->
  (parse_line s n = Some (PMessage m flags tag text) <->
   m = n /\ exists kw body, quoted_line s flags (Some kw) body
             /\ tag = reported_tag flags kw /\ unescapes body text).
Proof. exact parse_line_message. Qed.
Print Assumptions C03_message_lines.

Theorem C03_continuation_lines : forall s n m flags text, one_line s ->
  (parse_line s n = Some (PCont m flags text) <->
   m = n /\ exists body, quoted_line s flags None body /\ unescapes body text).
Proof. exact parse_line_cont. Qed.
Print Assumptions C03_continuation_lines.

Theorem C03_decomposition_unique : forall s f kw b f' kw' b',
  quoted_line s f kw b -> quoted_line s f' kw' b' -> f = f' /\ kw = kw' /\ b = b'.
Proof. exact quoted_line_unique. Qed.
Print Assumptions C03_decomposition_unique.

Example C03_example :
  parse_line (lit "  #~|   msgid ""a ""b"" ") 7 = Some (PMessage 7 (lit "~|") (lit "|msgid") (lit "a ""b"))
  /\ parse_line (lit "#~ ""tail""") 8 = Some (PCont 8 (lit "~") (lit "tail"))
  /\ parse_line (lit "msgstr[01] ""x""") 9 = None
  /\ parse_line (lit "msgstr[10]""x""") 9 = Some (PMessage 9 [] (lit "msgstr[10]") (lit "x")).
Proof. repeat split; vm_compute; reflexivity. Qed.

(** C04 *)
Theorem C04_comment_lines : forall s n m kind content, one_line s ->
  (parse_line s n = Some (PComment m kind content) <->
   m = n /\ comment_shape s kind content /\ forall flags kw body, ~ quoted_line s flags kw body).
Proof. exact parse_line_comment. Qed.
Print Assumptions C04_comment_lines.

Theorem C04_blank_lines : forall s n, one_line s -> (parse_line s n = Some PBlank <-> blanks s).
Proof. exact parse_line_blank. Qed.
Print Assumptions C04_blank_lines.

Theorem C04_rejected_lines : forall s n, one_line s ->
  (parse_line s n = None <-> ~ blanks s /\ (forall flags kw body, ~ quoted_line s flags kw body)
                            /\ forall kind content, ~ comment_shape s kind content).
Proof. exact parse_line_none. Qed.
Print Assumptions C04_rejected_lines.

Example C04_example :
  parse_line (lit " #. a note  ") 3 = Some (PComment 3 46 (lit "a note  "))
  /\ parse_line (lit "#") 3 = Some (PComment 3 32 [])
  /\ parse_line (lit "#text") 3 = Some (PComment 3 116 (lit "ext"))
  /\ parse_line (lit " ") 3 = Some PBlank
  /\ parse_line [160; 8195] 3 = Some PBlank
  /\ parse_line (lit "msgid x") 3 = None.
Proof. repeat split; vm_compute; reflexivity. Qed.

(** C05 is false: a translator comment whose text is quoted (or looks like a keyword with
    a string) is read as a continuation (a message) line. *)
Theorem C05_comments_are_not_strings_refuted :
  exists text n, one_line text /\ parse_line (lit "# " ++ text) n = Some (PCont n [] (lit "x")).
Proof. exact comment_taken_for_string. Qed.
Print Assumptions C05_comments_are_not_strings_refuted.

(** The strongest true variant: every other text is a comment. *)
Theorem C05_other_comments_are_not_strings_partial : forall text n, one_line text -> ~ string_text text ->
  exists w c, text = w ++ c /\ blanks w /\ not_white_first c /\
  parse_line (lit "# " ++ text) n = Some (PComment n 32 c).
Proof. exact free_comment. Qed.
Print Assumptions C05_other_comments_are_not_strings_partial.

(** Exactly these texts are affected. *)
Theorem C05_affected_exact_partial : forall text n, one_line text ->
  (string_text text <-> exists t, parse_line (lit "# " ++ text) n = Some (PCont n [] t)
     \/ exists k, keyword k /\ parse_line (lit "# " ++ text) n = Some (PMessage n [] k t)).
Proof. exact string_text_affected. Qed.
Print Assumptions C05_affected_exact_partial.
Theorem C05_only_quoted_texts_are_affected_partial : forall text, string_text text ->
  exists a b c, text = a ++ [34] ++ b ++ [34] ++ c.
Proof. exact string_text_two_quotes. Qed.
Print Assumptions C05_only_quoted_texts_are_affected_partial.

Example C05_example :
  parse_line (lit "# ""quoted""") 1 = Some (PCont 1 [] (lit "quoted"))
  /\ parse_line (lit "# msgid ""x""") 1 = Some (PMessage 1 [] (lit "msgid") (lit "x"))
  /\ parse_line (lit "# say ""x"" twice") 1 = Some (PComment 1 32 (lit "say ""x"" twice")).
Proof. repeat split; vm_compute; reflexivity. Qed.

(** C06, for every kind of comment that is not a marker *)
Theorem C06_special_comments_are_comments : forall w kind w2 content n,
  blanks w -> blanks w2 -> not_white_first content -> one_line (w ++ [35; kind] ++ w2 ++ content) ->
  ~ white kind -> ~ In kind [34; 109; 124; 126] ->
  parse_line (w ++ [35; kind] ++ w2 ++ content) n = Some (PComment n kind content).
Proof. exact hash_kind_comment. Qed.
Print Assumptions C06_special_comments_are_comments.

Example C06_example :
  parse_line (lit "#: ""a"" ") 2 = Some (PComment 2 58 (lit """a"" "))
  /\ parse_line (lit "#, msgid ""a""") 2 = Some (PComment 2 44 (lit "msgid ""a"""))
  /\ parse_line (lit "#.""a""") 2 = Some (PComment 2 46 (lit """a""")).
Proof. repeat split; vm_compute; reflexivity. Qed.

(** C10, line level *)
Theorem C10_indentation_insignificant : forall w s n,
  blanks w -> one_line (w ++ s) -> parse_line (w ++ s) n = parse_line s n.
Proof. exact parse_line_indent. Qed.
Print Assumptions C10_indentation_insignificant.

Example C10_line_example : parse_line (lit "   msgid ""x""") 4 = parse_line (lit "msgid ""x""") 4.
Proof. vm_compute; reflexivity. Qed.

(** C48, line level: a line whose first non-blank character is none of # quote m *)
Theorem C48_bad_first_character : forall w c r n,
  blanks w -> one_line (w ++ c :: r) -> ~ white c -> ~ In c [34; 35; 109] ->
  parse_line (w ++ c :: r) n = None.
Proof. exact bad_first_char. Qed.
Print Assumptions C48_bad_first_character.

Example C48_line_example : parse_line (65279 :: lit "msgid """"") 1 = None.
Proof. vm_compute; reflexivity. Qed.
