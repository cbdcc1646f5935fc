(** Lines that end with a backslash, compared with GNU gettext (C93). *)
From Coq Require Import String Arith NArith ZArith Bool List Lia.
From Verif Require Import ModelBase ModelUtf8 ModelLine ModelFormula ModelData ModelSource ModelReader
  SpecLine SpecSource SpecReader SpecBlock SpecHeader SpecFile SpecBackslash FileIntro BackslashFacts.
Import ListNotations.
Local Open Scope N_scope.

(** C93: false of the code that a backslash at the end of a line joins it with the next one.
    A line that ends with one is refused unless it is a comment, *)
Theorem C93_only_comments : forall s n l, one_line s -> ends_in_backslash s -> parse_line s n = Some l -> exists k t, l = PComment n k t /\ ends_in_backslash (k :: t).
Proof. exact backslash_line. Qed.
Print Assumptions C93_only_comments.
(** so that in a file that is read without error gettext sees the same lines, if no comment
    ends with a backslash. *)
Theorem C93_same_lines_partial : forall lib pf evs ls e pl tl c, file evs ls e pl tl -> read_catalogue lib pf evs = Ok c -> (forall x, ~ In (UErr x) (c_items c)) ->
  (forall n k t, In (PComment n k t) pl -> ~ ends_in_backslash (k :: t)) -> forall ls', joined ls ls' <-> ls' = ls.
Proof. exact nothing_joined. Qed.
Print Assumptions C93_same_lines_partial.
(** A string that goes on in the next line makes reading fail. *)
Theorem C93_string_refuted : let ls := ["msgid ""a\"; "b"""; "msgstr ""c"""]%string in let ls' := ["msgid ""ab"""; "msgstr ""c"""]%string in
  exists u, joined (map lit ls) (map lit ls') /\ forall lib pf, (exists c, read_catalogue lib pf (lf_stream ls') = Ok c /\ c_items c = [UOk u])
  /\ exists x, read_catalogue lib pf (lf_stream ls) = Err x.
Proof. exact split_string_refuted. Qed.
Print Assumptions C93_string_refuted.
(** The line after a comment with a backslash at its end is read, although it is part of the comment in gettext. *)
Theorem C93_comment_refuted : let ls := ["# C:\"; "msgid ""a"""; "msgstr ""b"""]%string in let ls' := ["# C:msgid ""a"""; "msgstr ""b"""]%string in
  exists u, joined (map lit ls) (map lit ls') /\ forall lib pf, (exists c, read_catalogue lib pf (lf_stream ls) = Ok c /\ c_items c = [UOk u])
  /\ exists c x, read_catalogue lib pf (lf_stream ls') = Ok c /\ c_items c = [UErr x].
Proof. exact comment_joined_refuted. Qed.
Print Assumptions C93_comment_refuted.
Example C93_example : parse_line (lit "#\") 1 = Some (PComment 1 92 []) /\ parse_line (lit "#: C:\") 1 = Some (PComment 1 58 (lit "C:\")) /\ parse_line (lit """a\") 1 = None
  /\ ends_in_backslash (lit "#: C:\") /\ joined [lit "a\"; lit "b\"; lit "c"; lit "d\"] [lit "abc"; lit "d"].
Proof.
  repeat split; try (vm_compute; reflexivity); [exists (lit "#: C:"); reflexivity|].
  apply (jn_join (lit "a") _ (lit "bc")), (jn_join (lit "b") _ (lit "c")). constructor; [|exact (jn_end (lit "d"))].
  intros (t & E). apply (f_equal (fun l => last l 0)) in E. rewrite last_last in E. discriminate.
Qed.
