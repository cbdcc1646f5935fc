(** Messages as GNU gettext writes them (C99). *)
From Coq Require Import String Arith NArith ZArith Bool List Lia.
From Verif Require Import ModelBase ModelUtf8 ModelLine ModelFormula ModelData ModelSource ModelReader
  SpecLine SpecFormula SpecSource SpecReader SpecBlock SpecHeader SpecFile SpecWriter SpecExtracted SpecMarks SpecOutput LineThms IndepFacts MapFacts FlagFacts OutputFacts.
Import ListNotations.
Local Open Scope N_scope.

(** C99: false of the code that what gettext writes is read back.  What is read, if the comments are no
    strings, locations have no white space inside, ids are not empty and there are no more forms than the
    header defines: the messages with escapes instead of some control characters, and with
    unindented comments; *)
Theorem C99_output_partial : forall lib pf hls v ps forms ms ls bs evs, heading_text pf hls v ps forms -> output_file ms ls -> Forall (readable forms) ms ->
  contents bs None (hls ++ ls) None -> delivers evs bs None ->
  exists c ms' us, read_catalogue lib pf evs = Ok c /\ header_shown lib v ps c /\ c_items c = map UOk us /\ Forall2 altered ms ms' /\ Forall2 (conveys forms) ms' us.
Proof. exact output_read. Qed.
Print Assumptions C99_output_partial.
(** so the messages themselves exactly if there are no such characters, and no comment is indented. *)
Theorem C99_exact_partial : forall lib pf hls v ps forms ms ls bs evs, heading_text pf hls v ps forms -> output_file ms ls -> Forall (readable forms) ms ->
  contents bs None (hls ++ ls) None -> delivers evs bs None ->
  exists c us, read_catalogue lib pf evs = Ok c /\ header_shown lib v ps c /\ c_items c = map UOk us /\ (Forall2 (conveys forms) ms us <-> Forall ordinary ms).
Proof. exact output_exact. Qed.
Print Assumptions C99_exact_partial.
(** Different messages, of which one has a control character in its text, are read alike. *)
Theorem C99_confused_refuted : exists m m' ls ls' u, m <> m' /\ output_file [m] ls /\ output_file [m'] ls' /\ readable None m /\ readable None m' /\ conveys None m' u
  /\ forall lib pf, exists c c', read_catalogue lib pf (output_stream ls) = Ok c /\ read_catalogue lib pf (output_stream ls') = Ok c' /\ c_items c = [UOk u] /\ c_items c' = [UOk u].
Proof. exact output_confused. Qed.
Print Assumptions C99_confused_refuted.
(** A message with a context and an empty id, which gettext allows, is refused. *)
Theorem C99_idless_refuted : exists m ls, output_file [m] ls /\ ordinary m /\ gm_context m = Some (lit "c") /\ gm_id m = []
  /\ forall lib pf, exists c e, read_catalogue lib pf (output_stream ls) = Ok c /\ c_items c = [UErr e].
Proof. exact output_idless. Qed.
Print Assumptions C99_idless_refuted.
Definition big_msg : gmsg :=
  GMsg [lit "t"; []] [lit "e"] [[lit "a.c:1"; lit "b.c:2"]; [lit "c.c:3"]] [lit "fuzzy"; lit "c-format"] (Some (lit "x")) (Some (lit "p", Some (lit "q")))
    (Some (lit "c")) (lit "i" ++ [10] ++ lit "j") (inr (lit "k""", [lit "\"; [9]])) false.
Definition big_lines : list str :=
  [[]; lit "# t"; lit "#"; lit "#. e"; lit "#: a.c:1 b.c:2"; lit "#: c.c:3"; lit "#, fuzzy, c-format"; lit "#| msgctxt ""x"""; lit "#| msgid ""p"""; lit "#| msgid_plural ""q""";
   lit "msgctxt ""c"""; lit "msgid """""; lit """i\n"""; lit """j"""; lit "msgid_plural ""k\"""""; lit "msgstr[0] ""\\"""; lit "msgstr[1] ""\t"""].
Example C99_example : output_file [big_msg] big_lines /\ readable None big_msg /\ ordinary big_msg
  /\ match read_catalogue demo_lib demo_pf (output_stream big_lines) with
     | Ok c => match c_items c with [UOk u] => conveys None big_msg u | _ => False end
     | _ => False end.
Proof.
  split; [|split; [|split]].
  - exists [tl big_lines]. split; [|reflexivity]. constructor; [|constructor].
    apply (om_intro [lit "t"; []] [lit "e"] [[lit "a.c:1"; lit "b.c:2"]; [lit "c.c:3"]] [lit "fuzzy"; lit "c-format"] (Some (lit "x")) (Some (lit "p", Some (lit "q")))
      (Some (lit "c")) (lit "i" ++ [10] ++ lit "j") (inr (lit "k""", [lit "\"; [9]])) false [_] [_; _] [_] [_; _; _] [_; _; _]).
    + constructor. exact (one_piece (false, true) (lit "msgctxt") (lit "x")).
    + apply (op_some _ (lit "p") (Some (lit "q")) [_] [_]); [exact (one_piece (false, true) (lit "msgid") (lit "p"))|constructor; exact (one_piece (false, true) (lit "msgid_plural") (lit "q"))].
    + constructor. exact (one_piece (false, false) (lit "msgctxt") (lit "c")).
    + exact (os_intro (false, false) (lit "msgid") [] [lit "i" ++ [10]; lit "j"]).
    + apply (ot_plural _ (lit "k""") [lit "\"; [9]] [_] [_; _]); [exact (one_piece (false, false) (lit "msgid_plural") (lit "k"""))|].
      apply (on_cons _ 0 (lit "msgstr[0]") (lit "\") [[9]] [_] [_]); [exists (lit "0"); split; [exact (dc_digit 0 eq_refl)|reflexivity]|exact (one_piece (false, false) (lit "msgstr[0]") (lit "\"))|].
      apply (on_cons _ 1 (lit "msgstr[1]") [9] [] [_] []); [exists (lit "1"); split; [exact (dc_digit 1 eq_refl)|reflexivity]|exact (one_piece (false, false) (lit "msgstr[1]") [9])|constructor].
  - assert (Q : forall t, ~ In 34 t -> ~ string_text t) by (intros t H (kw & b & w & w' & w'' & E & _); apply H; rewrite E, !in_app_iff; cbn; tauto).
    split; [repeat constructor; apply Q; intros I; cbn in I; intuition discriminate|].
    assert (W : forall s, forallb cls_ns s = true -> forall c, In c s -> ~ white c) by (intros s H c I; apply (proj2 (word_wordb s)); assumption).
    assert (Fl : forall f, f <> [] -> forallb cls_ns f = true -> ~ In 44 f -> flag_text f /\ f <> []).
    { intros f NE H C. split; [|exact NE]. split; [intros c r E; apply (W f H); rewrite E; left; reflexivity|]. split; [intros c r E; apply (W f H); rewrite E; apply in_or_app; right; left; reflexivity|exact C]. }
    split; [repeat constructor; try discriminate; apply W; reflexivity|]. split; [|split; [discriminate|split; [discriminate|vm_compute; discriminate]]].
    constructor; [apply Fl; [discriminate|reflexivity|intros I; cbn in I; intuition discriminate]|]. constructor; [apply Fl; [discriminate|reflexivity|intros I; cbn in I; intuition discriminate]|constructor].
  - split.
    + repeat (constructor; [intros c I J; vm_compute in I; repeat (destruct I as [<-|I]; [vm_compute in J; intuition discriminate|]); contradiction|]). constructor.
    + repeat (constructor; [intros c r E; (discriminate || (injection E as <- _; vm_compute; intuition discriminate))|]). constructor.
  - vm_compute. repeat (split; [reflexivity|]). apply so_fuzzy. left. reflexivity.
Qed.
