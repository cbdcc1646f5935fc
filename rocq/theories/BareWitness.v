(** Witnesses about comment lines. *)
From Coq Require Import String Arith NArith Bool List Lia.
From Verif Require Import ModelBase ModelUtf8 ModelLine ModelFormula ModelData ModelSource ModelReader
  SpecLine SpecSource SpecReader SpecBlock SpecHeader SpecFile SpecWhole SpecBare BaseFacts BlockFacts FileFacts FileIntro FirstFacts BareFacts.
Import ListNotations.
Local Open Scope N_scope.

Definition noted : list string := ["msgctxt ""c"""; "# note"; "msgid ""a"""; "msgstr ""b"""]%string.
Definition unnoted : list string := ["msgctxt ""c"""; "msgid ""a"""; "msgstr ""b"""]%string.
Lemma comments_refuted : exists evs ls pl evs2 ls2 pl2 c c2 u u2, file evs ls None pl None /\ file evs2 ls2 None pl2 None
  /\ Forall2 same_text (filter no_comment pl) (filter no_comment pl2)
  /\ read_catalogue demo_lib demo_pf evs = Ok c /\ c_items c = [UOk u] /\ read_catalogue demo_lib demo_pf evs2 = Ok c2 /\ c_items c2 = [UOk u2]
  /\ u_context u <> u_context u2.
Proof.
  exists (lf_stream noted), (map lit noted), (fst (parse_lines 1 (map lit noted))), (lf_stream unnoted), (map lit unnoted), (fst (parse_lines 1 (map lit unnoted))).
  do 4 eexists. split; [apply lf_file; [discriminate|reflexivity|vm_compute; reflexivity]|]. split; [apply lf_file; [discriminate|reflexivity|vm_compute; reflexivity]|].
  split; [vm_compute; repeat constructor|]. split; [vm_compute; reflexivity|]. split; [reflexivity|]. split; [vm_compute; reflexivity|]. split; [reflexivity|]. vm_compute. discriminate.
Qed.
Definition leaking : list string := ["msgid ""a"""; "msgstr ""b"""; "# ""x"""]%string.
Lemma comment_in_translation : exists evs ls pl c u, file evs ls None pl None /\ line_at ls 3 (lit "# ""x""")
  /\ read_catalogue demo_lib demo_pf evs = Ok c /\ c_items c = [UOk u] /\ msg_get_text (u_message u) = lit "bx".
Proof.
  exists (lf_stream leaking), (map lit leaking), (fst (parse_lines 1 (map lit leaking))). do 2 eexists. split; [apply lf_file; [discriminate|reflexivity|vm_compute; reflexivity]|].
  split; [exists (map lit ["msgid ""a"""; "msgstr ""b"""]%string), []; split; reflexivity|]. split; [vm_compute; reflexivity|]. split; [reflexivity|]. vm_compute. reflexivity.
Qed.
Lemma id_entry : exists u, entry None [PComment 1 32 []; PMessage 2 [] (lit "msgid") (lit "a"); PMessage 3 [] (lit "msgstr") (lit "b")] u.
Proof.
  eexists. apply (en_intro None [PComment 1 32 []] [] [Note Translator []] [] [] false (simple_block 2 3 (lit "a") (lit "b")) None (MSimple [] None) None (MSimple (lit "a") (Some (lit "b"))) StFinal).
  - repeat constructor.
  - apply (kws_intro None false [] None [] (MSimple [] None) [] None _ _); try constructor. apply (bd_simple None false [PMessage 2 [] (lit "msgid") (lit "a")] (lit "a") [PMessage 3 [] (lit "msgstr") (lit "b")] (lit "b")).
    + exact (fl_intro [] (lit "msgid") 2 (lit "a") [] [] (st_nil [])).
    + exact (fl_intro [] (lit "msgstr") 3 (lit "b") [] [] (st_nil [])).
  - apply (so_final _ _ (lit "b")); [intros []|left; reflexivity|discriminate].
Qed.
Lemma id_example : first_has_id [PComment 1 32 []; PMessage 2 [] (lit "msgid") (lit "a"); PMessage 3 [] (lit "msgstr") (lit "b")].
Proof.
  destruct id_entry as (v & E). intros h r u Eh H He. pose proof (headless_msgid _ _ _ H) as M.
  destruct h as [|c1 [|c2 h]]; cbn [app] in Eh.
  - subst r. destruct He as [B _]. apply B. left. do 2 eexists. exact E.
  - injection Eh as <- Er. subst r. destruct He as [B _]. apply B. left. exists [PMessage 3 [] (lit "msgstr") (lit "b")], v. exact E.
  - injection Eh as <- <- _. discriminate.
Qed.
