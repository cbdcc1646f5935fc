(** Property C81: what comment lines have influence on; C05 for whole files. *)
From Coq Require Import String Arith NArith Bool List Lia.
From Verif Require Import ModelBase ModelUtf8 ModelLine ModelFormula ModelData ModelSource ModelReader
  SpecLine SpecSource SpecReader SpecBlock SpecHeader SpecFile SpecWhole SpecBare FileIntro BareFacts BareWitness BareMore PickedMore.
Import ListNotations.
Local Open Scope N_scope.

(** C81: false of the code: a comment between msgctxt and msgid of the first entry makes a header of the lines before it ... *)
Theorem C81_comments_only_refuted : exists evs ls pl evs2 ls2 pl2 c c2 u u2, file evs ls None pl None /\ file evs2 ls2 None pl2 None
  /\ Forall2 same_text (filter no_comment pl) (filter no_comment pl2)
  /\ read_catalogue demo_lib demo_pf evs = Ok c /\ c_items c = [UOk u] /\ read_catalogue demo_lib demo_pf evs2 = Ok c2 /\ c_items c2 = [UOk u2]
  /\ u_context u <> u_context u2.
Proof. exact comments_refuted. Qed.
Print Assumptions C81_comments_only_refuted.
(** ... but if the first entry has its msgid, files read without errors that have the same other lines
    have the same units apart from what comments give. *)
Theorem C81_comments_only_partial : forall lib pf evs ls e pl tl c evs2 ls2 e2 pl2 tl2 c2, file evs ls e pl tl -> file evs2 ls2 e2 pl2 tl2 ->
  Forall2 same_text (filter no_comment pl) (filter no_comment pl2) ->
  read_catalogue lib pf evs = Ok c -> (forall x, ~ In (UErr x) (c_items c)) -> first_has_id pl ->
  read_catalogue lib pf evs2 = Ok c2 -> (forall x, ~ In (UErr x) (c_items c2)) -> first_has_id pl2 ->
  exists us us2, c_items c = map UOk us /\ c_items c2 = map UOk us2 /\ Forall2 same_but_comments us us2
    /\ (forall k, sm_get k (c_properties c) = sm_get k (c_properties c2)) /\ c_language c = c_language c2.
Proof. exact comments_only. Qed.
Print Assumptions C81_comments_only_partial.
(** The comments can be taken out of a file read without errors. *)
Theorem C81_taken_out_partial : forall lib pf evs evs' ls ls' e e' pl pl' tl c, file evs ls e pl tl -> file evs' ls' e' pl' None -> bare pl pl' ->
  read_catalogue lib pf evs = Ok c -> (forall x, ~ In (UErr x) (c_items c)) -> first_has_id pl ->
  exists us us' c', c_items c = map UOk us /\ read_catalogue lib pf evs' = Ok c' /\ c_items c' = map UOk us' /\ Forall2 uncommented us us'
    /\ c_notes c' = [] /\ c_comments c' = [] /\ (forall k, sm_get k (c_properties c') = sm_get k (c_properties c)) /\ c_language c' = c_language c.
Proof. exact read_bare. Qed.
Print Assumptions C81_taken_out_partial.
(** If the first entries have no msgid, and the lines after them are the same but for comments, so are the units. *)
Theorem C81_idless_partial : forall lib pf evs ls e pl tl c h r u evs2 ls2 e2 pl2 tl2 c2 h2 r2 u2, file evs ls e pl tl -> file evs2 ls2 e2 pl2 tl2 ->
  pl = h ++ r -> headless None h u -> headless_ends h r tl -> pl2 = h2 ++ r2 -> headless None h2 u2 -> headless_ends h2 r2 tl2 ->
  Forall2 same_text (filter no_comment r) (filter no_comment r2) ->
  read_catalogue lib pf evs = Ok c -> (forall x, ~ In (UErr x) (c_items c)) ->
  read_catalogue lib pf evs2 = Ok c2 -> (forall x, ~ In (UErr x) (c_items c2)) ->
  exists us us2, c_items c = map UOk us /\ c_items c2 = map UOk us2 /\ Forall2 same_but_comments us us2
    /\ (forall k, sm_get k (c_properties c) = sm_get k (c_properties c2)) /\ c_language c = c_language c2.
Proof. exact comments_idless. Qed.
Print Assumptions C81_idless_partial.
Example C81_idless_example : exists h r u c, file (lf_stream noted) (map lit noted) None (h ++ r) None /\ headless None h u /\ headless_ends h r None
  /\ read_catalogue demo_lib demo_pf (lf_stream noted) = Ok c /\ exists v, c_items c = [UOk v].
Proof.
  eexists [_], _, _, _. split; [apply lf_file; [discriminate|reflexivity|vm_compute; reflexivity]|]. split.
  - apply (hl_intro None [] [] [] [] [] false [] None [] (MSimple [] None) [_] (Some (lit "c")) [] None StEmpty); try constructor.
    + exact (fl_intro (own false) (lit "msgctxt") 1 (lit "c") [] [] (st_nil _)).
    + intros [].
    + intros t [].
  - split; [apply comment_ends; [|exact Logic.I]; intros F; inversion F as [|? ? H _]; exact H|]. split; [vm_compute; reflexivity|]. eexists. reflexivity.
Qed.
Example C81_example :
  let shown x := match x with Ok c => map (fun i => match i with UOk u => (u_context u, msg_get_text (u_message u), u_state u, length (u_notes u)) | UErr _ => (None, [], StEmpty, 9%nat) end) (c_items c) | _ => [] end in
  shown (demo_read ("# n" ++ LFs ++ "#, fuzzy" ++ LFs ++ "msgctxt ""c""" ++ LFs ++ "msgid ""a""" ++ LFs ++ "msgstr ""b""" ++ LFs ++ "# end")) = [(Some (lit "c"), lit "b", StNeedsWork, 1%nat)]
  /\ shown (demo_read ("msgctxt ""c""" ++ LFs ++ "msgid ""a""" ++ LFs ++ "msgstr ""b""")) = [(Some (lit "c"), lit "b", StFinal, 0%nat)].
Proof. split; vm_compute; reflexivity. Qed.
Example C81_example_first : first_has_id [PComment 1 32 []; PMessage 2 [] (lit "msgid") (lit "a"); PMessage 3 [] (lit "msgstr") (lit "b")].
Proof. exact id_example. Qed.

(** C05, whole files: the text of a comment becomes part of a translation. *)
Theorem C05_comment_in_translation_refuted : exists evs ls pl c u, file evs ls None pl None /\ line_at ls 3 (lit "# ""x""")
  /\ read_catalogue demo_lib demo_pf evs = Ok c /\ c_items c = [UOk u] /\ msg_get_text (u_message u) = lit "bx".
Proof. exact comment_in_translation. Qed.
Print Assumptions C05_comment_in_translation_refuted.
