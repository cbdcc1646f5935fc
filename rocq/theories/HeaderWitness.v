(** Consequences for headers, and a file with a header. *)
From Coq Require Import String Arith NArith ZArith Bool List Lia.
From Verif Require Import ModelBase ModelUtf8 ModelRegex ModelLine ModelFormula ModelData ModelSource ModelReader
  SpecLine SpecFormula SpecSource SpecReader SpecBlock SpecHeader SpecFile BaseFacts LineFacts DecFacts SourceFacts ReaderFacts ReadsFacts
  BlockFacts CommentFacts UnitFacts SoundFacts BlocksFacts FileFacts MapFacts HeaderFacts FileIntro BlockThms EntryThms HeaderThms.
Import ListNotations.
Local Open Scope N_scope.

Theorem header_properties_read lib pf evs ls e pl tl h u ps r c : file evs ls e pl tl -> pl = h ++ r ->
  first_entry h r tl u -> header u ps -> read_catalogue lib pf evs = Ok c ->
  (forall k, sm_get k (c_properties c) = property ps k) /\ c_notes c = u_notes u /\ c_comments c = u_comments u.
Proof. intros Fi E Fe H R. destruct (read_header_ok lib pf evs ls e pl tl h u ps r c Fi E Fe H R) as [(A & B & C & _) _]. auto. Qed.
Theorem header_language_read lib pf evs ls e pl tl h u ps r c : file evs ls e pl tl -> pl = h ++ r ->
  first_entry h r tl u -> header u ps -> read_catalogue lib pf evs = Ok c -> language_of lib ps (c_language c).
Proof. intros Fi E Fe H R. destruct (read_header_ok lib pf evs ls e pl tl h u ps r c Fi E Fe H R) as [(_ & _ & _ & D) _]. exact D. Qed.
Theorem property_absent ps k : property ps k = None <-> forall v, ~ In (k, v) ps.
Proof.
  unfold property, values_of. split.
  - intros H v I. assert (In v (map snd (filter (fun p => str_eqb k (fst p)) ps))) as J.
    { apply in_map_iff. exists (k, v). split; [reflexivity|]. apply filter_In. split; [exact I|]. cbn. destruct (str_eqb_spec k k); congruence. }
    destruct (map snd _); [destruct J|discriminate].
  - intros H. destruct (filter _ ps) as [|[k' v] l] eqn:E; [reflexivity|exfalso].
    assert (In (k', v) (filter (fun p => str_eqb k (fst p)) ps)) as J by (rewrite E; left; reflexivity).
    apply filter_In in J as [J K]. cbn in K. destruct (str_eqb_spec k k') as [->|]; [|discriminate]. exact (H v J).
Qed.
Theorem final_semicolon s : one_line s -> (exists m, parse_map s = Some m) -> blanks s \/ exists p w, s = p ++ 59 :: w /\ blanks w.
Proof.
  intros OL H. apply definition_list_accepted in H; [|exact OL]. destruct H as [B|(w & k & w' & t & w2 & -> & _ & _ & _ & B)]; [left; exact B|right].
  exists (w ++ k ++ w' ++ 61 :: t), w2. split; [rewrite <- !app_assoc; reflexivity|exact B].
Qed.

(** * Examples *)
Definition head_lines : list string :=
  ["msgid """""; "msgstr """""; """X: a:b\nPlural-Forms: nplurals=1; plural=0;\n"""; """no colon\nX:c\n"""; "msgid ""a"""; "msgstr ""b"""]%string.
Definition head_parsed : list po_line * option error := Eval vm_compute in parse_lines 1 (map lit head_lines).
Definition head_block : list po_line := Eval vm_compute in firstn 4 (fst head_parsed).
Definition head_rest : list po_line := Eval vm_compute in skipn 4 (fst head_parsed).
Definition head_text : str := Eval vm_compute in flat_map (fun l => match l with PCont _ _ s => s | _ => [] end) head_block.
Definition head_unit : unit_ := Unit None (MSimple [] (Some head_text)) None (MSimple [] None) [] [] [] [] StFinal false.
Lemma head_entry : entry None head_block head_unit.
Proof.
  apply (en_intro None [] [] [] [] [] false head_block None (MSimple [] None) None (MSimple [] (Some head_text))).
  - constructor.
  - change head_block with ([] ++ [] ++ [] ++ head_block). eapply (kws_intro None false); [constructor|constructor|constructor|].
    change (Some head_text) with (some_text head_text). apply (bd_simple None false (firstn 1 head_block) [] (skipn 1 head_block) head_text); [apply (own_line false)|].
    replace head_text with ([] ++ head_text) by reflexivity. apply (fl_intro (own false) (lit "msgstr") 2 [] (skipn 2 head_block) head_text).
    assert (forall n s m t, strings (own false) [PCont n [] s; PCont m [] t] (s ++ t)) as St.
    { intros n s m t. rewrite <- (app_nil_r t) at 2. apply (st_cons (own false)), (st_cons (own false)), st_nil. }
    apply St.
  - apply so_final with head_text; cbn; intuition discriminate.
Qed.
Theorem head_example : exists h u ps r, file (lf_stream head_lines) (map lit head_lines) None (h ++ r) None
  /\ entry None h u /\ ends_at None h r None /\ header u ps
  /\ property ps (lit "Plural-Forms") = Some (lit "nplurals=1; plural=0;") /\ property ps (lit "X") = Some (lit "a:b c") /\ r <> [].
Proof.
  assert (~ has_source head_unit) as S by (intros S; exact (S _ eq_refl)). destruct (header_exists head_unit S) as (ps & H).
  destruct (header_shown_of demo_lib head_unit ps [] H) as (_ & _ & P & _). cbn [c_properties] in P.
  exists head_block, head_unit, ps, head_rest. split; [apply lf_file; [discriminate|reflexivity|vm_compute; reflexivity]|]. split; [exact head_entry|].
  split; [apply (starter_ends None _ head_unit _ _ None head_entry); right; do 4 eexists; split; [reflexivity|]; vm_compute; auto|]. split; [exact H|].
  rewrite <- !P. split; [vm_compute; reflexivity|]. split; [vm_compute; reflexivity|discriminate].
Qed.
Lemma first_not_white c s : ~ white c -> not_white_first (c :: s).
Proof. intros H c' s' E. injection E as <- _. exact H. Qed.
Lemma last_not_white s c : ~ white c -> not_white_last (s ++ [c]).
Proof. intros H c' s' E. apply app_inj_tail in E as [_ <-]. exact H. Qed.
Theorem definitions_example : definitions (lit " a = b c ;a=d; ") [(lit "a", lit "b c"); (lit "a", lit "d")]
  /\ match parse_map (lit " a = b c ;a=d; ") with Some m => sm_get (lit "a") m = Some (lit "d") | None => False end.
Proof.
  split; [|vm_compute; reflexivity].
  assert (blanks (lit " ")) as B by (intros c [<-|[]]; vm_compute; tauto). assert (blanks []) as B0 by (intros c []).
  apply (df_more (lit " ") (lit "a") (lit " ") (lit " b c ") (lit "b c") (lit "a=d; ")); auto; try discriminate.
  - intros c [<-|[]]. split; [vm_compute; intuition discriminate|discriminate].
  - vm_compute. intuition discriminate.
  - exists (lit " "), (lit " "). split; [reflexivity|]. split; [exact B|]. split; [exact B|]. split; [apply (first_not_white 98); vm_compute; intuition discriminate|].
    apply (last_not_white (lit "b ") 99). vm_compute; intuition discriminate.
  - apply (df_more [] (lit "a") [] (lit "d") (lit "d") (lit " ")); auto; try discriminate.
    + intros c [<-|[]]. split; [vm_compute; intuition discriminate|discriminate].
    + vm_compute. intuition discriminate.
    + exists [], []. split; [reflexivity|]. split; [exact B0|]. split; [exact B0|]. split; [apply (first_not_white 100); vm_compute; intuition discriminate|].
      apply (last_not_white [] 100). vm_compute; intuition discriminate.
    + apply df_end, B.
Qed.
