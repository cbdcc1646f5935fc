(** The meaning of a file and what the reader gives out agree. *)
From Coq Require Import String Arith NArith ZArith Bool List Lia.
From Verif Require Import ModelBase ModelUtf8 ModelRegex ModelLine ModelFormula ModelData ModelSource ModelReader
  SpecLine SpecFormula SpecSource SpecReader SpecBlock SpecHeader SpecFile SpecWhole BaseFacts LineFacts LineThms DecFacts SourceFacts IterFacts ReaderFacts ReadsFacts CatalogueFacts LocalFacts StreamFacts
  BlockFacts CommentFacts UnitFacts SoundFacts BlocksFacts FirstFacts FileFacts MapFacts HeaderFacts BlockThms EntryThms ErrorFacts.
Import ListNotations.
Local Open Scope N_scope.

Lemma language_unique lib ps l l' : language_of lib ps l -> language_of lib ps l' -> l = l'.
Proof.
  unfold language_of. destruct (property ps (lit "Language")) as [t|]; [|congruence].
  intros [A|[[A A']|(A & A' & ->)]] [B|[[B B']|(B & B' & ->)]]; congruence.
Qed.
Lemma header_error_of pf u ps x : header_pairs (msg_get_text (u_message u)) ps -> header_forms pf (header_props u) = Err x -> header_error pf ps x.
Proof.
  intros HP HF. destruct (header_forms_error pf u ps x HP HF) as (def & Ed & NE & [[ND ->]|(DL & NF & m & ->)]).
  - apply her_list; assumption.
  - eapply her_forms; eassumption.
Qed.
Lemma header_error_alike pf ps x y : header_error pf ps x -> header_error pf ps y -> alike (Err x) (Err y).
Proof.
  intros [def E NE ND|def m E NE D NF] [def' E' NE' ND'|def' m' E' NE' D' NF']; rewrite E in E'; injection E' as <-; try contradiction.
  - apply al_err.
  - apply al_forms.
Qed.
Theorem whole_sound lib pf pl tl o : Forall written pl -> catalogue_of lib pf (listing pl tl) o -> whole lib pf pl tl o.
Proof.
  intros W H. pose proof (first_sound pl tl W) as R.
  destruct H as [e ls' E|ls' E|u ls' l E S Rd|u ls' e E S HF|u ls' forms l E S HF Rd]; rewrite E in R; cbn [first_result] in R.
  - destruct R as [(-> & G)|(inc & l & r' & w & -> & A & NW & NG & -> & _)]; [apply wh_failure; auto|eapply wh_line; eauto].
  - destruct R as (-> & I). apply wh_nothing; auto. repeat split.
  - destruct R as (b & r' & -> & -> & [En Ea|Hl _]).
    + apply Forall_app in W as [_ W]. apply reads_blocks in Rd as (us & o & Bl & ->); [|exact W].
      eapply wh_units; [|repeat split|reflexivity]. apply bk_entry; [|exact Ea|exact Bl]. split; [exact En|]. apply has_source_iff, S.
    + exfalso. apply (headless_sourceless _ _ _ Hl), has_source_iff, S.
  - destruct R as (b & r' & -> & -> & R). apply sourceless_iff in S. destruct (header_exists u S) as (ps & H). pose proof H as H'. apply header_intro in H' as [_ HP].
    eapply wh_bad_header; [reflexivity|exact R|exact H|]. exact (header_error_of _ _ _ _ HP HF).
  - destruct R as (b & r' & -> & -> & R). apply Forall_app in W as [_ W]. apply reads_blocks in Rd as (us & o & Bl & ->); [|exact W].
    apply sourceless_iff in S. destruct (header_exists u S) as (ps & H). pose proof H as H'. apply header_intro in H' as [_ HP].
    eapply wh_header; [reflexivity|exact R|exact H| |exact Bl|apply header_shown_of, H|reflexivity].
    apply (header_forms_iff pf u ps); assumption.
Qed.
Theorem whole_complete lib pf pl tl o : Forall written pl -> whole lib pf pl tl o ->
  exists o', catalogue_of lib pf (listing pl tl) o' /\ alike o' o.
Proof.
  intros W [c -> H (N1 & N2 & N3 & N4) Ei|e -> G|inc w l r -> A NW NG|u us o' c B (N1 & N2 & N3 & N4) Ei|h u ps r forms us o' c -> Fe H HF B (S1 & S2 & S3 & S4) Ei|h u ps r x -> Fe H HE].
  - eexists. split; [eapply co_empty, (first_nothing pl H W)|]. apply al_ok; auto.
  - destruct (first_failure pl e G W) as (r & E). eexists. split; [eapply co_err, E|apply al_err].
  - destruct (first_line inc w l r tl A NW NG W) as (r' & E). eexists. split; [eapply co_err, E|apply al_err].
  - eexists. split; [exact (plain_complete lib pf pl tl u us o' W B)|]. apply al_ok; auto.
  - pose proof H as H'. apply header_intro in H' as [S HP]. apply (header_forms_iff pf u ps) in HF; [|exact HP].
    pose proof (header_complete lib pf h u r tl W Fe S) as X. rewrite HF in X. eexists. split; [exact (X us o' B)|].
    destruct (header_shown_of lib u ps (map UOk us ++ error_item o') H) as (T1 & T2 & T3 & T4).
    apply al_ok; [congruence|congruence|intros k; rewrite T3, S3; reflexivity|exact (language_unique _ _ _ _ T4 S4)|symmetry; exact Ei].
  - pose proof H as H'. apply header_intro in H' as [S HP]. pose proof (header_complete lib pf h u r tl W Fe S) as X.
    destruct (header_forms pf (header_props u)) as [forms|y|] eqn:HF; [| |destruct X].
    + exfalso. apply (header_forms_iff pf u ps) in HF; [|exact HP].
      destruct HE as [def E NE ND|def m E NE D NF]; destruct HF as [E'|E'|def' f E' NE' F]; try congruence; rewrite E in E'; injection E' as <-.
      * apply ND. destruct F as (bs & DL & _). exact DL.
      * exact (NF f F).
    + exists (Err y). split; [exact X|]. exact (header_error_alike _ _ _ _ (header_error_of _ _ _ _ HP HF) HE).
Qed.
Lemma whole_alike lib pf pl tl o o' : (forall m, tl <> Some (EPluralForms m)) -> alike o o' -> whole lib pf pl tl o -> whole lib pf pl tl o'.
Proof.
  intros NT A H. destruct A as [c c' A1 A2 A3 A4 A5|e|m m'].
  - remember (Ok c) as o eqn:Eo. destruct H as [c0 T H (N1 & N2 & N3 & N4) Ei|e|inc w l r|u us o' c0 B (N1 & N2 & N3 & N4) Ei|h u ps r forms us o' c0 E Fe H HF B (S1 & S2 & S3 & S4) Ei|]; try discriminate; injection Eo as ->.
    + apply wh_nothing; auto; [|congruence]. repeat split; try congruence; intros k; rewrite <- A3; apply N3.
    + eapply wh_units; [exact B| |congruence]. repeat split; try congruence; intros k; rewrite <- A3; apply N3.
    + eapply wh_header; [exact E|exact Fe|exact H|exact HF|exact B| |congruence]. repeat split; try congruence; intros k; rewrite <- A3; apply S3.
  - exact H.
  - remember (Err (EPluralForms m)) as o eqn:Eo. destruct H as [c0|e T G|inc w l r E A NW NG|u us o' c0|h u ps r forms us o' c0|h u ps r x E Fe H HE]; try discriminate.
    + injection Eo as ->. destruct (NT m T).
    + injection Eo as ->. eapply wh_bad_header; [exact E|exact Fe|exact H|]. remember (EPluralForms m) as y eqn:Ey. destruct HE as [|def m0 E' NE D NF]; [discriminate|].
      eapply her_forms; eassumption.
Qed.
Theorem whole_file lib pf evs ls e pl tl o : file evs ls e pl tl -> (whole lib pf pl tl o <-> alike (read_catalogue lib pf evs) o).
Proof.
  intros (bs & f & D & C & P). pose proof (file_catalogue lib pf evs bs f ls e pl tl) as FC. pose proof (proj2 (FC (Err (EPluralForms [])) D C P)) as W.
  assert (NT : forall m, tl <> Some (EPluralForms m)).
  { intros m E. destruct (parsed_numbers _ _ _ _ _ P eq_refl) as [_ Ht]. specialize (Ht _ E). remember (EPluralForms m) as x eqn:Ex. destruct Ht; discriminate. }
  split.
  - intros H. destruct (whole_complete lib pf pl tl o W H) as (o' & Co & A). apply (FC o' D C P) in Co as ->. exact A.
  - intros A. apply (whole_alike lib pf pl tl _ _ NT A). apply whole_sound; [exact W|]. apply (FC _ D C P). reflexivity.
Qed.
Lemma alike_refl o : o <> Panic -> alike o o.
Proof. destruct o as [c|e|]; intros H; [apply al_ok; auto|apply al_err|contradiction]. Qed.
Lemma alike_trans a b c : alike a b -> alike a c -> alike b c.
Proof.
  intros A B. destruct A as [c1 c2 A1 A2 A3 A4 A5|e|m m'].
  - remember (Ok c1) as o eqn:E. destruct B as [c3 c4 B1 B2 B3 B4 B5|e|m m']; try discriminate. injection E as ->. apply al_ok; try congruence; intros k; rewrite <- A3; apply B3.
  - exact B.
  - remember (Err (EPluralForms m)) as o eqn:E. destruct B as [c3 c4|e|m2 m3]; try discriminate; [injection E as ->; apply al_forms|apply al_forms].
Qed.
Theorem whole_total lib pf evs ls e pl tl : file evs ls e pl tl -> exists o, whole lib pf pl tl o.
Proof.
  intros Fi. exists (read_catalogue lib pf evs). apply (whole_file lib pf evs ls e pl tl _ Fi). apply alike_refl.
  destruct Fi as (bs & f & D & C & P). pose proof (file_shape lib pf evs bs f ls e pl tl D C P) as S. destruct S; discriminate.
Qed.
Theorem whole_unique lib pf evs ls e pl tl o o' : file evs ls e pl tl -> whole lib pf pl tl o -> whole lib pf pl tl o' -> alike o o'.
Proof.
  intros Fi A B. apply (whole_file lib pf evs ls e pl tl _ Fi) in A, B. exact (alike_trans _ _ _ A B).
Qed.
(** The first entry without msgid. *)
Lemma headless_header forms h u : headless forms h u -> header u [].
Proof.
  intros []. exists None. split; [reflexivity|]. exists [[]]. split; [discriminate|]. split; [reflexivity|].
  split; [intros l [<-|[]] I; exact I|]. repeat constructor. intros [].
Qed.
Theorem headless_first lib pf evs ls e pl tl h r u : file evs ls e pl tl -> pl = h ++ r -> headless None h u -> headless_ends h r tl ->
  exists c us o, read_catalogue lib pf evs = Ok c /\ c_notes c = u_notes u /\ c_comments c = u_comments u
    /\ (forall k, sm_get k (c_properties c) = None) /\ blocks None r tl us o /\ c_items c = map UOk us ++ error_item o.
Proof.
  intros Fi E Hl He. pose proof Fi as (bs & f & D & C & P). pose proof (parsed_written _ _ _ _ _ P) as W. rewrite E in W. apply Forall_app in W as [_ W].
  destruct (blocks_total None r tl W) as (us & o & B).
  destruct (read_header lib pf evs ls e pl tl h u [] r None us o Fi E (fe_headless _ _ _ _ Hl He) (headless_header _ _ _ Hl) (hf_absent pf [] eq_refl) B) as (c & R & (S1 & S2 & S3 & _) & Ei).
  exists c, us, o. repeat split; assumption.
Qed.
