(** Files without their comment lines: first entries without msgid (C81). *)
From Coq Require Import String Arith NArith Bool List Lia.
From Verif Require Import ModelBase ModelUtf8 ModelLine ModelFormula ModelData ModelSource ModelReader
  SpecLine SpecSource SpecReader SpecBlock SpecHeader SpecFile SpecWhole SpecBare BaseFacts BlockFacts BlocksFacts FileFacts FileIntro BlockThms WholeFacts SourceFacts
  LineFacts LineThms StreamThms CommentFacts UnitFacts FirstFacts EntryThms WriterFacts IndepFacts ExtractedFacts FlagFacts SpecPicked PickedFacts BareFacts.
Import ListNotations.

Lemma idless_items lib pf evs ls e pl tl c h r u : file evs ls e pl tl -> read_catalogue lib pf evs = Ok c -> (forall x, ~ In (UErr x) (c_items c)) ->
  pl = h ++ r -> headless None h u -> headless_ends h r tl ->
  exists us, c_items c = map UOk us /\ entries None r us /\ header_shown lib u [] c /\ Forall written r.
Proof.
  intros Fi R NE -> Hl He. pose proof Fi as (bs & f & D & C & P). pose proof (parsed_written _ _ _ _ _ P) as W. apply Forall_app in W as [_ W].
  destruct (blocks_total None r tl W) as (us & o & B).
  destruct (read_header lib pf evs ls e _ tl h u [] r None us o Fi eq_refl (fe_headless _ _ _ _ Hl He) (headless_header _ _ _ Hl) (hf_absent pf [] eq_refl) B) as (c0 & R0 & Hs & Ei).
  rewrite R in R0. injection R0 as <-. destruct o as [x|].
  - exfalso. apply (NE x). rewrite Ei. apply in_or_app. right; left; reflexivity.
  - apply blocks_entries in B as [En _]. exists us. rewrite Ei, app_nil_r. auto.
Qed.
Lemma bare_of a b : Forall2 same_text (filter no_comment a) (filter no_comment b) -> bare a (filter no_comment b) /\ bare b (filter no_comment b).
Proof.
  intros H. split; [exact H|]. unfold bare. revert H. generalize (filter no_comment a), (filter no_comment b). clear. intros a b H.
  induction H as [|x y a b X H IH]; constructor; [exact (same_text_trans _ _ _ (same_text_sym _ _ X) X)|exact IH].
Qed.
Lemma written_filter b : Forall written b -> Forall written (filter no_comment b).
Proof. rewrite !Forall_forall. intros H x I. apply filter_In in I as [I _]. exact (H x I). Qed.
Lemma both_uncommented us us2 vs : Forall2 uncommented us vs -> Forall2 uncommented us2 vs -> Forall2 same_but_comments us us2.
Proof.
  intros F. revert us2. induction F as [|u u' us us' U F IH]; intros us2 F2; inversion F2 as [|v ? us3 ? V F3]; subst; [constructor|]. constructor; [|exact (IH _ F3)].
  destruct U as (U1 & U2 & U3 & U4 & U5 & _ & _ & _ & _ & _ & U6), V as (V1 & V2 & V3 & V4 & V5 & _ & _ & _ & _ & _ & V6). repeat split; try congruence. intros A A'. rewrite <- (U6 A), <- (V6 A'). reflexivity.
Qed.
Theorem comments_idless lib pf evs ls e pl tl c h r u evs2 ls2 e2 pl2 tl2 c2 h2 r2 u2 : file evs ls e pl tl -> file evs2 ls2 e2 pl2 tl2 ->
  pl = h ++ r -> headless None h u -> headless_ends h r tl -> pl2 = h2 ++ r2 -> headless None h2 u2 -> headless_ends h2 r2 tl2 ->
  Forall2 same_text (filter no_comment r) (filter no_comment r2) ->
  read_catalogue lib pf evs = Ok c -> (forall x, ~ In (UErr x) (c_items c)) ->
  read_catalogue lib pf evs2 = Ok c2 -> (forall x, ~ In (UErr x) (c_items c2)) ->
  exists us us2, c_items c = map UOk us /\ c_items c2 = map UOk us2 /\ Forall2 same_but_comments us us2
    /\ (forall k, sm_get k (c_properties c) = sm_get k (c_properties c2)) /\ c_language c = c_language c2.
Proof.
  intros Fi Fi2 E Hl He E2 Hl2 He2 S R NE R2 NE2.
  destruct (idless_items _ _ _ _ _ _ _ _ _ _ _ Fi R NE E Hl He) as (us & I & En & Hs & W).
  destruct (idless_items _ _ _ _ _ _ _ _ _ _ _ Fi2 R2 NE2 E2 Hl2 He2) as (us2 & I2 & En2 & Hs2 & W2).
  destruct (bare_of _ _ S) as [B B2]. destruct (bare_entries _ _ _ En _ B) as (vs & Ev & F). destruct (bare_entries _ _ _ En2 _ B2) as (vs2 & Ev2 & F2).
  assert (vs = vs2) as <-. { eapply (blocks_det None _ None vs None vs2 None); [exact (written_filter _ W2)|apply blocks_entries; auto..]. }
  exists us, us2. split; [exact I|]. split; [exact I2|]. split; [eapply both_uncommented; eassumption|].
  destruct Hs as (_ & _ & P1 & L1), Hs2 as (_ & _ & P2 & L2). split; [intros k; rewrite P1, P2; reflexivity|]. eapply language_unique; eassumption.
Qed.
