(** Theorems about headers. *)
From Coq Require Import String Arith NArith ZArith Bool List Lia Sorted.
From Verif Require Import ModelBase ModelUtf8 ModelRegex ModelLine ModelFormula ModelData ModelSource ModelReader
  SpecLine SpecFormula SpecSource SpecReader SpecBlock SpecHeader SpecFile BaseFacts LineFacts LineThms DecFacts SourceFacts IterFacts ReaderFacts ReadsFacts CatalogueFacts LocalFacts StreamFacts
  BlockFacts CommentFacts UnitFacts SoundFacts BlocksFacts FileFacts MapFacts HeaderFacts BlockThms EntryThms.
Import ListNotations.
Local Open Scope N_scope.

(** The first entry is a header. *)
Theorem read_header_ok lib pf evs ls e pl tl h u ps r c : file evs ls e pl tl -> pl = h ++ r -> first_entry h r tl u -> header u ps ->
  read_catalogue lib pf evs = Ok c ->
  header_shown lib u ps c /\ exists forms us o, header_forms_of pf ps forms /\ blocks forms r tl us o /\ c_items c = map UOk us ++ error_item o.
Proof.
  intros Fi -> Fe H R. pose proof Fi as (bs & f & D & C & P). pose proof (file_catalogue lib pf evs bs f ls e (h ++ r) tl) as FC.
  pose proof (proj2 (FC (Err (EPluralForms [])) D C P)) as W0. pose proof W0 as W. apply Forall_app in W as [_ W].
  pose proof H as H'. apply header_intro in H' as [S HP]. pose proof (header_complete lib pf h u r tl W0 Fe S) as X.
  destruct (header_forms pf (header_props u)) as [forms|x|] eqn:HF; [| |contradiction].
  - apply (header_forms_iff pf u ps) in HF; [|exact HP]. destruct (blocks_total forms r tl W) as (us & o & B).
    destruct (read_header lib pf evs ls e _ tl h u ps r forms us o Fi eq_refl Fe H HF B) as (c' & R' & Sh & Ei).
    rewrite R in R'. injection R' as <-. split; [exact Sh|]. exists forms, us, o. auto.
  - exfalso. assert (read_catalogue lib pf evs = Err x) by (eapply FC; eauto). congruence.
Qed.
Lemma no_forms pf ps : (forall forms, ~ header_forms_of pf ps forms) <->
  exists def, property ps (lit "Plural-Forms") = Some def /\ def <> [] /\ forall f, ~ forms_of pf def f.
Proof.
  split.
  - intros N. destruct (property ps (lit "Plural-Forms")) as [def|] eqn:E.
    + exists def. split; [reflexivity|]. split; [intros ->; exact (N None (hf_empty _ _ E))|].
      intros f F. destruct def as [|x def]; [exact (N None (hf_empty _ _ E))|]. apply (N (Some f)). eapply hf_some; [exact E|discriminate|exact F].
    + destruct (N None (hf_absent _ _ E)).
  - intros (def & E & NE & NF) forms [E'|E'|def' f E' _ F]; try congruence. rewrite E in E'. injection E' as <-. exact (NF f F).
Qed.
Theorem bad_plural_forms lib pf evs ls e pl tl h u ps r : file evs ls e pl tl -> pl = h ++ r ->
  first_entry h r tl u -> header u ps ->
  ((exists x, read_catalogue lib pf evs = Err x) <->
   exists def, property ps (lit "Plural-Forms") = Some def /\ def <> [] /\ forall f, ~ forms_of pf def f).
Proof. intros Fi E Fe H. rewrite (read_bad_header lib pf evs ls e pl tl h u ps r Fi E Fe H). apply no_forms. Qed.

(** All plural entries of a file have the same forms. *)
Lemma unit_forms forms b u m : entry forms b u -> u_message u = MPlural m -> pl_forms m = forms /\ N.of_nat (length (pl_values m)) <= nforms forms.
Proof.
  intros En Em. split.
  - destruct En as [cs F N L C obs ks pc pm c m0 st B K St]. cbn in Em. destruct K as [l1 pc' l2 pm' l3 c' l4 m' F1 F2 F3 Bo].
    destruct Bo; [discriminate|]. injection Em as <-. reflexivity.
  - destruct (entry_forms _ _ _ _ En Em) as (ks & So & Fo & Le & _). rewrite <- Le. clear -So Fo.
    assert (forall ks a, StronglySorted N.lt ks -> Forall (fun k => a <= k /\ k < nforms forms) ks -> ks <> [] -> a + N.of_nat (length ks) <= nforms forms) as K.
    { clear. induction ks as [|k ks IH]; intros a So Fo NE; [contradiction|]. apply StronglySorted_inv in So as [So F2]. apply Forall_cons_iff in Fo as [[F1 F1'] Fo].
      destruct ks as [|k' ks]; [cbn; lia|]. specialize (IH (k + 1) So). cbn [length] in *. assert (k + 1 + N.of_nat (S (length ks)) <= nforms forms); [|lia].
      apply IH; [|discriminate]. rewrite Forall_forall in *. intros x I. specialize (F2 x I). specialize (Fo x I). lia. }
    destruct ks as [|k ks]; [cbn; lia|]. apply (K _ 0 So); [|discriminate]. eapply Forall_impl; [|exact Fo]. cbn. intros; lia.
Qed.
Theorem no_plural_forms lib pf evs ls e pl tl h u ps r c : file evs ls e pl tl -> pl = h ++ r ->
  first_entry h r tl u -> header u ps -> property ps (lit "Plural-Forms") = None \/ property ps (lit "Plural-Forms") = Some [] ->
  read_catalogue lib pf evs = Ok c ->
  forall v m, In (UOk v) (c_items c) -> u_message v = MPlural m -> pl_forms m = None /\ (length (pl_values m) <= 2)%nat.
Proof.
  intros Fi E Fe H Np R v m I Em. destruct (read_header_ok lib pf evs ls e pl tl h u ps r c Fi E Fe H R) as (_ & forms & us & o & HF & B & Ei).
  assert (forms = None) as -> by (destruct HF as [|E'|def f E' NE]; [reflexivity|reflexivity|destruct Np; congruence]).
  rewrite Ei in I. apply blocks_units in B as (bls & rest & _ & F). apply in_units in I. rewrite units_items in I. destruct (Forall2_in_r _ _ _ _ F I) as (b & _ & Ev & _).
  destruct (unit_forms _ _ _ _ Ev Em) as [-> L]. split; [reflexivity|]. cbn in L. lia.
Qed.
(** The language library influences the language only. *)
Theorem language_library lib lib' pf evs : same_but_language (read_catalogue lib pf evs) (read_catalogue lib' pf evs).
Proof.
  pose proof (proj1 (read_catalogue_of lib pf evs _) eq_refl) as A. pose proof (proj1 (read_catalogue_of lib' pf evs _) eq_refl) as B.
  destruct A as [x ls' E|ls' E|u ls' l E S Rd|u ls' x E S HF|u ls' forms l E S HF Rd];
    destruct B as [x2 ls2 E2|ls2 E2|u2 ls2 l2 E2 S2 Rd2|u2 ls2 x2 E2 S2 HF2|u2 ls2 forms2 l2 E2 S2 HF2 Rd2]; rewrite E in E2; try discriminate; injection E2; intros; subst; try congruence; cbn; auto.
  - repeat split. f_equal. eapply reads_det; eauto.
  - rewrite HF in HF2. injection HF2 as <-. repeat split. eapply reads_det; eauto.
Qed.

(** * Definition lists *)
Lemma definitions_bindings s ds : definitions s ds -> bindings s ds.
Proof.
  induction 1 as [w B|w k w' t v r ds B NE K B' N T D IH]; [constructor; exact B|]. apply bi_bind; auto. split.
  - split; [exact NE|]. intros c I. apply K, I.
  - intros I. apply (K 61); [|reflexivity]. destruct k; [destruct I|right; exact I].
Qed.
Lemma definitions_end s ds : definitions s ds -> ds = [] /\ blanks s \/ exists p w, s = p ++ 59 :: w /\ blanks w.
Proof.
  induction 1 as [w B|w k w' t v r ds B NE K B' N T D IH]; [left; auto|right].
  destruct IH as [[_ Br]|(p & w2 & -> & Br)].
  - exists (w ++ k ++ w' ++ 61 :: t), r. split; [rewrite <- !app_assoc; reflexivity|exact Br].
  - exists (w ++ k ++ w' ++ 61 :: t ++ 59 :: p), w2. split; [|exact Br]. rewrite <- !app_assoc. cbn [app]. rewrite <- !app_assoc. reflexivity.
Qed.
Lemma definitions_list s ds : definitions s ds -> definition_list s.
Proof.
  intros H. destruct H as [w B|w k w' t v r ds B NE K B' N T D]; [left; exact B|right].
  destruct (definitions_end r ds D) as [[_ Br]|(p & w2 & -> & Br)].
  - exists w, k, w', t, r. repeat split; auto. intros c I. apply K, I.
  - exists w, k, w', (t ++ 59 :: p), w2. split; [rewrite <- app_assoc; reflexivity|]. repeat split; auto. intros c I. apply K, I.
Qed.
Theorem definitions_read s ds : one_line s -> definitions s ds -> exists m, parse_map s = Some m /\ forall k, sm_get k m = last_value k ds.
Proof.
  intros OL D. pose proof (parse_map_spec s OL) as M. destruct (parse_map s) as [m|]; [|destruct (M (definitions_list _ _ D))].
  destruct M as [_ (bs & B & G)]. rewrite (bindings_det _ _ _ OL B (definitions_bindings _ _ D)) in G. eauto.
Qed.
Theorem definition_list_accepted s : one_line s -> ((exists m, parse_map s = Some m) <-> definition_list s).
Proof.
  intros OL. pose proof (parse_map_spec s OL) as M. destruct (parse_map s) as [m|]; split; try intros; try tauto.
  - eauto.
  - destruct H as (m & ?). discriminate.
Qed.
(** The number of forms. *)
Theorem count_read pf def f bs : one_line def -> bindings def bs -> plural_forms_parse pf def = Ok f -> count_of pf (last_value (lit "nplurals") bs) (pf_count f).
Proof.
  intros OL B E. apply forms_parse_iff in E as (bs' & _ & B' & _ & _ & _ & C); [|exact OL]. rewrite (bindings_det _ _ _ OL B B'). exact C.
Qed.
Theorem count_rejected pf def bs s : one_line def -> bindings def bs -> last_value (lit "nplurals") bs = Some s -> (forall v, ~ unsigned pf s v) ->
  exists x, plural_forms_parse pf def = Err x.
Proof.
  intros OL B L N. destruct (plural_forms_parse pf def) as [f|x|] eqn:E; [|eauto|destruct (plural_forms_parse_no_panic _ _ E)].
  pose proof (count_read pf def f bs OL B E) as C. rewrite L in C. destruct (N _ C).
Qed.
Lemma unsigned_det pf s v v' : unsigned pf s v -> unsigned pf s v' -> v = v'.
Proof. rewrite <- !parse_unsigned_iff. congruence. Qed.
