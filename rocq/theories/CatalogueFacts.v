(** Catalogues of corresponding lines; catalogues as functions of the contents of a stream. *)
From Coq Require Import String Arith NArith ZArith Bool List Lia.
From Verif Require Import ModelBase ModelUtf8 ModelLine ModelFormula ModelData ModelSource ModelReader
  SpecLine SpecSource SpecReader BaseFacts SourceFacts IterFacts ReaderFacts ReadsFacts.
Import ListNotations.

Section CatSim.
  Variable Rn : N -> N -> Prop.
  Variable Rt : str -> str -> Prop.
  Hypothesis Rt_refl : forall s, Rt s s.
  Lemma reads_sim forms a b l l' : lsim Rn Rt a b -> reads forms a l -> reads forms b l' -> Forall2 (uitem_sim Rn Rt) l l'.
  Proof.
    intros S H; revert b l' S; induction H as [a a' E|a e a' E|a u a' l E H IH]; intros b l' S H';
      destruct (runit_sim Rn Rt Rt_refl forms false _ _ S) as [Hl Ho]; rewrite E in Hl, Ho; cbn [fst snd] in Hl, Ho;
      inversion H' as [b0 b' E'|b0 e' b' E'|b0 u' b' l0 E' H0]; subst; rewrite E' in Hl, Ho; cbn [fst snd] in Hl, Ho; try contradiction; try discriminate.
    - constructor.
    - repeat constructor; exact Ho.
    - injection Ho as <-. constructor; [constructor|]. exact (IH _ _ Hl H0).
  Qed.
  Lemma header_forms_err pf props e : header_forms pf props = Err e -> error_sim Rn Rt e e.
  Proof.
    unfold header_forms. destruct (sm_get _ _) as [d|]; [|discriminate]. destruct (is_empty d); [discriminate|].
    pose proof (plural_forms_parse_no_panic pf d) as NP. unfold plural_forms_parse in *.
    destruct (parse_map d); [|intros [= <-]; apply sim_header].
    destruct (formula_parse _); [|intros [= <-]; constructor].
    destruct (sm_get _ _) as [np|]; [|discriminate]. destruct (parse_unsigned _ np); [discriminate|intros [= <-]; constructor].
  Qed.
  Theorem catalogue_of_sim lib pf a b o o' : lsim Rn Rt a b ->
    catalogue_of lib pf a o -> catalogue_of lib pf b o' -> catalogue_sim Rn Rt o o'.
  Proof.
    intros S H H'. destruct (runit_sim Rn Rt Rt_refl None true _ _ S) as [Hl Ho].
    destruct H as [e a' E|a' E|u a' l E M R|u a' e E M F|u a' forms l E M F R]; rewrite E in Hl, Ho;
      destruct H' as [e0 b' E'|b' E'|u' b' l' E' M' R'|u' b' e' E' M' F'|u' b' forms' l' E' M' F' R']; rewrite E' in Hl, Ho;
      cbn [fst snd] in Hl, Ho; try contradiction; try discriminate; try (injection Ho as <-); try congruence.
    - constructor; exact Ho.
    - constructor; constructor.
    - constructor. constructor; [constructor|]. exact (reads_sim _ _ _ _ _ Hl R R').
    - rewrite F in F'. injection F' as <-. constructor. eapply header_forms_err, F.
    - assert (forms = forms') as <- by congruence. constructor. exact (reads_sim _ _ _ _ _ Hl R R').
  Qed.
End CatSim.

(** ** Equal line numbers *)
Lemma error_sim_eq e e' : error_sim eq eq e e' -> e = e'.
Proof. intros []; congruence. Qed.
Lemma uitem_sim_eq l l' : Forall2 (uitem_sim eq eq) l l' -> l = l'.
Proof. induction 1 as [|x y l l' [] H IH]; [reflexivity|congruence|]. f_equal; [f_equal; apply error_sim_eq; assumption|exact IH]. Qed.
Lemma catalogue_sim_eq o o' : catalogue_sim eq eq o o' -> o = o'.
Proof. intros []; f_equal; [|apply error_sim_eq; assumption]. f_equal. apply uitem_sim_eq; assumption. Qed.

(** ** Lists of responses *)
Definition clean (ls : lines) : Prop := ~ In (Some (ILine PBlank)) ls.
Lemma clean_cons x ls : clean (x :: ls) <-> x <> Some (ILine PBlank) /\ clean ls.
Proof. unfold clean; cbn; intuition. Qed.
Lemma error_sim_refl (Rn : N -> N -> Prop) (Rt : str -> str -> Prop) e : (forall n, Rn n n) -> (forall s, Rt s s) -> error_sim Rn Rt e e.
Proof. intros H H'. destruct e; constructor; auto. Qed.
Lemma item_sim_refl (Rn : N -> N -> Prop) (Rt : str -> str -> Prop) x : (forall n, Rn n n) -> (forall s, Rt s s) -> x <> ILine PBlank -> item_sim Rn Rt x x.
Proof. intros H H'. destruct x as [[| | |]|]; intros B; try congruence; repeat constructor; auto. apply error_sim_refl; assumption. Qed.
Lemma lsim_refl (Rn : N -> N -> Prop) (Rt : str -> str -> Prop) ls : (forall n, Rn n n) -> (forall s, Rt s s) -> clean ls -> lsim Rn Rt ls ls.
Proof.
  intros H H'. induction ls as [|[x|] ls IH]; intros C; try apply clean_cons in C as [C C']; constructor; auto.
  apply item_sim_refl; [exact H|exact H'|congruence].
Qed.
Lemma same_lsim a : forall b, clean a -> same_responses a b -> lsim eq eq a b.
Proof.
  induction a as [|x a IH]; intros b C S.
  - induction b as [|y b IHb]; [constructor|]. assert (y = None) as -> by (symmetry; exact (S 0)).
    constructor. apply IHb. intros k. specialize (S (Datatypes.S k)). cbn in S. destruct k; exact S.
  - apply clean_cons in C as [C C']. destruct b as [|y b].
    + assert (x = None) as -> by (exact (S 0)). constructor. apply IH; [exact C'|].
      intros k. specialize (S (Datatypes.S k)). cbn in S. rewrite S. destruct k; reflexivity.
    + assert (x = y) as <- by (exact (S 0)).
      assert (lsim eq eq a b) as L by (apply IH; [exact C'|intros k; exact (S (Datatypes.S k))]).
      destruct x as [x|]; constructor; try exact L. apply item_sim_refl; [reflexivity|reflexivity|congruence].
Qed.
Lemma items_clean ls e : forall n, clean (items n ls e).
Proof.
  induction ls as [|l ls IH]; intros n; cbn [items].
  - destruct e; unfold clean; cbn; intuition discriminate.
  - destruct (parse_line l n) as [[| | |]|]; try apply IH; try (apply clean_cons; split; [discriminate|apply IH]).
    unfold clean; cbn; intuition discriminate.
Qed.

(** ** The catalogue of a stream with given contents *)
Theorem catalogue_contents lib pf evs bs f ls e o : delivers evs bs f -> contents bs f ls e ->
  (read_catalogue lib pf evs = o <-> catalogue_of lib pf (items 1 ls e) o).
Proof.
  intros D C. rewrite read_catalogue_of. pose proof (responses_contents _ _ _ _ _ D C) as S.
  assert (lsim eq eq (items 1 ls e) (responses (li_new evs))) as L.
  { apply same_lsim; [apply items_clean|]. intros k. symmetry. apply S. }
  assert (forall o o', catalogue_of lib pf (items 1 ls e) o -> catalogue_of lib pf (responses (li_new evs)) o' -> o = o') as K.
  { intros o1 o2 H1 H2. apply catalogue_sim_eq. exact (catalogue_of_sim eq eq (@eq_refl _) _ _ _ _ _ _ L H1 H2). }
  assert (forall x, exists o, catalogue_of lib pf x o) as T.
  { intros x. pose proof (reader_new_cases lib pf x) as R. destruct (reader_new lib pf x); [|eauto|contradiction].
    destruct R as (l & _ & _ & R). eauto. }
  split; intros H.
  - destruct (T (items 1 ls e)) as (o' & H'). rewrite <- (K _ _ H' H). exact H'.
  - destruct (T (responses (li_new evs))) as (o' & H'). rewrite (K _ _ H H'). exact H'.
Qed.
Corollary same_contents lib pf evs evs' bs bs' f f' ls e : delivers evs bs f -> delivers evs' bs' f' ->
  contents bs f ls e -> contents bs' f' ls e -> read_catalogue lib pf evs = read_catalogue lib pf evs'.
Proof.
  intros D D' C C'. apply (catalogue_contents lib pf _ _ _ _ _ _ D C).
  apply (catalogue_contents lib pf _ _ _ _ _ _ D' C'). reflexivity.
Qed.
Theorem chunking lib pf evs evs' bs f : delivers evs bs f -> delivers evs' bs f ->
  read_catalogue lib pf evs = read_catalogue lib pf evs'.
Proof. intros D D'. destruct (contents_total bs f) as (ls & e & C). exact (same_contents _ _ _ _ _ _ _ _ _ _ D D' C C). Qed.
Lemma lsim_catalogue lib pf Rn (Rt : str -> str -> Prop) evs evs' bs bs' f f' ls ls' e e' : (forall s, Rt s s) -> delivers evs bs f -> delivers evs' bs' f' ->
  contents bs f ls e -> contents bs' f' ls' e' -> lsim Rn Rt (items 1 ls e) (items 1 ls' e') ->
  catalogue_sim Rn Rt (read_catalogue lib pf evs) (read_catalogue lib pf evs').
Proof.
  intros HR D D' C C' L. eapply catalogue_of_sim; [exact HR|exact L| |].
  - apply (catalogue_contents lib pf _ _ _ _ _ _ D C). reflexivity.
  - apply (catalogue_contents lib pf _ _ _ _ _ _ D' C'). reflexivity.
Qed.
