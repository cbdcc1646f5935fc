(** Errors about plural forms. *)
From Coq Require Import String Arith NArith ZArith Bool List Lia.
From Verif Require Import ModelBase ModelUtf8 ModelRegex ModelLine ModelFormula ModelData ModelSource ModelReader
  SpecLine SpecFormula SpecSource SpecReader SpecBlock SpecHeader SpecFile SpecFault BaseFacts LineFacts LineThms FormulaFacts FormulaThms DecFacts ReaderFacts
  ReadsFacts CatalogueFacts LocalFacts StreamFacts BlockFacts CommentFacts UnitFacts SoundFacts BlocksFacts FileFacts MapFacts HeaderFacts BlockThms EntryThms HeaderThms.
Import ListNotations.
Local Open Scope N_scope.

Lemma digits_invalid max ds : forall a c r, all_digits ds -> (dv (Z.of_N a) ds <= Z.of_N max)%Z -> c < 48 \/ 57 < c ->
  parse_digits max a (ds ++ c :: r) = inr IntInvalidDigit.
Proof.
  induction ds as [|d ds IH]; intros a c r A V C; cbn [parse_digits app].
  - destruct (is_digit c) eqn:D; [apply is_digit_iff in D; lia|reflexivity].
  - assert (48 <= d <= 57) as Hd by (apply A; left; reflexivity). destruct (is_digit d) eqn:D; [|apply not_true_iff_false in D; destruct (D (proj2 (is_digit_iff d) Hd))].
    assert (all_digits ds) as A' by (intros x Hx; apply A; right; exact Hx).
    change (dv (Z.of_N a) (d :: ds)) with (dv (Z.of_N a * 10 + (Z.of_N d - 48))%Z ds) in V.
    replace (Z.of_N a * 10 + (Z.of_N d - 48))%Z with (Z.of_N (a * 10 + (d - 48))) in V by lia.
    pose proof (dv_mono ds (Z.of_N (a * 10 + (d - 48))) ltac:(lia) A').
    destruct (N.ltb_spec max (a * 10)); [lia|]. destruct (N.ltb_spec max (a * 10 + (d - 48))); [lia|]. apply IH; assumption.
Qed.
Lemma digits_large max ds : forall a r, all_digits ds -> a <= max -> (Z.of_N max < dv (Z.of_N a) ds)%Z ->
  parse_digits max a (ds ++ r) = inr IntPosOverflow.
Proof.
  induction ds as [|d ds IH]; intros a r A M V; cbn [parse_digits app].
  - change (dv (Z.of_N a) []) with (Z.of_N a) in V. lia.
  - assert (48 <= d <= 57) as Hd by (apply A; left; reflexivity). destruct (is_digit d) eqn:D; [|apply not_true_iff_false in D; destruct (D (proj2 (is_digit_iff d) Hd))].
    assert (all_digits ds) as A' by (intros x Hx; apply A; right; exact Hx).
    change (dv (Z.of_N a) (d :: ds)) with (dv (Z.of_N a * 10 + (Z.of_N d - 48))%Z ds) in V.
    replace (Z.of_N a * 10 + (Z.of_N d - 48))%Z with (Z.of_N (a * 10 + (d - 48))) in V by lia.
    destruct (N.ltb_spec max (a * 10)); [reflexivity|]. destruct (N.ltb_spec max (a * 10 + (d - 48))); [reflexivity|]. apply IH; [assumption|lia|exact V].
Qed.
Lemma digits_fault max t : forall a e, a <= max -> parse_digits max a t = inr e ->
  (exists ds c r, t = ds ++ c :: r /\ all_digits ds /\ (dv (Z.of_N a) ds <= Z.of_N max)%Z /\ (c < 48 \/ 57 < c) /\ e = IntInvalidDigit)
  \/ (exists ds r, t = ds ++ r /\ all_digits ds /\ (Z.of_N max < dv (Z.of_N a) ds)%Z /\ e = IntPosOverflow).
Proof.
  induction t as [|d t IH]; intros a e M; cbn [parse_digits]; [discriminate|].
  destruct (is_digit d) eqn:D.
  - apply is_digit_iff in D.
    assert (forall ds, dv (Z.of_N a) (d :: ds) = dv (Z.of_N (a * 10 + (d - 48))) ds) as V.
    { intros ds. change (dv (Z.of_N a) (d :: ds)) with (dv (Z.of_N a * 10 + (Z.of_N d - 48))%Z ds). f_equal. lia. }
    assert (max < a * 10 + (d - 48) -> inr IntPosOverflow = inr e :> N + int_err -> exists ds r, d :: t = ds ++ r /\ all_digits ds /\ (Z.of_N max < dv (Z.of_N a) ds)%Z /\ e = IntPosOverflow) as K.
    { intros L [= <-]. exists [d], t. split; [reflexivity|]. split; [intros x [<-|[]]; exact D|]. rewrite V. cbn [dv fold_left]. split; [lia|reflexivity]. }
    destruct (N.ltb_spec max (a * 10)); [intros E; right; apply K; [lia|exact E]|].
    destruct (N.ltb_spec max (a * 10 + (d - 48))); [intros E; right; apply K; [lia|exact E]|].
    intros E. apply IH in E as [(ds & c & r & -> & A & Vd & C & ->)|(ds & r & -> & A & Vd & ->)]; [| |lia].
    + left. exists (d :: ds), c, r. split; [reflexivity|]. split; [intros x [<-|I]; [exact D|exact (A x I)]|]. rewrite V. auto.
    + right. exists (d :: ds), r. split; [reflexivity|]. split; [intros x [<-|I]; [exact D|exact (A x I)]|]. rewrite V. auto.
  - intros [= <-]. left. exists [], d, t. split; [reflexivity|]. split; [intros x []|]. cbn [dv fold_left]. split; [lia|]. split; [|reflexivity].
    apply not_true_iff_false in D. rewrite is_digit_iff in D. lia.
Qed.
Lemma word_bound pf v : (v <= Z.of_N (usize_max pf))%Z <-> (v < 2 ^ Z.of_N (usize_bits pf))%Z.
Proof.
  unfold usize_max. assert (0 < 2 ^ usize_bits pf) by (apply N.neq_0_lt_0, N.pow_nonzero; discriminate).
  rewrite N2Z.inj_sub by lia. rewrite N2Z.inj_pow. change (Z.of_N 2) with 2%Z. change (Z.of_N 1) with 1%Z. lia.
Qed.
Lemma count_fault_iff pf s m : count_fault pf s m <-> exists e, parse_unsigned (usize_max pf) s = inr e /\ m = int_err_msg e.
Proof.
  split.
  - assert (forall s t, unsigned_text s t -> t <> [] -> parse_unsigned (usize_max pf) s = parse_digits (usize_max pf) 0 t) as K.
    { intros s0 t U NE. unfold parse_unsigned. destruct U as [t|c t D]; [cbn [N.eqb Pos.eqb]; destruct t; [contradiction|reflexivity]|].
      destruct (N.eqb_spec c 43); [contradiction|reflexivity]. }
    intros [ | |s0 ds c r U A V C|s0 ds r U A V].
    + exists IntEmpty. split; reflexivity.
    + exists IntInvalidDigit. split; reflexivity.
    + exists IntInvalidDigit. split; [|reflexivity]. rewrite (K _ _ U) by (destruct ds; discriminate). apply digits_invalid; [exact A| |exact C]. apply word_bound, V.
    + exists IntPosOverflow. split; [|reflexivity]. assert (ds <> []) as NE.
      { intros ->. change (digits_value []) with 0%Z in V. pose proof (Z.pow_pos_nonneg 2 (Z.of_N (usize_bits pf)) ltac:(lia) ltac:(lia)). lia. }
      rewrite (K _ _ U) by (destruct ds; [contradiction|discriminate]). apply digits_large; [exact A|lia|].
      change (dv (Z.of_N 0) ds) with (digits_value ds). destruct (Z.lt_ge_cases (Z.of_N (usize_max pf)) (digits_value ds)) as [L|L]; [exact L|]. apply word_bound in L. lia.
  - intros (e & P & ->).
    assert (forall t, unsigned_text s t -> parse_digits (usize_max pf) 0 t = inr e -> count_fault pf s (int_err_msg e)) as K.
    { intros t U E. apply digits_fault in E as [(ds & c & r & -> & A & V & C & ->)|(ds & r & -> & A & V & ->)]; [| |lia]; change (dv (Z.of_N 0) ds) with (digits_value ds) in V.
      - apply (cf_digit _ _ ds c r); [exact U|exact A|apply word_bound, V|exact C].
      - apply (cf_large _ _ ds r); [exact U|exact A|]. destruct (Z.lt_ge_cases (digits_value ds) (2 ^ Z.of_N (usize_bits pf))) as [L|L]; [|exact L]. apply word_bound in L. lia. }
    unfold parse_unsigned in P. destruct s as [|c s]; [injection P as <-; constructor|].
    destruct (N.eqb_spec c 43) as [->|D].
    + destruct s as [|d s]; [injection P as <-; constructor|]. exact (K _ (ut_plus _) P).
    + exact (K _ (ut_bare _ _ D) P).
Qed.

Theorem forms_fault_iff pf def x : one_line def -> (plural_forms_parse pf def = Err x <-> forms_fault pf def x).
Proof.
  intros OL. unfold plural_forms_parse. pose proof (parse_map_spec def OL) as M. destruct (parse_map def) as [m|].
  - destruct M as [D (bs & B & G)]. rewrite !G.
    replace (unwrap_or_default (last_value (lit "plural") bs)) with (opt_str (last_value (lit "plural") bs)) by (destruct (last_value (lit "plural") bs); reflexivity).
    split.
    + destruct (formula_parse _) as [e|] eqn:F.
      * destruct (last_value (lit "nplurals") bs) as [s|] eqn:L; [|discriminate]. destruct (parse_unsigned _ s) as [v|er] eqn:P; [discriminate|]. intros [= <-].
        eapply ff_count; [exact D|exact B|apply formula_parse_iff, F|exact L|]. apply count_fault_iff. eauto.
      * intros [= <-]. eapply ff_formula; [exact D|exact B|]. intros e E. apply formula_parse_iff in E. congruence.
    + intros [ND|bs' _ B' NF|bs' e s m' _ B' F L C]; [contradiction|..]; rewrite <- (bindings_det _ _ _ OL B B') in *.
      * destruct (formula_parse _) as [e|] eqn:F; [|reflexivity]. destruct (NF e). apply formula_parse_iff, F.
      * apply formula_parse_iff in F. rewrite F, L. apply count_fault_iff in C as (er & -> & ->). reflexivity.
  - split.
    + intros [= <-]. apply ff_list, M.
    + intros [_|bs' D _ _|bs' e s m' D _ _ _ _]; [reflexivity|contradiction|contradiction].
Qed.
Theorem forms_fault_unique pf def x y : one_line def -> forms_fault pf def x -> forms_fault pf def y -> x = y.
Proof. intros OL X Y. apply forms_fault_iff in X; [|exact OL]. apply forms_fault_iff in Y; [|exact OL]. congruence. Qed.
(** A definition can be used, or there is an error. *)
Theorem forms_or_fault pf def : one_line def -> (exists f, forms_of pf def f) \/ (exists x, forms_fault pf def x).
Proof.
  intros OL. destruct (plural_forms_parse pf def) as [f|x|] eqn:E.
  - left. exists f. apply forms_parse_iff; assumption.
  - right. exists x. apply forms_fault_iff; assumption.
  - unfold plural_forms_parse in E. destruct (parse_map def); [|discriminate]. destruct (formula_parse _); [|discriminate]. destruct (sm_get _ _); [|discriminate]. destruct (parse_unsigned _ _); discriminate.
Qed.
Theorem forms_not_both pf def f x : one_line def -> forms_of pf def f -> ~ forms_fault pf def x.
Proof. intros OL F X. apply forms_parse_iff in F; [|exact OL]. apply forms_fault_iff in X; [|exact OL]. congruence. Qed.
(** A file whose header has such a definition: the error is that one. *)
Theorem header_fault lib pf evs ls e pl tl h u ps r x : file evs ls e pl tl -> pl = h ++ r -> first_entry h r tl u -> header u ps ->
  (read_catalogue lib pf evs = Err x <->
   exists def, property ps (lit "Plural-Forms") = Some def /\ def <> [] /\ forms_fault pf def x).
Proof.
  intros Fi -> Fe H. pose proof Fi as (bs & f & D & C & P). pose proof (file_catalogue lib pf evs bs f ls e (h ++ r) tl) as FC.
  pose proof (proj2 (FC (Err (EPluralForms [])) D C P)) as W0. pose proof W0 as W. apply Forall_app in W as [_ W].
  pose proof H as H'. apply header_intro in H' as [S HP]. pose proof (header_complete lib pf h u r tl W0 Fe S) as X.
  assert (header_forms pf (header_props u) = Err x <-> exists def, property ps (lit "Plural-Forms") = Some def /\ def <> [] /\ forms_fault pf def x) as K.
  { unfold header_forms. rewrite (header_props_spec u ps) by exact HP. destruct (property ps (lit "Plural-Forms")) as [def|] eqn:Ed.
    - pose proof (property_one_line _ _ _ _ HP Ed) as OL.
      destruct def as [|c def]; cbn [is_empty]; split; [discriminate|intros (d & [= <-] & NE & _); contradiction| |].
      + destruct (plural_forms_parse pf (c :: def)) as [fm|y|] eqn:E; try discriminate. intros [= ->]. exists (c :: def). split; [reflexivity|]. split; [discriminate|]. apply forms_fault_iff; assumption.
      + intros (d & [= <-] & _ & F). apply forms_fault_iff in F; [|exact OL]. rewrite F. reflexivity.
    - split; [discriminate|intros (d & ? & _); discriminate]. }
  rewrite <- K. clear K. destruct (header_forms pf (header_props u)) as [forms|y|] eqn:HF; [| |contradiction].
  - split; [|discriminate]. intros R. destruct (blocks_total forms r tl W) as (us & o & B).
    destruct (read_header lib pf evs ls e _ tl h u ps r forms us o Fi eq_refl Fe H (proj1 (header_forms_iff pf u ps forms HP) HF) B) as (c & R' & _). congruence.
  - assert (read_catalogue lib pf evs = Err y) as -> by (eapply FC; eauto). split; intros [= ->]; reflexivity.
Qed.
