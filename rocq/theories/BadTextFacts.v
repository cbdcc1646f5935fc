(** Exactly these errors come out of reading, with the texts of errors about formulas (C120). *)
From Coq Require Import String Arith NArith ZArith Bool List Lia.
From Verif Require Import ModelBase ModelLine ModelFormula ModelData ModelUtf8 ModelSource ModelReader ModelParser ModelReport
  SpecLine SpecFormula SpecSource SpecReader SpecBlock SpecHeader SpecFault SpecFile SpecAny SpecWriter SpecParser SpecPossible SpecBadEnds SpecBadTexts
  BaseFacts LineFacts SourceFacts IterFacts ReaderFacts ReadsFacts CatalogueFacts StreamFacts BlockFacts BlocksFacts SoundFacts FirstFacts FileFacts MapFacts HeaderFacts FormulaFacts FormulaThms BlockThms HeaderThms
  WriterFacts WritableFacts AccessFacts PieceFacts AnyFacts AnyErrors FaultFacts ParserThms ReportFacts RenamedReport ReportLayout PossibleFacts PlaceErrors BadEndFacts.
Import ListNotations.
Local Open Scope N_scope.

Section Texts.
  Variable early : list symbol -> option tok -> bool.
  Variable expected : str -> fault -> list str.
  Hypothesis Ca : cautious early.

  Theorem text_possible lib pf evs x : ends_with_error (report_catalogue early expected lib pf evs) x -> text_error expected pf x.
  Proof.
    destruct (report_cases early expected Ca lib pf evs) as [[-> N]|(u & l & def & y & Qu & G & F & -> & E)].
    - intros H. apply te_other; [exact (error_possible _ _ _ _ H)|]. intros ->. destruct H as [H|(c & us & H & E)]; [contradiction|].
      pose proof (any_iteration_error lib pf evs c (EPluralForms formula_error_text) H) as IE. rewrite E in IE. specialize (IE ltac:(apply in_or_app; right; left; reflexivity)). inversion IE.
    - intros [[= <-]|(c & us & H & _)]; [|discriminate H]. destruct (all_calls evs) as (bs & f & rs & P & A & _).
      pose proof (proj1 (any_catalogue lib pf _ _ _ _ _ P A) E) as Rc. remember (Err (EPluralForms formula_error_text)) as o eqn:Eo.
      assert (lsim eq eq rs (responses (li_new evs))) as L.
      { apply same_lsim; [exact (answers_clean _ _ _ _ A)|]. intros j. rewrite responses_exact. symmetry. exact (any_calls _ _ _ _ _ P A). }
      destruct (runit_sim eq eq (@eq_refl _) None true _ _ L) as [_ Ho]. rewrite Qu in Ho. cbn [fst] in Ho.
      destruct Rc as [e r Ee|r Ee|v r k Ee M Rr|v r e Ee M HF|v r forms k Ee M HF Rr]; try discriminate; rewrite Ee in Ho; cbn [fst] in Ho; try contradiction. injection Eo as ->. injection Ho as ->.
      destruct (header_alone _ _ _ _ _ _ _ A Ee M HF) as (h & q & ps & def' & Ek & En & H & Pd & NE & Ff).
      assert (Forall sane h) as Sh. { apply answers_kept in A. rewrite Ek in A. apply Forall_app in A as [A _]. rewrite Forall_forall in *. intros t I. apply A, I. }
      destruct (header_all_texts _ _ _ (or_introl En) H Sh) as (_ & _ & T & S). destruct (values_shape _ _ _ T S Pd) as [V W].
      pose proof H as H'. apply header_intro in H' as [_ HP]. pose proof (property_one_line _ _ _ _ HP Pd) as OL.
      pose proof (header_props_spec u ps (lit "Plural-Forms") HP) as G'. rewrite G, Pd in G'. injection G' as <-.
      unfold header_forms in HF. rewrite G in HF. destruct (is_empty def) eqn:D; [discriminate|]. 
      destruct (forms_differ early expected pf def Ca) as [[E1 E2]|(w & w1 & m & w2 & ft & Pm & Pf & Es & B1 & B2 & N & W1 & W2 & FO & E1 & E2)].
      { exfalso. apply E2. destruct (plural_forms_parse pf def); try discriminate HF. injection HF as ->. reflexivity. }
      rewrite F in E1. injection E1 as ->. apply (te_formula _ _ def). pose proof (parse_map_spec def OL) as PS. rewrite Pm in PS. destruct PS as [DL (vs & Bi & Gv)].
      exists vs, w1, m, w2. do 4 (split; [assumption|]). split; [|do 6 (split; [assumption|]); assumption].
      rewrite <- Gv. unfold formula_source in *. destruct (sm_get (lit "plural") w) as [z|]; cbn [unwrap_or_default] in *; [reflexivity|].
      destruct w1; [|discriminate Es]. destruct m; [contradiction|discriminate Es].
  Qed.
  Lemma other_comes_out lib pf x : possible_error pf x -> x <> EPluralForms formula_error_text -> exists evs bs f, delivers evs bs f /\ ends_with_error (report_catalogue early expected lib pf evs) x.
  Proof.
    intros P N. destruct (possible_comes_out lib pf x P) as (evs & bs & f & D & H). exists evs, bs, f. split; [exact D|].
    destruct (report_cases early expected Ca lib pf evs) as [[-> _]|(u & l & def & y & Qu & G & F & _ & E)]; [exact H|].
    exfalso. rewrite E in H. destruct H as [[= <-]|(c & us & H & _)]; [contradiction|discriminate H].
  Qed.
  Lemma fault_is_none s w1 m w2 ft : s = w1 ++ m ++ w2 -> blanks w1 -> blanks w2 -> m <> [] -> not_white_first m -> not_white_last m -> fault_of m ft -> formula_parse s = None.
  Proof.
    intros -> B1 B2 N F L FO. assert (trimmed m) as Tm.
    { split.
      - destruct m as [|c m]; [contradiction|]. cbn. destruct (is_ws c) eqn:E; [|reflexivity]. apply is_ws_white in E. destruct (F c m eq_refl E).
      - destruct (exists_last N) as (m' & c & ->). unfold no_end. rewrite rev_app_distr. cbn. destruct (is_ws c) eqn:E; [|reflexivity]. apply is_ws_white in E. destruct (L c m' eq_refl E). }
    assert (formula_parse (w1 ++ m ++ w2) = formula_parse m) as E.
    { unfold formula_parse. rewrite (trim_unique w1 m w2), (trim_id m) by (auto; apply blanks_forallb; assumption). reflexivity. }
    rewrite E. destruct (formula_parse m) as [e|] eqn:Pm; [exfalso|reflexivity]. apply formula_parse_iff in Pm as [[B _]|(_ & ts & To & De)].
    - destruct m as [|c m]; [contradiction|]. apply (F c m eq_refl). apply B. left. reflexivity.
    - exact (fault_no_formula _ _ _ _ FO To De).
  Qed.
  Lemma formula_comes_out lib pf def s ft : formula_fault def s ft -> (forall ft', formula_fault def s ft' -> ft' = ft) ->
    exists evs bs f, delivers evs bs f /\ ends_with_error (report_catalogue early expected lib pf evs) (EPluralForms (fault_text (expected s ft) ft)).
  Proof.
    intros (vs & w1 & m & w2 & Sh & Sd & DL & Bi & LV & Es & B1 & B2 & N & W1 & W2 & FO) U.
    pose proof (fault_is_none _ _ _ _ _ Es B1 B2 N W1 W2 FO) as NF.
    assert (def <> []) as NE.
    { intros ->. assert (one_line []) as O by (intros []). assert (bindings [] []) as B0 by (constructor; intros c []). rewrite (bindings_det _ _ _ O Bi B0) in LV. discriminate LV. }
    destruct (spread_properties [(lit "Plural-Forms", def)]) as (ps & T & S & P).
    { constructor; [intros []|constructor]. }
    { intros k v [[= <- <-]|[]]. split; [exact Sh|]. split; [|exact Sd]. intros c I. cbn in I. left. lia. }
    destruct (catalogue_has_file [] [] ps None []) as (hls & uls & bs & Wh & Wu & C); [intros n []|intros c []|exact T|exact S|constructor|].
    destruct (delivers_single bs None) as (evs & D). exists evs, bs, None. split; [exact D|]. left.
    pose proof (WriterFacts.contents_one_line _ _ _ _ C) as Pl. apply plain_app in Pl as [Ph Pu].
    destruct (header_read _ _ _ _ Wh Ph 1) as (h & u & R & E & H & _ & _). destruct (units_read _ _ _ Wu Pu (1 + N.of_nat (length hls))) as (bls & R' & Fb).
    assert (file evs (hls ++ uls) None (h ++ concat bls) None) as Fi by (exists bs, None; split; [exact D|]; split; [exact C|]; apply rd_app; assumption).
    pose proof (entries_ends None None h u _ [] E (entries_only _ _ _ Fb)) as Ea. pose proof (fe_entry _ _ _ _ E Ea) as Fe.
    assert (property ps (lit "Plural-Forms") = Some def) as Pd by (rewrite P; reflexivity).
    pose proof H as H'. apply header_intro in H' as [_ HP]. pose proof (property_one_line _ _ _ _ HP Pd) as OL.
    assert (read_catalogue lib pf evs = Err (EPluralForms formula_error_text)) as Rd.
    { apply (header_fault lib pf _ _ _ _ _ _ _ _ _ _ Fi eq_refl Fe H). exists def. split; [exact Pd|]. split; [exact NE|]. eapply ff_formula; [exact DL|exact Bi|]. rewrite LV. cbn [opt_str].
      intros e Fo. apply formula_parse_iff in Fo. congruence. }
    destruct (report_cases early expected Ca lib pf evs) as [[_ Nb]|(v & l & def' & y & Qu & G & F & -> & _)]; [contradiction|].
    rewrite (first_property _ _ _ _ _ _ _ _ _ _ Fi Fe H Qu), Pd in G. injection G as <-.
    pose proof (parse_map_spec def OL) as PS.
    destruct (forms_differ early expected pf def Ca) as [[E1 E2]|(w & v1 & k & v2 & ft' & Pm & Pf & Ek & C1 & C2 & N' & X1 & X2 & FO' & E1 & E2)].
    - exfalso. destruct (parse_map def) as [w|] eqn:Pm; [|contradiction]. destruct PS as [_ (vs' & Bi' & Gv)]. rewrite (bindings_det _ _ _ OL Bi' Bi) in Gv. apply E2.
      unfold plural_forms_parse. rewrite Pm, Gv, LV. cbn [unwrap_or_default]. rewrite NF. reflexivity.
    - rewrite Pm in PS. destruct PS as [_ (vs' & Bi' & Gv)]. rewrite (bindings_det _ _ _ OL Bi' Bi) in Gv.
      assert (formula_source w = s) as Ew by (unfold formula_source; rewrite Gv, LV; reflexivity). rewrite Ew in *.
      assert (ft' = ft) as -> by (apply U; exists vs, v1, k, v2; do 10 (split; [assumption|]); split; assumption).
      congruence.
  Qed.
End Texts.
