(** The reader with the texts of errors about formulas; error messages as lines (C107). *)
From Coq Require Import String Arith NArith ZArith Bool List Lia.
From Verif Require Import ModelBase ModelUtf8 ModelLine ModelFormula ModelData ModelSource ModelReader ModelParser ModelReport
  SpecLine SpecFormula SpecSource SpecReader SpecBlock SpecHeader SpecFile SpecAny SpecParser SpecError SpecSize SpecFault
  BaseFacts LineFacts DecFacts IterFacts ReaderFacts ReadsFacts CatalogueFacts StreamFacts BlockFacts SoundFacts FirstFacts FileFacts MapFacts HeaderFacts BlockThms HeaderThms PieceFacts AnyFacts AnyErrors SizeFacts FaultFacts ParserThms ErrorTextFacts.
Import ListNotations.
Local Open Scope N_scope.

(** * The same results but for the texts of errors about formulas *)
Lemma report_plain lib pf evs : report_all (plural_forms_parse pf) lib evs = read_catalogue lib pf evs.
Proof. reflexivity. Qed.
Lemma report_differs F G bad lib evs : (forall d, (F d = G d /\ G d <> Err bad) \/ exists x, F d = Err x /\ G d = Err bad) ->
  (forall e l, runit None true (responses (li_new evs)) = (Err e, l) -> e <> bad) ->
  (report_all F lib evs = report_all G lib evs /\ report_all G lib evs <> Err bad)
  \/ exists u ls' def x, runit None true (responses (li_new evs)) = (Ok (Some u), ls') /\ msg_is_empty (u_message u) = true
     /\ sm_get (lit "Plural-Forms") (header_props u) = Some def /\ is_empty def = false /\ F def = Err x /\ G def = Err bad
     /\ report_all F lib evs = Err x /\ report_all G lib evs = Err bad.
Proof.
  intros H B. unfold report_all, report_new. rewrite next_unit_eq. cbn [rd_plural_forms rd_lines].
  assert (forall r : safe (option uitem) * reader,
    match match r with (Crash, _) => Panic | (Val nu, r4) => Ok (with_next_unit r4 nu) end with
    | Ok r => match po_collect (S (S (length (responses (li_new evs))))) r with
              | Some l => Ok (Catalogue (rd_header_notes r) (rd_header_comments r) (rd_header_properties r) (rd_target_language r) l) | None => Panic end
    | Err e => Err e | Panic => Panic end <> Err bad) as K.
  { intros [[nu|] r]; [|discriminate]. destruct (po_collect _ _); discriminate. }
  destruct (runit None true (responses (li_new evs))) as [[[u|]|e|] ls'] eqn:R; cbn [fst snd to_item].
  2: { left. split; [reflexivity|]. destruct (po_collect _ _); discriminate. }
  2: { left. split; [reflexivity|]. intros [= E]. exact (B _ _ eq_refl E). }
  2: { left. split; [reflexivity|discriminate]. }
  destruct (msg_is_empty (u_message u)) eqn:M; [|left; split; [reflexivity|destruct (po_collect _ _); discriminate]].
  unfold report_header. cbn [rd_next_unit with_next_unit with_lines rd_header_notes rd_header_comments rd_header_properties rd_target_language rd_plural_forms rd_lines app].
  fold (header_props u). destruct (sm_get (lit "Plural-Forms") (header_props u)) as [d|] eqn:G'; [|left; split; [reflexivity|apply K]].
  destruct (is_empty d) eqn:D; [left; split; [reflexivity|apply K]|].
  destruct (H d) as [[E Nb]|(x & Ex & Ey)].
  - left. rewrite E. split; [reflexivity|]. destruct (G d) as [f|e|]; [apply K|congruence|discriminate].
  - right. exists u, ls', d, x. rewrite Ex, Ey. repeat split; assumption.
Qed.

Definition forms_or_panic early expected pf (def : str) : outcome plural_forms := match forms_result early expected pf def with Some o => o | None => Panic end.
Lemma forms_differ early expected pf d : cautious early ->
  (forms_or_panic early expected pf d = plural_forms_parse pf d /\ plural_forms_parse pf d <> Err (EPluralForms formula_error_text))
  \/ exists values w1 m w2 f, parse_map d = Some values /\ formula_parse (formula_source values) = None
     /\ formula_source values = w1 ++ m ++ w2 /\ blanks w1 /\ blanks w2 /\ m <> [] /\ not_white_first m /\ not_white_last m /\ fault_of m f
     /\ forms_or_panic early expected pf d = Err (EPluralForms (fault_text (expected (formula_source values) f) f))
     /\ plural_forms_parse pf d = Err (EPluralForms formula_error_text).
Proof.
  intros Ca. unfold forms_or_panic. destruct (parse_map d) as [values|] eqn:P.
  - destruct (formula_parse (formula_source values)) as [e|] eqn:F.
    + left. split; [rewrite (forms_same early expected pf d Ca); [reflexivity|]; intros v E; rewrite P in E; injection E as <-; congruence|].
      unfold plural_forms_parse. rewrite P. fold (formula_source values). rewrite F. destruct (sm_get _ _) as [z|]; [|discriminate]. destruct (parse_unsigned _ z) as [|[]]; discriminate.
    + right. destruct (forms_fault early expected pf d values Ca P F) as (w1 & m & w2 & f & E & B1 & B2 & N & W1 & W2 & FO & R).
      exists values, w1, m, w2, f. rewrite R. do 9 (split; [assumption||reflexivity|]). split; [reflexivity|]. unfold plural_forms_parse. rewrite P. fold (formula_source values). rewrite F. reflexivity.
  - left. split; [rewrite (forms_same early expected pf d Ca); [reflexivity|]; intros v E; congruence|]. unfold plural_forms_parse. rewrite P. discriminate.
Qed.
Theorem report_file_sized early expected lib pf evs bs f rs : cautious early -> pieces evs bs f -> answers 1 bs f rs ->
  (report_catalogue early expected lib pf evs = read_catalogue lib pf evs /\ read_catalogue lib pf evs <> Err (EPluralForms formula_error_text))
  \/ exists h r u ps def vs w1 m w2 ft, kept rs = h ++ r /\ entry None h u /\ header u ps /\ property ps (lit "Plural-Forms") = Some def
     /\ bindings def vs /\ last_value (lit "plural") vs = Some (w1 ++ m ++ w2) /\ blanks w1 /\ blanks w2 /\ m <> [] /\ not_white_first m /\ not_white_last m /\ fault_of m ft
     /\ read_catalogue lib pf evs = Err (EPluralForms formula_error_text)
     /\ report_catalogue early expected lib pf evs = Err (EPluralForms (fault_text (expected (w1 ++ m ++ w2) ft) ft)) /\ (length def <= length (concat bs))%nat.
Proof.
  intros Ca P A. rewrite <- report_plain. unfold report_catalogue. fold (forms_or_panic early expected pf).
  assert (lsim eq eq rs (responses (li_new evs))) as L.
  { apply same_lsim; [exact (answers_clean _ _ _ _ A)|]. intros k. rewrite responses_exact. symmetry. exact (any_calls _ _ _ _ _ P A). }
  destruct (runit_sim eq eq (@eq_refl _) None true _ _ L) as [_ Ho].
  destruct (report_differs (forms_or_panic early expected pf) (plural_forms_parse pf) (EPluralForms formula_error_text) lib evs) as [E|(u & ls' & def & x & R & M & G & D & Ex & Ey & Rx & Ry)].
  { intros d. destruct (forms_differ early expected pf d Ca) as [E|(v & w1 & m & w2 & ft & _ & _ & _ & _ & _ & _ & _ & _ & _ & E1 & E2)]; [left; exact E|right; eauto]. }
  { intros e l E ->. rewrite E in Ho. cbn [fst] in Ho. destruct (runit None true rs) as [[o|e|] r'] eqn:R'; cbn [fst] in Ho; try contradiction.
    apply error_sim_eq in Ho. subst e. pose proof (stream_error_iteration _ _ _ _ A (runit_blames _ _ _ _ _ R')) as IE. inversion IE. }
  { left. exact E. }
  destruct (forms_differ early expected pf def Ca) as [[E N]|(v & w1 & m & w2 & ft & Pm & Pf & Es & B1 & B2 & N & W1 & W2 & FO & E1 & E2)].
  { congruence. }
  right. rewrite R in Ho. cbn [fst] in Ho.
  destruct (runit None true rs) as [[o|e|] r'] eqn:R'; cbn [fst] in Ho; try contradiction. subst o.
  assert (Forall written (kept rs)) as W by (apply answers_kept in A; rewrite Forall_forall in *; intros l I; apply A, I).
  destruct (runit_any _ _ _ _ _ W R') as (a & -> & En & _). assert (~ has_source u) as S by (apply sourceless_iff, M).
  destruct (header_exists u S) as (ps & H). pose proof H as H'. apply header_intro in H' as [_ HP].
  destruct En as [En|[_ Hh]]; [|exfalso].
  - assert (length def <= length (concat bs))%nat as Ld.
    { pose proof (runit_size None true (a ++ r')) as Sz. rewrite R' in Sz. destruct Sz as [Sz _]. pose proof (answers_size _ _ _ _ A) as Sa.
      assert (length def <= properties_size (header_props u))%nat as L1.
      { clear - G. unfold properties_size. induction (header_props u) as [|[k v] l IH]; cbn [sm_get] in G; [discriminate|]. cbn [map total fst snd]. unfold string_size.
        destruct (str_eqb _ k); [injection G as ->|specialize (IH G); unfold string_size in IH]; unfold str in *; lia. }
      pose proof (header_props_size u) as L2. unfold unit_cost, content_size in Sz.
      assert (length (msg_get_text (u_message u)) <= message_size (u_message u))%nat as L3.
      { destruct H as (t & -> & _). destruct t; cbn [msg_get_text message_size option_size length]; unfold string_size; cbn; unfold str, char in *; lia. }
      lia. }
    rewrite (header_props_spec u ps) in G by exact HP. pose proof (property_one_line _ _ _ _ HP G) as OL.
    pose proof (parse_map_spec def OL) as PS. rewrite Pm in PS. destruct PS as [DL (vs & Bi & Gv)].
    assert (last_value (lit "plural") vs = Some (w1 ++ m ++ w2)) as LV.
    { rewrite <- Gv. unfold formula_source in Es. destruct (sm_get (lit "plural") v) as [z|]; cbn [unwrap_or_default] in Es; [rewrite <- Es; reflexivity|].
      destruct w1; [|discriminate]. destruct m; [contradiction|discriminate]. }
    exists (kept a), (kept r'), u, ps, def, vs, w1, m, w2, ft. rewrite kept_app.
    split; [reflexivity|]. split; [exact En|]. split; [exact H|]. split; [exact G|]. split; [exact Bi|]. split; [exact LV|].
    do 6 (split; [assumption|]). split; [rewrite Ry; congruence|]. split; [rewrite Rx, <- Es; congruence|exact Ld].
  - (* a headless first entry has no text *)
    destruct Hh. cbn [u_message] in *. discriminate.
Qed.
Theorem report_file early expected lib pf evs bs f rs : cautious early -> pieces evs bs f -> answers 1 bs f rs ->
  (report_catalogue early expected lib pf evs = read_catalogue lib pf evs /\ read_catalogue lib pf evs <> Err (EPluralForms formula_error_text))
  \/ exists h r u ps def vs w1 m w2 ft, kept rs = h ++ r /\ entry None h u /\ header u ps /\ property ps (lit "Plural-Forms") = Some def
     /\ bindings def vs /\ last_value (lit "plural") vs = Some (w1 ++ m ++ w2) /\ blanks w1 /\ blanks w2 /\ m <> [] /\ not_white_first m /\ not_white_last m /\ fault_of m ft
     /\ read_catalogue lib pf evs = Err (EPluralForms formula_error_text)
     /\ report_catalogue early expected lib pf evs = Err (EPluralForms (fault_text (expected (w1 ++ m ++ w2) ft) ft)).
Proof.
  intros Ca P A. destruct (report_file_sized early expected lib pf evs bs f rs Ca P A) as [E|(h & r & u & ps & def & vs & w1 & m & w2 & ft & H)]; [left; exact E|right].
  exists h, r, u, ps, def, vs, w1, m, w2, ft. tauto.
Qed.
