(** Renamed files with the texts of errors about formulas (C118). *)
From Coq Require Import String Arith NArith ZArith Bool List Lia.
From Verif Require Import ModelBase ModelLine ModelFormula ModelData ModelUtf8 ModelSource ModelReader ModelParser ModelReport
  SpecLine SpecFormula SpecSource SpecReader SpecAny SpecParser SpecRenamed
  BaseFacts LineFacts LexFacts IterFacts ReaderFacts ReadsFacts CatalogueFacts StreamFacts FlagFacts AnyErrors PieceFacts AnyFacts ParserThms ReportFacts RenamedFacts RenamedThms RenamedWitness PickedFacts.
Import ListNotations.
Local Open Scope N_scope.

Lemma char_bytes_encode c : char_bytes c = N.of_nat (length (encode_char c)).
Proof. unfold char_bytes, encode_char. destruct (c <? 128); [reflexivity|]. destruct (c <? 2048); [reflexivity|]. destruct (c <? 65536); reflexivity. Qed.
Section Renaming.
  Variable f : char -> char.
  Hypothesis R : renaming f.
  Hypothesis W : forall c, white c -> length (encode_char (f c)) = length (encode_char c).
  Notation ren := (ren f).
  Let fixed := fun s => ren_fixed f R s.

  Lemma ren_blank_bytes s : forallb is_ws s = true -> bytes (ren s) = bytes s.
  Proof.
    induction s as [|c s IH]; [reflexivity|]. cbn [forallb SpecRenamed.ren map bytes fold_right]. intros H. apply andb_prop in H as [H1 H2]. apply IH in H2. unfold SpecRenamed.ren, bytes in H2. rewrite H2. f_equal.
    rewrite !char_bytes_encode. f_equal. apply W, is_ws_white, H1.
  Qed.
  Lemma span_all p s : forallb p (fst (span p s)) = true.
  Proof. induction s as [|c s IH]; cbn [span]; [reflexivity|]. destruct (p c) eqn:E; [|reflexivity]. destruct (span p s) as [a b]. cbn in *. rewrite E. exact IH. Qed.
  Lemma spelled_ascii t w : In (w, t) lit_tokens -> forallb (fun x => x <? 128) w = true.
  Proof. intros I. cbn in I. repeat (destruct I as [[= <- _]|I]; [reflexivity|]). destruct I. Qed.
  Lemma ren_scan fuel at_ s : scan fuel at_ (ren s) = scan fuel at_ s.
  Proof.
    revert at_ s. induction fuel as [|fuel IH]; intros at_ s; [reflexivity|]. destruct s as [|c s]; [reflexivity|]. cbn [scan]. change (ren (c :: s)) with (f c :: ren s) at 1. cbv iota.
    rewrite (f_ws f R), (f_digit f R). destruct (is_ws c).
    - rewrite (ren_span f is_ws (c :: s) (f_ws f R)). rewrite (surjective_pairing (span is_ws (c :: s))). cbn [fst snd]. rewrite ren_blank_bytes by apply span_all. apply IH.
    - destruct (is_digit c).
      + rewrite (ren_span f is_digit (c :: s) (f_digit f R)), (span_digits f R). rewrite (surjective_pairing (span is_digit (c :: s))). cbn [fst snd]. rewrite IH. reflexivity.
      + rewrite (ren_lex_literal f R). pose proof (lex_literal_best (c :: s)) as B. destruct (lex_literal (c :: s)) as [[t r]|]; cbn [option_map fst snd]; [|reflexivity].
        destruct B as [(w & I & E) _]. apply spelled_ascii in I. rewrite !(ren_length f). 
        assert (firstn (length (c :: s) - length r) (ren (c :: s)) = firstn (length (c :: s) - length r) (c :: s)) as ->.
        { rewrite E, (ren_app f), (fixed _ I), app_length, Nat.add_sub, !firstn_app, !Nat.sub_diag, !firstn_O. reflexivity. }
        rewrite IH. reflexivity.
  Qed.
  Lemma ren_formula_result early s : formula_result early (ren s) = formula_result early s.
  Proof. unfold formula_result. rewrite (ren_trim f R), (ren_empty f), (ren_length f), ren_scan. reflexivity. Qed.
  Lemma scan_ascii fuel at_ s p : In p (fst (scan fuel at_ s)) -> ren (p_text p) = p_text p.
  Proof.
    revert at_ s. induction fuel as [|fuel IH]; intros at_ s; [intros []|]. destruct s as [|c s]; [intros []|]. cbn [scan]. destruct (is_ws c).
    - rewrite (surjective_pairing (span is_ws (c :: s))). apply IH.
    - destruct (is_digit c).
      + pose proof (span_digits f R (c :: s)) as Q. rewrite (surjective_pairing (span is_digit (c :: s))). rewrite (surjective_pairing (scan fuel _ _)). intros [<-|I]; [exact Q|]. apply IH in I. exact I.
      + pose proof (lex_literal_best (c :: s)) as B. destruct (lex_literal (c :: s)) as [[t r]|]; [|intros []]. rewrite (surjective_pairing (scan fuel _ _)). intros [<-|I]; [|apply IH in I; exact I]. cbn [p_text].
        destruct B as [(w & I & E) _]. apply spelled_ascii in I. rewrite E, app_length, Nat.add_sub, firstn_app, Nat.sub_diag, firstn_O, app_nil_r, firstn_all. exact (fixed _ I).
  Qed.
  Definition ren_fault (x : fault) : fault := match x with FToken a w b => FToken a (ren w) b | _ => x end.
  Lemma fault_fixed early s x : formula_result early s = Some (inr x) -> ren_fault x = x.
  Proof.
    unfold formula_result. destruct (is_empty (trim s)); [discriminate|]. pose proof (scan_ascii (Datatypes.S (length (trim s))) 0 (trim s)) as A. destruct (scan _ _ _) as [l bad]. cbn [fst] in A.
    destruct (run _ _ _ _ _) as [e| | |ts|]; try discriminate; try (intros [= <-]; reflexivity).
    destruct (nth_error l _) as [p|] eqn:N; intros [= <-]; [|reflexivity]. cbn [ren_fault]. rewrite (A p); [reflexivity|]. exact (nth_error_In _ _ N).
  Qed.
  Lemma ren_dec n : ren (dec_str n) = dec_str n.
  Proof. apply (ren_uint f R). Qed.
  Lemma ren_expected_rest l : expected_rest (map ren l) = ren (expected_rest l).
  Proof.
    induction l as [|x [|y l] IH]; [reflexivity| |].
    - cbn [map expected_rest]. rewrite (ren_app f), (fixed (lit _)) by reflexivity. reflexivity.
    - cbn [map] in IH |- *. cbn [expected_rest] in IH |- *. rewrite !(ren_app f), (fixed (lit ", ")) by reflexivity. rewrite IH. reflexivity.
  Qed.
  Lemma ren_expected_text l : expected_text (map ren l) = ren (expected_text l).
  Proof. destruct l as [|x l]; [reflexivity|]. cbn [map expected_text]. rewrite !(ren_app f), ren_expected_rest, (fixed [10]), (fixed (lit _)) by reflexivity. reflexivity. Qed.
  Lemma ren_fault_text l x : fault_text (map ren l) (ren_fault x) = ren (fault_text l x).
  Proof.
    destruct x as [n|n|a w b|]; cbn [fault_text ren_fault]; rewrite ?(ren_app f), ?ren_expected_text, ?ren_dec, ?(fixed (lit _)) by reflexivity; reflexivity.
  Qed.
  Variable early : list symbol -> option tok -> bool.
  Variable expected : str -> fault -> list str.
  Hypothesis Ca : cautious early.
  Hypothesis X : forall s ft, expected (ren s) ft = map ren (expected s ft).
  Lemma ren_forms_or_panic pf d : forms_or_panic early expected pf (ren d) = ren_out f (ren_forms f) (forms_or_panic early expected pf d).
  Proof.
    unfold forms_or_panic, forms_result. rewrite (ren_parse_map f R). destruct (parse_map d) as [m|]; cbn [option_map].
    - rewrite (ren_get_lit f R ren (lit "plural")), (ren_get_lit f R ren (lit "nplurals")) by (apply fixed; reflexivity). rewrite (ren_default f), ren_formula_result.
      destruct (formula_result early _) as [[e|x]|] eqn:F; [| |reflexivity].
      + destruct (sm_get (lit "nplurals") m) as [k|]; cbn [option_map]; [|reflexivity]. rewrite (ren_unsigned f R). destruct (parse_unsigned _ k) as [v|x]; [reflexivity|]. cbn [ren_out ren_error]. rewrite (fixed (int_err_msg x)); [reflexivity|destruct x; reflexivity].
      + cbn [ren_out ren_error]. rewrite X. rewrite <- (fault_fixed _ _ _ F) at 2. rewrite ren_fault_text. reflexivity.
    - cbn [ren_out ren_error]. unfold bad_list_msg. rewrite !(ren_app f), !(fixed (lit _)) by reflexivity. reflexivity.
  Qed.
  (** * Files *)
  Lemma report_cases lib pf evs : let bad := EPluralForms formula_error_text in
    (report_catalogue early expected lib pf evs = read_catalogue lib pf evs /\ read_catalogue lib pf evs <> Err bad)
    \/ exists u ls' def x, runit None true (responses (li_new evs)) = (Ok (Some u), ls')
       /\ sm_get (lit "Plural-Forms") (header_props u) = Some def /\ forms_or_panic early expected pf def = Err x
       /\ report_catalogue early expected lib pf evs = Err x /\ read_catalogue lib pf evs = Err bad.
  Proof.
    cbv zeta. destruct (all_calls evs) as (bs & k & rs & P & A & _). rewrite <- report_plain. unfold report_catalogue. fold (forms_or_panic early expected pf).
    assert (lsim eq eq rs (responses (li_new evs))) as L.
    { apply same_lsim; [exact (answers_clean _ _ _ _ A)|]. intros j. rewrite responses_exact. symmetry. exact (any_calls _ _ _ _ _ P A). }
    destruct (runit_sim eq eq (@eq_refl _) None true _ _ L) as [_ Ho].
    destruct (report_differs (forms_or_panic early expected pf) (plural_forms_parse pf) (EPluralForms formula_error_text) lib evs) as [E|(u & ls' & def & x & Q & M & G & D & Ex & Ey & Rx & Ry)].
    { intros d. destruct (forms_differ early expected pf d Ca) as [E|(v & w1 & m & w2 & ft & _ & _ & _ & _ & _ & _ & _ & _ & _ & E1 & E2)]; [left; exact E|right; eauto]. }
    { intros e l E ->. rewrite E in Ho. cbn [fst] in Ho. destruct (runit None true rs) as [[o|e|] r'] eqn:R'; cbn [fst] in Ho; try contradiction.
      apply error_sim_eq in Ho. subst e. pose proof (stream_error_iteration _ _ _ _ A (runit_blames _ _ _ _ _ R')) as IE. inversion IE. }
    { left. exact E. }
    right. exists u, ls', def, x. auto.
  Qed.
  Lemma first_contents evs bs k ls e u ls' : delivers evs bs k -> contents bs k ls e -> runit None true (responses (li_new evs)) = (Ok (Some u), ls') ->
    exists ls'', runit None true (items 1 ls e) = (Ok (Some u), ls'').
  Proof.
    intros D C Q. pose proof (responses_contents _ _ _ _ _ D C) as S.
    assert (lsim eq eq (items 1 ls e) (responses (li_new evs))) as L. { apply same_lsim; [apply items_clean|]. intros j. symmetry. apply S. }
    destruct (runit_sim eq eq (@eq_refl _) None true _ _ L) as [_ Ho]. rewrite Q in Ho. cbn [fst] in Ho.
    destruct (runit None true (items 1 ls e)) as [[o|x|] r']; cbn [fst] in Ho; try contradiction. subst o. eauto.
  Qed.
  Lemma ren_injective a b : ren a = ren b -> a = b.
  Proof. revert b. induction a as [|x a IH]; intros [|y b]; try discriminate; [reflexivity|]. cbn. intros [= E1 E2]. f_equal; [exact (rn_inj f R _ _ E1)|exact (IH _ E2)]. Qed.
  Theorem report_renamed lib pf evs bs k ls e evs' bs' k' : delivers evs bs k -> contents bs k ls e -> delivers evs' bs' k' -> contents bs' k' (map ren ls) e ->
    renamed f (report_catalogue early expected lib pf evs) (report_catalogue early expected lib pf evs').
  Proof.
    intros D C D' C'. pose proof (read_renamed f R lib pf _ _ _ _ _ _ _ _ D C D' C') as Q.
    destruct (report_cases lib pf evs) as [[-> N]|(u & l & def & x & Qu & G & F & -> & E)]; destruct (report_cases lib pf evs') as [[-> N']|(u' & l' & def' & x' & Qu' & G' & F' & -> & E')].
    - exact Q.
    - exfalso. rewrite E' in Q. inversion Q as [|y Hy Hy']. destruct y; try discriminate Hy'. cbn in Hy'. injection Hy' as Hy'. apply N. rewrite <- Hy. do 2 f_equal. apply ren_injective. rewrite Hy'. symmetry. apply fixed. reflexivity.
    - exfalso. rewrite E in Q. apply N'. inversion Q as [|y Hy Hy']. do 2 f_equal. exact (fixed formula_error_text eq_refl).
    - destruct (first_contents _ _ _ _ _ _ _ D C Qu) as (r & H). destruct (first_contents _ _ _ _ _ _ _ D' C' Qu') as (r' & H').
      rewrite (ren_items f R) in H'. pose proof (ren_runit f R None true (items 1 ls e)) as K. cbn [option_map] in K. rewrite H' , H in K. unfold ren_res in K. cbn in K. injection K as -> _.
      rewrite (ren_props f R), (ren_get_lit f R ren (lit "Plural-Forms")), G in G' by (apply fixed; reflexivity). cbn [option_map] in G'. injection G' as <-.
      rewrite ren_forms_or_panic, F in F'. cbn [ren_out] in F'. injection F' as <-. constructor.
  Qed.
End Renaming.

(** * Offsets *)
Definition spaced_formula (c : char) : str := lit "plural=n" ++ [c; 233] ++ lit ";".
Definition spaced (c : char) : list str := [lit "msgid """""; lit "msgstr ""Plural-Forms: " ++ spaced_formula c ++ lit """"].
Lemma spaced_swap : map (ren (swap 160 8195)) (spaced 160) = spaced 8195.
Proof. vm_compute. reflexivity. Qed.
Lemma cautious_start early : cautious early -> early [] (Some TVar) = false.
Proof. intros Ca. destruct (early [] (Some TVar)) eqn:E; [|reflexivity]. exfalso. apply (Ca _ _ E [] [TVar]); [constructor|reflexivity|]. exists 20%nat. eexists. vm_compute. reflexivity. Qed.
Lemma spaced_first early expected pf : cautious early -> forms_result early expected pf (spaced_formula 160) = Some (Err (EPluralForms (lit "Invalid token at 3"))).
Proof. intros Ca. apply cautious_start in Ca. vm_compute. rewrite Ca. reflexivity. Qed.
Lemma spaced_second early expected pf : cautious early -> forms_result early expected pf (spaced_formula 8195) = Some (Err (EPluralForms (lit "Invalid token at 4"))).
Proof. intros Ca. apply cautious_start in Ca. vm_compute. rewrite Ca. reflexivity. Qed.
Lemma spaced_report F lib c x : c = 160 \/ c = 8195 -> F (spaced_formula c) = Err x -> report_all F lib (str_stream (spaced c)) = Err x.
Proof.
  intros Hc E.
  assert (responses (li_new (str_stream (spaced c))) = [Some (ILine (PMessage 1 [] (lit "msgid") [])); Some (ILine (PMessage 2 [] (lit "msgstr") (lit "Plural-Forms: " ++ spaced_formula c)))]) as Q by (destruct Hc as [-> | ->]; vm_compute; reflexivity).
  unfold report_all, report_new. rewrite Q. rewrite next_unit_eq. cbn [rd_plural_forms rd_lines].
  match goal with |- context [runit None true ?l] => assert (exists u, fst (runit None true l) = Ok (Some u) /\ msg_is_empty (u_message u) = true /\ sm_get (lit "Plural-Forms") (header_props u) = Some (spaced_formula c)) as (u & Eu & Me & Pr) by (destruct Hc as [-> | ->]; eexists; vm_compute; repeat split) end.
  destruct (runit None true _) as [o l]. cbn [fst] in Eu. subst o. cbn [fst snd to_item]. rewrite Me. unfold report_header.
  cbn [rd_next_unit with_next_unit with_lines rd_header_notes rd_header_comments rd_header_properties rd_target_language rd_plural_forms rd_lines app].
  fold (header_props u). rewrite Pr. change (is_empty (spaced_formula c)) with false. cbn iota. rewrite E. reflexivity.
Qed.
Theorem offsets_matter : exists f ls bs bs', renaming f /\ delivers (str_stream ls) bs None /\ contents bs None ls None /\ delivers (str_stream (map (ren f) ls)) bs' None /\ contents bs' None (map (ren f) ls) None
  /\ forall early expected lib pf, cautious early -> ~ renamed f (report_catalogue early expected lib pf (str_stream ls)) (report_catalogue early expected lib pf (str_stream (map (ren f) ls))).
Proof.
  exists (swap 160 8195), (spaced 160). destruct (as_stream_lines (spaced 160) eq_refl) as (bs & D & C). destruct (as_stream_lines (map (ren (swap 160 8195)) (spaced 160)) eq_refl) as (bs' & D' & C').
  exists bs, bs'. split; [apply swap_renaming; [lia|lia|reflexivity|reflexivity]|]. do 4 (split; [assumption|]). intros early expected lib pf Ca. rewrite spaced_swap. unfold report_catalogue.
  rewrite (spaced_report _ lib 160 (EPluralForms (lit "Invalid token at 3"))), (spaced_report _ lib 8195 (EPluralForms (lit "Invalid token at 4"))); [|auto|rewrite spaced_second by exact Ca; reflexivity|auto|rewrite spaced_first by exact Ca; reflexivity].
  intros H. inversion H.
Qed.
