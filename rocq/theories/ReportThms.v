(** Error messages as lines, and their length (C107). *)
From Coq Require Import String Arith NArith ZArith Bool List Lia.
From Verif Require Import ModelBase ModelUtf8 ModelLine ModelFormula ModelData ModelSource ModelReader ModelParser ModelReport
  SpecLine SpecFormula SpecSource SpecReader SpecBlock SpecHeader SpecFile SpecAny SpecParser SpecError SpecSize SpecFault
  BaseFacts LineFacts DecFacts IterFacts ReaderFacts ReadsFacts CatalogueFacts StreamFacts BlockFacts SoundFacts FirstFacts FileFacts MapFacts HeaderFacts BlockThms HeaderThms PieceFacts AnyFacts AnyErrors SizeFacts FaultFacts
  FormulaThms ParserThms ErrorTextFacts FileIntro SpecReport ReportFacts.
Import ListNotations.
Local Open Scope N_scope.

(** * What errors quote is one line *)
Lemma line_shown s n l : one_line s -> line_of s n l -> one_line (shown l).
Proof.
  intros O [|flags kw q t Q _|flags q t Q _|k c C _]; cbn [shown].
  - intros [].
  - destruct Q as (m & w1 & w2 & w3 & w4 & _ & M & _). destruct M; intros I; cbn in I; intuition discriminate.
  - intros [I|[]]. discriminate I.
  - destruct C as (w1 & _ & [(_ & -> & _)|(w2 & _ & _ & ->)]).
    + intros I; cbn in I; intuition discriminate.
    + apply one_line_app in O as [_ O]. intros [I|[I|[]]]; [discriminate I|]. apply O. cbn. auto.
Qed.
Definition line_error (x : error) : Prop := match x with EIo _ _ => True | EParse _ g w => one_line g /\ w = [] | _ => False end.
Lemma parsed_lines n ls e pl tl : parsed n ls e pl tl -> (forall l, In l pl -> one_line (shown l)) /\ (forall x, tl = Some x -> line_error x).
Proof.
  induction 1 as [n|n e|n s ls e O _|n s ls e pl tl _ _ _ IH|n s l ls e pl tl O L _ _ IH]; try (split; [intros l []|intros x [= <-]]); try exact Logic.I.
  - split; [exact O|reflexivity].
  - exact IH.
  - destruct IH as [H1 H2]. split; [|exact H2]. intros k [<-|I]; [exact (line_shown _ _ _ O L)|exact (H1 _ I)].
Qed.
Lemma answers_lines n bs f rs : answers n bs f rs -> (forall l, In l (kept rs) -> one_line (shown l)) /\ (forall x, In (Some (IFail x)) rs -> line_error x).
Proof.
  assert (forall pl x, ~ In (Some (IFail x)) (map (fun l => Some (ILine l)) pl)) as K.
  { intros pl x I. apply in_map_iff in I as (l & E & _). discriminate. }
  induction 1 as [n b f ls e pl tl C P|n b b' bs f ls e pl y C P|n b bs f ls pl rs C P T A IH|n b bs f ls pl rs C P T A IH];
    destruct (parsed_lines _ _ _ _ _ P) as [Hl Ht]; rewrite kept_app, kept_map; (split; [intros l I|intros x I]; apply in_app_or in I as [I|I]; auto; try (destruct (K _ _ I))).
  - destruct tl; destruct I.
  - destruct tl as [y|]; [|destruct I]. destruct I as [[= <-]|[]]. auto.
  - destruct I.
  - destruct I as [[= <-]|[]]. auto.
  - destruct IH as [IH _]. apply IH, I.
  - destruct I as [?|I]; [discriminate|]. destruct IH as [_ IH]. apply IH, I.
  - destruct IH as [IH _]. apply IH, I.
  - destruct IH as [_ IH]. apply IH, I.
Qed.

(** * The errors of the header of any stream *)
Theorem any_header_fault lib pf evs bs f rs x : pieces evs bs f -> answers 1 bs f rs -> read_catalogue lib pf evs = Err x ->
  stream_error rs x \/ exists h r u ps def, kept rs = h ++ r /\ entry None h u /\ header u ps
    /\ property ps (lit "Plural-Forms") = Some def /\ def <> [] /\ one_line def /\ (length def <= length (concat bs))%nat /\ SpecFault.forms_fault pf def x.
Proof.
  intros P A R. apply (any_catalogue lib pf _ _ _ _ _ P A) in R. remember (Err x) as o eqn:Eo.
  destruct R as [e r E|r E|u r l E M R|u r e E M HF|u r forms l E M HF R]; try discriminate; injection Eo as ->.
  - left. exact (runit_blames _ _ _ _ _ E).
  - right. assert (Forall written (kept rs)) as W by (apply answers_kept in A; rewrite Forall_forall in *; intros l I; apply A, I).
    pose proof (runit_size None true rs) as Sz. rewrite E in Sz. destruct Sz as [Sz _]. pose proof (answers_size _ _ _ _ A) as Sa.
    destruct (runit_any _ _ _ _ _ W E) as (a & -> & En & _). assert (~ has_source u) as S by (apply sourceless_iff, M).
    destruct (header_exists u S) as (ps & H). pose proof H as H'. apply header_intro in H' as [_ HP].
    destruct En as [En|[_ Hh]]; [|destruct Hh; discriminate].
    unfold header_forms in HF. destruct (sm_get (lit "Plural-Forms") (header_props u)) as [def|] eqn:G; [|discriminate]. destruct (is_empty def) eqn:D; [discriminate|].
    destruct (plural_forms_parse pf def) as [fm|y|] eqn:PF; try discriminate. injection HF as ->.
    pose proof G as G0. rewrite (header_props_spec u ps) in G by exact HP. pose proof (property_one_line _ _ _ _ HP G) as OL.
    exists (kept a), (kept r), u, ps, def. rewrite kept_app. split; [reflexivity|]. split; [exact En|]. split; [exact H|]. split; [exact G|].
    split; [destruct def; discriminate|]. split; [exact OL|]. split; [|apply forms_fault_iff; assumption].
    assert (length def <= properties_size (header_props u))%nat as L1.
    { clear - G0. unfold properties_size. induction (header_props u) as [|[k v] m IH]; cbn [sm_get] in G0; [discriminate|]. cbn [map total fst snd]. unfold string_size.
      destruct (str_eqb _ k); [injection G0 as ->|specialize (IH G0); unfold string_size in IH]; unfold str in *; lia. }
    pose proof (header_props_size u) as L2. unfold unit_cost, content_size in Sz.
    assert (length (msg_get_text (u_message u)) <= message_size (u_message u))%nat as L3.
    { destruct H as (t & -> & _). destruct t; cbn [msg_get_text message_size option_size length]; unfold string_size; cbn; unfold str, char in *; lia. }
    lia.
Qed.

(** * Texts *)
Lemma one_line_lit s : forallb (fun c => negb (c =? 10)) s = true -> one_line s.
Proof. intros H I. rewrite forallb_forall in H. specialize (H _ I). discriminate H. Qed.
Lemma one_line_decimal n ds : decimal n ds -> one_line ds.
Proof.
  intros D I. assert (48 <= 10 <= 57) as H; [|lia]. revert I. generalize 10. intros c. induction D as [d L|m d s _ L _ IH]; intros I.
  - destruct I as [<-|[]]. lia.
  - apply in_app_or in I as [I|[<-|[]]]; [auto|lia].
Qed.
Lemma one_line_dec n : one_line (dec_str n).
Proof. exact (one_line_decimal n _ (decimal_dec n)). Qed.
Ltac one := repeat match goal with |- one_line (app _ _) => apply one_line_app; split end; try (apply one_line_lit; reflexivity); try apply one_line_dec; try assumption.
Lemma one_line_quoted w x t : quoted w x t -> one_line w -> one_line x -> one_line t.
Proof. intros [|y _] W X; [intros []|]. one. Qed.
Definition tame (x : error) : Prop :=
  match x with EIo _ _ => True | EParse _ g w => one_line g /\ one_line w | EUnexpected _ m => one_line m | EPluralForms m => one_line m end.
Lemma tame_text io x t : (forall i, one_line (io i)) -> tame x -> shows io x t -> one_line t.
Proof.
  intros Hio T S. revert T. destruct S as [i|n i ds _ D|m|m|n m ds _ D|n got w ds gs es D Hg He]; cbn [tame]; intros T.
  - apply Hio.
  - one; [apply Hio|exact (one_line_decimal _ _ D)].
  - one.
  - one.
  - one. exact (one_line_decimal _ _ D).
  - destruct T as [Tg Tw]. one; [exact (one_line_decimal _ _ D)| |].
    + exact (one_line_quoted _ _ _ He ltac:(apply one_line_lit; reflexivity) Tw).
    + exact (one_line_quoted _ _ _ Hg ltac:(apply one_line_lit; reflexivity) Tg).
Qed.
Lemma stream_tame bs f rs x : answers 1 bs f rs -> stream_error rs x -> tame x.
Proof.
  intros A. destruct (answers_lines _ _ _ _ A) as [Hl Hf]. intros [y I|l w I J|n p t s I]; cbn [tame].
  - specialize (Hf _ I). destruct y; cbn in *; try contradiction; [exact Hf|]. destruct Hf as [H ->]. split; [exact H|intros []].
  - split; [exact (Hl _ I)|]. cbn in J. intuition subst; apply one_line_lit; reflexivity.
  - apply one_line_lit. reflexivity.
Qed.
Lemma fault_tame pf def x : one_line def -> SpecFault.forms_fault pf def x -> tame x.
Proof.
  intros O [ND|vs D B NF|vs e s m D B F L C]; cbn [tame].
  - one.
  - apply one_line_lit. reflexivity.
  - destruct C; apply one_line_lit; reflexivity.
Qed.
Theorem error_tame lib pf evs x : read_catalogue lib pf evs = Err x \/ (exists c, read_catalogue lib pf evs = Ok c /\ In (UErr x) (c_items c)) -> tame x.
Proof.
  destruct (all_calls evs) as (bs & f & rs & P & A & _). intros [R|(c & R & I)].
  - destruct (any_header_fault _ _ _ _ _ _ _ P A R) as [S|(h & r & u & ps & def & _ & _ & _ & _ & _ & OL & _ & F)]; [exact (stream_tame _ _ _ _ A S)|exact (fault_tame _ _ _ OL F)].
  - exact (stream_tame _ _ _ _ A (any_error _ _ _ _ _ _ _ _ P A R I)).
Qed.
Lemma spelled_one_line t w : spelled t w -> one_line w.
Proof. intros []; try (apply one_line_lit; reflexivity). intros I. specialize (H0 _ I). lia. Qed.
Lemma expected_rest_one_line l : Forall one_line l -> one_line (expected_rest l).
Proof. induction 1 as [|x [|y l] H F IH]; cbn [expected_rest]; [intros []|one|]. one. Qed.
(** * The theorems *)
Theorem messages_lines early expected lib pf evs io x t : cautious early -> (forall i, one_line (io i)) -> (forall s ft w, In w (expected s ft) -> one_line w) ->
  report_catalogue early expected lib pf evs = Err x \/ (exists c, report_catalogue early expected lib pf evs = Ok c /\ In (UErr x) (c_items c)) -> shows io x t ->
  one_line t \/ exists a b, t = lit "Error in plurals forms: Unrecognized " ++ a ++ [10] ++ lit "Expected one of " ++ b /\ one_line a /\ one_line b.
Proof.
  intros Ca Hio He R S. destruct (all_calls evs) as (bs & f & rs & P & A & _).
  destruct (report_file early expected lib pf evs bs f rs Ca P A) as [[E _]|(h & r & u & ps & def & vs & w1 & m & w2 & ft & _ & _ & _ & _ & _ & _ & _ & _ & _ & _ & _ & FO & _ & E)].
  - rewrite E in R. left. exact (tame_text _ _ _ Hio (error_tame _ _ _ _ R) S).
  - rewrite E in R. destruct R as [[= <-]|(c & R & _)]; [|discriminate R]. inversion S as [| |msg E1 E2| | |]; subst. specialize (He (w1 ++ m ++ w2) ft).
    destruct (expected (w1 ++ m ++ w2) ft) as [|y l] eqn:L.
    + left. destruct FO as [v w r0 ts tk _ _ Sp _ _ _ _|ts _ _ _ _|v r0 ts _ _ _ _ _ _ _|d r0 ts _ _ _ _ _ _]; cbn [fault_text expected_text]; one; try (intros []).
      exact (spelled_one_line _ _ Sp).
    + assert (one_line y /\ Forall one_line l) as [Y Fl]. { split; [apply He; left; reflexivity|]. apply Forall_forall. intros z I. apply He. right. exact I. }
      destruct FO as [v w r0 ts tk _ _ Sp _ _ _ _|ts _ _ _ _|v r0 ts _ _ _ _ _ _ _|d r0 ts _ _ _ _ _ _]; cbn [fault_text expected_text].
      * right. exists (lit "token `" ++ w ++ lit "` found at " ++ dec_str (size v) ++ lit ":" ++ dec_str (size (v ++ w))), (y ++ expected_rest l).
        split; [|split; one; [exact (spelled_one_line _ _ Sp)|exact (expected_rest_one_line _ Fl)]].
        change (lit "Unrecognized token `") with (lit "Unrecognized " ++ lit "token `"). change (lit "Error in plurals forms: Unrecognized ") with (lit "Error in plurals forms: " ++ lit "Unrecognized ").
        rewrite <- !app_assoc. reflexivity.
      * right. exists (lit "EOF found at " ++ dec_str (size m)), (y ++ expected_rest l). split; [|split; one; exact (expected_rest_one_line _ Fl)].
        change (lit "Unrecognized EOF found at ") with (lit "Unrecognized " ++ lit "EOF found at "). change (lit "Error in plurals forms: Unrecognized ") with (lit "Error in plurals forms: " ++ lit "Unrecognized ").
        rewrite <- !app_assoc. reflexivity.
      * left. one.
      * left. one.
Qed.

(** * Length *)
Lemma lit_length s t : s = lit t -> length s = String.length t.
Proof. intros ->. induction t as [|a t IH]; [reflexivity|]. cbn. f_equal. exact IH. Qed.
Lemma lit_size t : length (lit t) = String.length t.
Proof. exact (lit_length _ t eq_refl). Qed.
Lemma quoted_size w x t : quoted w x t -> (length t <= length w + length x + 2)%nat.
Proof. intros [|y _]; cbn [length]; [lia|]. rewrite !app_length. cbn [length]. lia. Qed.
Definition own_text (x : error) : nat := match x with EIo _ _ => 0%nat | EParse _ g w => (length g + length w)%nat | EUnexpected _ m | EPluralForms m => length m end.
Lemma shows_size io x t ds : shows io x t -> decimal (named_line x) ds ->
  (length t <= own_text x + length ds + io_length io x + 40)%nat.
Proof.
  intros S D. revert D.
  destruct S as [i|n i ds0 _ D|m|m|n m ds0 _ D|n got w ds0 gs es D Hg He]; cbn [named_line own_text io_length]; intros D'; rewrite ?app_length, ?lit_size; cbn [String.length];
    try (apply decimal_iff in D; apply decimal_iff in D'; subst); unfold str, char in *; try lia.
  apply quoted_size in Hg, He. rewrite lit_size in Hg, He. cbn [String.length] in Hg, He. unfold str, char in *. lia.
Qed.
Lemma line_shown_size s n l : line_of s n l -> (length (shown l) <= 2)%nat.
Proof.
  intros [|flags kw q t Q _|flags q t Q _|k c C _]; cbn [shown length]; try lia.
  destruct Q as (m & w1 & w2 & w3 & w4 & _ & M & _). destruct M; cbn; lia.
Qed.
Lemma parsed_shown n ls e pl tl : parsed n ls e pl tl -> forall l, In l pl -> (length (shown l) <= 2)%nat.
Proof. induction 1; intros k I; try destruct I as [<-|I]; eauto using line_shown_size; contradiction. Qed.
Lemma answers_shown n bs f rs : answers n bs f rs -> forall l, In l (kept rs) -> (length (shown l) <= 2)%nat.
Proof.
  induction 1 as [n b f ls e pl tl C P|n b b' bs f ls e pl y C P|n b bs f ls pl rs C P T A IH|n b bs f ls pl rs C P T A IH];
    pose proof (parsed_shown _ _ _ _ _ P) as K; rewrite kept_app, kept_map; intros l I; apply in_app_or in I as [I|I]; auto.
  - destruct tl; destruct I.
  - destruct I.
Qed.
Lemma fail_size rs x : In (Some (IFail x)) rs -> (error_size x <= lines_size rs)%nat.
Proof. induction rs as [|i rs IH]; intros I; [destruct I|]. destruct I as [->|I]; rewrite lines_size_cons; [cbn [item_size]; lia|specialize (IH I); lia]. Qed.
Theorem messages_length lib pf evs io x t ds : read_catalogue lib pf evs = Err x \/ (exists c, read_catalogue lib pf evs = Ok c /\ In (UErr x) (c_items c)) ->
  shows io x t -> decimal (named_line x) ds -> (length t <= data_size evs + length ds + io_length io x + 80)%nat.
Proof.
  intros R S D. pose proof (shows_size _ _ _ _ S D) as L. enough (own_text x <= data_size evs + 40)%nat by lia. clear S D L.
  destruct (all_calls evs) as (bs & f & rs & P & A & _). pose proof (pieces_size _ _ _ P) as Sp. pose proof (answers_size _ _ _ _ A) as Sa.
  assert (stream_error rs x -> (own_text x <= data_size evs + 40)%nat) as K.
  { intros [y I|l w I J|n p t0 s I]; cbn [own_text].
    - destruct (answers_lines _ _ _ _ A) as [_ Hf]. specialize (Hf _ I). apply fail_size in I. destruct y; cbn [line_error own_text error_size length] in *; try contradiction; [lia|]. destruct Hf as [_ ->]. cbn [length]. lia.
    - pose proof (answers_shown _ _ _ _ A _ I). assert (length w <= 9)%nat by (cbn in J; intuition subst; cbn; lia). lia.
    - cbn. lia. }
  destruct R as [R|(c & R & I)]; [|exact (K (any_error _ _ _ _ _ _ _ _ P A R I))].
  destruct (any_header_fault _ _ _ _ _ _ _ P A R) as [Se|(h & r & u & ps & def & _ & _ & _ & _ & _ & _ & Ld & F)]; [exact (K Se)|].
  destruct F as [ND|vs _ B NF|vs e s m _ B F L C]; cbn [own_text].
  - rewrite !app_length, !lit_size. cbn [String.length]. unfold str, char in *. lia.
  - cbn. lia.
  - destruct C; cbn; lia.
Qed.

(** * A message of two lines *)
Definition two_lines : list string := ["msgid """""; "msgstr ""Plural-Forms: nplurals=2; plural=n n;\n"""]%string.
Lemma begins_in s ts r : SpecParser.begins s ts r -> forall c, In c r -> In c s.
Proof. induction 1; intros x I; auto; [right; auto|apply in_or_app; right; auto]. Qed.
Lemma n_n_middle w1 m w2 : lit "n n" = w1 ++ m ++ w2 -> blanks w1 -> blanks w2 -> w1 = [] /\ m = lit "n n" /\ w2 = [].
Proof.
  intros E B1 B2. assert (w1 = []) as ->.
  { destruct w1 as [|c w1]; [reflexivity|]. exfalso. cbn in E. injection E as <- _. assert (white 110) as W by (apply B1; left; reflexivity). apply is_ws_white in W. discriminate W. }
  assert (w2 = []) as ->; [|rewrite app_nil_r in E; auto].
  destruct w2 as [|c w2 _] using rev_ind; [reflexivity|]. exfalso. rewrite !app_assoc in E. change (lit "n n") with ([110; 32] ++ [110]) in E. apply app_inj_tail in E as [_ <-].
  assert (white 110) as W by (apply B2; apply in_or_app; right; left; reflexivity). apply is_ws_white in W. discriminate W.
Qed.
Lemma n_n_fault f : fault_of (lit "n n") f -> f = FToken 2 (lit "n") 3.
Proof.
  intros F. assert (fault_of (lit "n n") (FToken 2 (lit "n") 3)) as G.
  { destruct (result_fault (fun _ _ => false) (lit "n n") (FToken 2 (lit "n") 3) never_cautious) as (w1 & m & w2 & E & B1 & B2 & N & W1 & W2 & FO); [vm_compute; reflexivity|].
    destruct (n_n_middle w1 m w2 E B1 B2) as (_ & -> & _). exact FO. }
  apply (fault_unique _ _ _ F G); [|discriminate]. intros ->. remember FLarge as g eqn:Eg.
  destruct F as [v w r ts tk _ _ _ _ _ _ _|ts _ _ _ _|v r ts _ _ _ _ _ _ _|d r ts Bg Sp _ _ _ _]; try discriminate Eg.
  assert (d <> [] /\ forall c, In c d -> 48 <= c <= 57) as [NE Dg].
  { clear - Sp. remember (TNum d) as k eqn:Ek. destruct Sp as [| | | | | | | | | | | | | | | | | | | | | |ds NE Dg]; try discriminate Ek. split; [exact NE|exact Dg]. }
  destruct d as [|c d]; [contradiction|]. pose proof (begins_in _ _ _ Bg c (or_introl eq_refl)) as I. specialize (Dg c (or_introl eq_refl)). cbn in I. repeat destruct I as [I|I]; try contradiction; subst; lia.
Qed.
Theorem two_lines_shown : forall early expected lib pf io, cautious early -> expected (lit "n n") (FToken 2 (lit "n") 3) <> [] ->
  exists x t, report_catalogue early expected lib pf (lf_stream two_lines) = Err x /\ shows io x t /\ In 10 t.
Proof.
  intros early expected lib pf io Ca NE.
  assert (exists f, fault_of (lit "n n") f /\ forms_result early expected pf (lit "nplurals=2; plural=n n;") = Some (Err (EPluralForms (fault_text (expected (lit "n n") f) f)))) as (f & FO & E).
  { assert (exists values, parse_map (lit "nplurals=2; plural=n n;") = Some values /\ formula_source values = lit "n n") as (values & Pm & Fs) by (eexists; split; vm_compute; reflexivity).
    destruct (ParserThms.forms_fault early expected pf _ values Ca Pm) as (w1 & m & w2 & f & Es & B1 & B2 & N & W1 & W2 & FO & E); [rewrite Fs; vm_compute; reflexivity|].
    rewrite Fs in *. destruct (n_n_middle w1 m w2 Es B1 B2) as (-> & -> & ->). exists f. split; [exact FO|exact E]. }
  apply n_n_fault in FO as ->.
  exists (EPluralForms (fault_text (expected (lit "n n") (FToken 2 (lit "n") 3)) (FToken 2 (lit "n") 3))), (lit "Error in plurals forms: " ++ fault_text (expected (lit "n n") (FToken 2 (lit "n") 3)) (FToken 2 (lit "n") 3)).
  split; [|split; [constructor|]].
  - unfold report_catalogue. change (lit "nplurals=2; plural=n n;") with (lit "nplurals=2; plural=n n;") in E.
    assert (forall F, F (lit "nplurals=2; plural=n n;") = Err (EPluralForms (fault_text (expected (lit "n n") (FToken 2 (lit "n") 3)) (FToken 2 (lit "n") 3))) ->
      report_all F lib (lf_stream two_lines) = Err (EPluralForms (fault_text (expected (lit "n n") (FToken 2 (lit "n") 3)) (FToken 2 (lit "n") 3)))) as K; [|apply K; rewrite E; reflexivity].
    generalize (EPluralForms (fault_text (expected (lit "n n") (FToken 2 (lit "n") 3)) (FToken 2 (lit "n") 3))). clear. intros x F E.
    assert (responses (li_new (lf_stream two_lines)) = [Some (ILine (PMessage 1 [] (lit "msgid") [])); Some (ILine (PMessage 2 [] (lit "msgstr") (lit "Plural-Forms: nplurals=2; plural=n n;" ++ [10])))]) as R by (vm_compute; reflexivity).
    unfold report_all, report_new. rewrite R. rewrite next_unit_eq. cbn [rd_plural_forms rd_lines].
    match goal with |- context [runit None true ?l] => assert (exists u, fst (runit None true l) = Ok (Some u) /\ msg_is_empty (u_message u) = true /\ sm_get (lit "Plural-Forms") (header_props u) = Some (lit "nplurals=2; plural=n n;")) as (u & Eu & Me & Pr) by (eexists; vm_compute; repeat split) end.
    destruct (runit None true _) as [o l]. cbn [fst] in Eu. subst o. cbn [fst snd to_item]. rewrite Me. unfold report_header.
    cbn [rd_next_unit with_next_unit with_lines rd_header_notes rd_header_comments rd_header_properties rd_target_language rd_plural_forms rd_lines app].
    fold (header_props u). rewrite Pr. cbn [is_empty]. change (is_empty (lit "nplurals=2; plural=n n;")) with false. cbn iota. rewrite E. reflexivity.
  - destruct (expected (lit "n n") (FToken 2 (lit "n") 3)) as [|y l]; [contradiction|]. cbn [fault_text expected_text]. apply in_or_app. right. do 6 (apply in_or_app; right). apply in_or_app. left. left. reflexivity.
Qed.
