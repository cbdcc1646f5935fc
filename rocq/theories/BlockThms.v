(** Theorems about files as sequences of entries. *)
From Coq Require Import String Arith NArith ZArith Bool List Lia.
From Verif Require Import ModelBase ModelUtf8 ModelRegex ModelLine ModelFormula ModelData ModelSource ModelReader
  SpecLine SpecFormula SpecSource SpecReader SpecBlock SpecHeader SpecFile BaseFacts LineFacts LineThms DecFacts SourceFacts IterFacts ReaderFacts ReadsFacts CatalogueFacts LocalFacts StreamFacts
  BlockFacts CommentFacts UnitFacts SoundFacts BlocksFacts FileFacts MapFacts HeaderFacts.
Import ListNotations.
Local Open Scope N_scope.

Lemma header_intro u ps : header u ps <-> ~ has_source u /\ header_pairs (msg_get_text (u_message u)) ps.
Proof.
  unfold header, has_source. split.
  - intros (t & E & H). split; [intros S; exact (S t E)|]. rewrite E. destruct t; exact H.
  - intros [S H]. destruct (u_message u) as [id t|p] eqn:E; [|destruct S; discriminate].
    destruct id as [|c id]; [|destruct S; discriminate]. exists t. split; [reflexivity|]. destruct t; exact H.
Qed.
Lemma header_exists u : ~ has_source u -> exists ps, header u ps.
Proof. intros S. destruct (header_pairs_total (msg_get_text (u_message u))) as (ps & H). exists ps. apply header_intro. auto. Qed.
Lemma units_items us o : units (map UOk us ++ error_item o) = us.
Proof. rewrite units_app, units_map. destruct o; cbn; apply app_nil_r. Qed.
Lemma blocks_units forms pl tl us o : blocks forms pl tl us o -> exists bls rest, pl = concat bls ++ rest /\ Forall2 (unit_entry forms) bls us.
Proof.
  induction 1 as [rest tl o Cl|b u r tl us o U E B (bls & rest & -> & F)].
  - exists [], rest. split; [reflexivity|constructor].
  - exists (b :: bls), rest. cbn [concat]. rewrite <- app_assoc. split; [reflexivity|constructor; assumption].
Qed.
Lemma header_shown_of lib u ps l : header u ps ->
  header_shown lib u ps (Catalogue (u_notes u) (u_comments u) (header_props u) (header_language lib (lang_invariant lib) (header_props u)) l).
Proof.
  intros H. apply header_intro in H as [_ H]. repeat split; cbn [c_properties c_language].
  - intros k. apply header_props_spec, H.
  - apply (header_language_iff lib u ps); [exact H|reflexivity].
Qed.

(** The units are the contents of blocks of lines, in order. *)
Theorem catalogue_blocks lib pf evs ls e pl tl c : file evs ls e pl tl -> read_catalogue lib pf evs = Ok c ->
  exists h forms bls rest, pl = h ++ concat bls ++ rest /\ preamble lib pf h (concat bls ++ rest) tl forms c /\ Forall2 (unit_entry forms) bls (units (c_items c)).
Proof.
  intros (bs & f & D & C & P) R. pose proof (file_shape lib pf evs bs f ls e pl tl D C P) as S. rewrite R in S.
  remember (Ok c) as o eqn:Eo. destruct S as [Et I|x Et|inc w l r E A N|u us o B|h u r x E En S HF|h u r forms us o E En S HF B]; try discriminate; injection Eo as <-.
  - exists [], None, [], pl. repeat split; try constructor. repeat split.
  - apply blocks_units in B as (bls & rest & -> & F). exists [], None, bls, rest. rewrite <- (units_items (u :: us) o) in F. repeat split; [|exact F]. constructor. repeat split.
  - apply blocks_units in B as (bls & rest & -> & F). exists h, forms, bls, rest. rewrite <- (units_items us o) in F. split; [exact E|]. split; [|exact F].
    destruct (header_exists u S) as (ps & H). eapply pa_header; [|exact H| |apply header_shown_of, H].
    + exact En.
    + apply header_intro in H as [_ H]. apply (header_forms_iff pf u ps); assumption.
Qed.
(** The same for one unit, with the end of its lines. *)
Lemma blocks_nth forms pl tl us o : blocks forms pl tl us o -> forall k u, nth_error us k = Some u ->
  exists bls b r us1 us2, pl = concat bls ++ b ++ r /\ us = us1 ++ u :: us2 /\ length us1 = k /\ Forall2 (unit_entry forms) bls us1
    /\ unit_entry forms b u /\ ends_at forms b r tl.
Proof.
  induction 1 as [rest tl o Cl|b v r tl us o U E B IH]; intros k u N; [destruct k; discriminate|]. destruct k as [|k]; cbn [nth_error] in N.
  - injection N as ->. exists [], b, r, [], us. repeat split; [constructor|apply U..|exact E].
  - destruct (IH k u N) as (bls & b' & r' & us1 & us2 & -> & -> & L & F & U' & E'). exists (b :: bls), b', r', (v :: us1), us2. cbn [concat length app]. rewrite <- app_assoc, L.
    repeat split; [constructor; assumption|apply U'..|exact E'].
Qed.
Theorem unit_placed lib pf evs ls e pl tl c k u : file evs ls e pl tl -> read_catalogue lib pf evs = Ok c -> nth_error (c_items c) k = Some (UOk u) ->
  exists forms b, unit_at lib pf pl tl c k forms b u.
Proof.
  intros (bs & f & D & C & P) R Nk. pose proof (file_shape lib pf evs bs f ls e pl tl D C P) as S. rewrite R in S.
  assert (forall us o, nth_error (map UOk us ++ error_item o) k = Some (UOk u) -> nth_error us k = Some u) as IO.
  { intros us o J. destruct (Nat.lt_ge_cases k (length (map UOk us))) as [L|L].
    - rewrite nth_error_app1 in J by exact L. rewrite nth_error_map in J. destruct (nth_error us k); [|discriminate]. injection J as ->. reflexivity.
    - rewrite nth_error_app2 in J by exact L. destruct o as [y|]; destruct (k - _)%nat as [|[|]]; discriminate J. }
  remember (Ok c) as oc eqn:Eo. destruct S as [Et I|x Et|inc w l r E A N|v us o B|h v r x E En S HF|h v r forms us o E En S HF B]; try discriminate; injection Eo as <-; cbn [c_items] in Nk.
  - destruct k; discriminate.
  - apply (IO (v :: us)) in Nk. destruct (blocks_nth _ _ _ _ _ B k u Nk) as (bls & b & r & us1 & us2 & -> & Eu & L & F & U & Ea). exists None, b.
    eapply (ua_intro _ _ _ _ _ _ _ _ _ [] bls r us1 (map UOk us2 ++ error_item o)); try eassumption; [reflexivity|apply pa_none; repeat split|].
    change (map UOk (v :: us) ++ error_item o = map UOk us1 ++ UOk u :: map UOk us2 ++ error_item o). rewrite Eu, map_app, <- app_assoc. reflexivity.
  - apply IO in Nk. destruct (blocks_nth _ _ _ _ _ B k u Nk) as (bls & b & r' & us1 & us2 & -> & -> & L & F & U & Ea). exists forms, b.
    eapply (ua_intro _ _ _ _ _ _ _ _ _ h bls r' us1 (map UOk us2 ++ error_item o)); try eassumption; [|cbn [c_items]; rewrite map_app, <- app_assoc; reflexivity].
    destruct (header_exists v S) as (ps & H). eapply pa_header; [exact En|exact H| |apply header_shown_of, H].
    apply header_intro in H as [_ H]. apply (header_forms_iff pf v ps); assumption.
Qed.
Lemma parsed_no_failure n ls e pl : parsed n ls e pl None -> e = None.
Proof. intros P. remember None as tl eqn:E in P. induction P; subst; auto; discriminate. Qed.
(** Without an error all lines belong to the entries. *)
Theorem catalogue_entries lib pf evs ls e pl tl c : file evs ls e pl tl -> read_catalogue lib pf evs = Ok c ->
  (forall x, ~ In (UErr x) (c_items c)) ->
  e = None /\ tl = None /\ exists h forms r us, pl = h ++ r /\ preamble lib pf h r None forms c /\ c_items c = map UOk us /\ entries forms r us.
Proof.
  intros (bs & f & D & C & P) R NE. pose proof (file_shape lib pf evs bs f ls e pl tl D C P) as S. rewrite R in S.
  assert (tl = None /\ exists h forms r us, pl = h ++ r /\ preamble lib pf h r None forms c /\ c_items c = map UOk us /\ entries forms r us) as [-> G].
  2: { split; [exact (parsed_no_failure _ _ _ _ P)|]. split; [reflexivity|exact G]. }
  assert (forall us o, c_items c = map UOk us ++ error_item o -> o = None) as NO.
  { intros us [x|] E; [|reflexivity]. exfalso. apply (NE x). rewrite E. apply in_or_app. right; left; reflexivity. }
  remember (Ok c) as o eqn:Eo. destruct S as [Et I|x Et|inc w l r E A N|u us o B|h u r x E En S HF|h u r forms us o E En S HF B]; try discriminate; injection Eo as <-.
  - split; [exact Et|]. exists [], None, pl, []. repeat split; try constructor; [repeat split|]. exists [], pl. repeat split; [constructor|exact I].
  - rewrite (NO (u :: us) o eq_refl) in *. apply blocks_entries in B as [B ->]. split; [reflexivity|].
    exists [], None, pl, (u :: us). repeat split; [constructor; repeat split| |exact B]. exact (app_nil_r (map UOk (u :: us))).
  - rewrite (NO us o eq_refl) in *. apply blocks_entries in B as [B ->]. split; [reflexivity|].
    exists h, forms, r, us. split; [exact E|]. split; [|split; [cbn [c_items error_item]; apply app_nil_r|exact B]].
    destruct (header_exists u S) as (ps & H). eapply pa_header; [|exact H| |apply header_shown_of, H].
    + exact En.
    + apply header_intro in H as [_ H]. apply (header_forms_iff pf u ps); assumption.
Qed.

(** Conversely. *)
Theorem read_plain lib pf evs ls e pl tl u us o : file evs ls e pl tl -> blocks None pl tl (u :: us) o ->
  read_catalogue lib pf evs = Ok (Catalogue [] [] [] (lang_invariant lib) (map UOk (u :: us) ++ error_item o)).
Proof.
  intros (bs & f & D & C & P) B. pose proof (file_catalogue lib pf evs bs f ls e pl tl) as FC. eapply FC; eauto.
  apply plain_complete; [|exact B]. exact (proj2 (FC (Err (EPluralForms [])) D C P)).
Qed.
Theorem read_header lib pf evs ls e pl tl h u ps r forms us o : file evs ls e pl tl -> pl = h ++ r ->
  first_entry h r tl u -> header u ps -> header_forms_of pf ps forms -> blocks forms r tl us o ->
  exists c, read_catalogue lib pf evs = Ok c /\ header_shown lib u ps c /\ c_items c = map UOk us ++ error_item o.
Proof.
  intros (bs & f & D & C & P) -> Fe H HF B. pose proof (file_catalogue lib pf evs bs f ls e (h ++ r) tl) as FC.
  pose proof (proj2 (FC (Err (EPluralForms [])) D C P)) as W0. pose proof W0 as W. apply Forall_app in W as [_ W].
  pose proof H as H'. apply header_intro in H' as [S HP]. apply (header_forms_iff pf u ps) in HF; [|exact HP].
  pose proof (header_complete lib pf h u r tl W0 Fe S) as X. rewrite HF in X. eexists. split; [eapply FC; eauto|].
  split; [apply header_shown_of, H|reflexivity].
Qed.
Theorem read_bad_header lib pf evs ls e pl tl h u ps r : file evs ls e pl tl -> pl = h ++ r ->
  first_entry h r tl u -> header u ps ->
  ((exists x, read_catalogue lib pf evs = Err x) <-> forall forms, ~ header_forms_of pf ps forms).
Proof.
  intros Fi -> Fe H. pose proof Fi as (bs & f & D & C & P). pose proof (file_catalogue lib pf evs bs f ls e (h ++ r) tl) as FC.
  pose proof (proj2 (FC (Err (EPluralForms [])) D C P)) as W0. pose proof W0 as W. apply Forall_app in W as [_ W].
  pose proof H as H'. apply header_intro in H' as [S HP]. split.
  - intros (x & R) forms HF. destruct (blocks_total forms r tl W) as (us & o & B).
    destruct (read_header lib pf evs ls e _ tl h u ps r forms us o Fi eq_refl Fe H HF B) as (c & R' & _). congruence.
  - intros N. pose proof (header_complete lib pf h u r tl W0 Fe S) as X.
    destruct (header_forms pf (header_props u)) as [forms|x|] eqn:HF; [|eexists; eapply FC; eauto|contradiction].
    exfalso. apply (N forms). apply (header_forms_iff pf u ps); assumption.
Qed.
Theorem read_file lib pf evs ls e pl tl h r forms us o : file evs ls e pl tl -> pl = h ++ r -> heading pf h r tl forms us -> blocks forms r tl us o ->
  exists c, read_catalogue lib pf evs = Ok c /\ c_items c = map UOk us ++ error_item o.
Proof.
  intros Fi -> H B. destruct H as [r tl u us|h r tl u ps forms us Fe H HF].
  - eexists. split; [exact (read_plain lib pf evs ls e r tl u us o Fi B)|reflexivity].
  - destruct (read_header lib pf evs ls e _ tl h u ps r forms us o Fi eq_refl Fe H HF B) as (c & R & _ & E). eauto.
Qed.
(** A file that consists of one unfinished entry. *)
Theorem read_unfinished lib pf evs ls e pl : file evs ls e pl None -> incomplete None pl ->
  exists c, read_catalogue lib pf evs = Ok c /\ c_items c = [].
Proof.
  intros (bs & f & D & C & P) (w & A). pose proof (file_catalogue lib pf evs bs f ls e pl None) as FC.
  pose proof (proj2 (FC (Err (EPluralForms [])) D C P)) as W.
  destruct (awaited_end None true pl w A) as (o & E & _). pose proof (runit_sound None true pl None W) as R. rewrite E in R.
  destruct o as [[u|]|x|]; cbn [unit_result] in R.
  - destruct R as (b & r' & -> & Er & [(En & _ & _)|(_ & Hl & _)]); symmetry in Er; apply listing_nil_inv in Er as [-> _]; rewrite app_nil_r in *.
    + destruct (incomplete_not_entry None b u (ex_intro _ w A) En).
    + eexists. split; [eapply FC; eauto; eapply co_header; [exact E|apply sourceless_iff, (headless_sourceless _ _ _ Hl)| |]|reflexivity].
      * destruct Hl. reflexivity.
      * apply (reads_end _ [] []). reflexivity.
  - eexists. split; [eapply FC; eauto; eapply co_empty; exact E|reflexivity].
  - exfalso. destruct R as [(? & _)|[(inc & l & r' & w' & _ & _ & _ & _ & _ & Er)|(? & _)]]; discriminate.
  - destruct R.
Qed.

(** * Errors *)
Lemma parse_line_no s n l : parse_line s n = Some l -> l <> PBlank -> po_line_no l = n.
Proof.
  unfold parse_line. destruct (negb _); [intros [= <-] H; contradiction|]. destruct (re_captures message_re s) as [c|].
  - intros [= <-] _. destruct (cap_get 2 c); reflexivity.
  - destruct (re_captures comment_re s) as [c|]; [|discriminate]. intros [= <-] _. reflexivity.
Qed.
Lemma parsed_stands n ls e pl tl : parsed n ls e pl tl -> forall l, In l pl ->
  exists a s b, ls = a ++ s :: b /\ po_line_no l = n + N.of_nat (length a) /\ line_of s (po_line_no l) l.
Proof.
  induction 1 as [n|n e|n s ls e O E|n s ls e pl tl O E H IH|n s l ls e pl tl O E NB H IH]; intros x I; [destruct I|destruct I|destruct I| |destruct I as [<-|I]].
  - destruct (IH x I) as (a & t & b & -> & N & P). exists (s :: a), t, b. repeat split; [|exact P]. cbn [length]. lia.
  - exists [], s, ls. assert (po_line_no l = n) as N by (apply parse_line_no with s; [apply line_of_iff; assumption|assumption]). rewrite N. repeat split; [cbn; lia|exact E].
  - destruct (IH x I) as (a & t & b & -> & N & P). exists (s :: a), t, b. repeat split; [|exact P]. cbn [length]. lia.
Qed.
Lemma file_stands evs ls e pl tl l : file evs ls e pl tl -> In l pl -> stands ls l.
Proof. intros (bs & f & _ & _ & P) I. destruct (parsed_stands _ _ _ _ _ P l I) as (a & s & b & -> & N & E). exists s. split; [exists a, b; auto|exact E]. Qed.
Lemma parsed_tail n ls e pl x : parsed n ls e pl (Some x) ->
  (exists i, e = Some i /\ x = EIo (n + N.of_nat (length ls)) i)
  \/ exists a s b, ls = a ++ s :: b /\ (forall l, ~ line_of s (n + N.of_nat (length a)) l) /\ x = EParse (n + N.of_nat (length a) + 1) s [].
Proof.
  intros P. remember (Some x) as tl eqn:E in P. revert x E.
  induction P as [n|n e|n s ls e O E|n s ls e pl tl O E H IH|n s l ls e pl tl O E NB H IH]; intros x Ex.
  - discriminate.
  - injection Ex as <-. left. exists e. split; [reflexivity|]. cbn. rewrite N.add_0_r. reflexivity.
  - injection Ex as <-. right. exists [], s, ls. cbn. rewrite N.add_0_r. auto.
  - destruct (IH x Ex) as [(i & -> & ->)|(a & t & b & -> & P & ->)]; [left|right].
    + exists i. split; [reflexivity|]. f_equal. cbn [length]. lia.
    + exists (s :: a), t, b. replace (n + N.of_nat (length (s :: a))) with (n + 1 + N.of_nat (length a)) by (cbn [length]; lia). auto.
  - destruct (IH x Ex) as [(i & -> & ->)|(a & t & b & -> & P & ->)]; [left|right].
    + exists i. split; [reflexivity|]. f_equal. cbn [length]. lia.
    + exists (s :: a), t, b. replace (n + N.of_nat (length (s :: a))) with (n + 1 + N.of_nat (length a)) by (cbn [length]; lia). auto.
Qed.
Lemma blocks_closing forms pl tl us o : blocks forms pl tl us o -> exists a rest, pl = a ++ rest /\ closing forms rest tl o.
Proof.
  induction 1 as [rest tl o Cl|b u r tl us o U E B (a & rest & -> & Cl)].
  - exists [], rest. auto.
  - exists (b ++ a), rest. rewrite <- app_assoc. auto.
Qed.
Lemma header_forms_error pf u ps x : header_pairs (msg_get_text (u_message u)) ps -> header_forms pf (header_props u) = Err x ->
  exists def, property ps (lit "Plural-Forms") = Some def /\ def <> [] /\
    ((~ definition_list def /\ x = EUnexpected 0 (lit "Bad value list definition: `" ++ def ++ lit "`"))
     \/ (definition_list def /\ (forall f, ~ forms_of pf def f) /\ exists m, x = EPluralForms m)).
Proof.
  intros H E. unfold header_forms in E. rewrite (header_props_spec u ps) in E by exact H.
  destruct (property ps (lit "Plural-Forms")) as [def|] eqn:Ed; [|discriminate]. exists def. split; [reflexivity|].
  pose proof (property_one_line _ _ _ _ H Ed) as OL. destruct (is_empty def) eqn:Em; [discriminate|]. split; [destruct def; discriminate|].
  assert (forall f, forms_of pf def f <-> plural_forms_parse pf def = Ok f) as I by (intros f; rewrite forms_parse_iff by exact OL; reflexivity).
  destruct (plural_forms_parse pf def) as [f|y|] eqn:P; [discriminate| |discriminate]. injection E as ->.
  unfold plural_forms_parse in P. pose proof (parse_map_spec def OL) as M. destruct (parse_map def) as [m|].
  - right. destruct M as [D _]. split; [exact D|]. split; [intros f F; apply I in F; discriminate|].
    destruct (formula_parse _); [|injection P as <-; eauto]. destruct (sm_get _ m); [|discriminate].
    destruct (parse_unsigned _ _); [discriminate|]. injection P as <-. eauto.
  - left. injection P as <-. split; [exact M|reflexivity].
Qed.
Theorem errors_located lib pf evs ls e pl tl x : file evs ls e pl tl -> ends_with_error (read_catalogue lib pf evs) x -> located pf ls e pl x.
Proof.
  intros Fi EW. pose proof Fi as (bs & f & D & C & P). pose proof (file_shape lib pf evs bs f ls e pl tl D C P) as S.
  assert (forall y, tl = Some y -> located pf ls e pl y) as T.
  { intros y ->. apply parsed_tail in P as [(i & -> & ->)|(a & s & b & -> & Pn & ->)]; [apply lo_failure; reflexivity|].
    apply lo_unreadable; [exists a, b; auto|exact Pn]. }
  assert (forall forms a r us o y, pl = a ++ r -> blocks forms r tl us o -> o = Some y -> located pf ls e pl y) as BL.
  { intros forms a r us o y -> B ->. apply blocks_closing in B as (a' & rest & -> & Cl).
    remember (Some y) as oy eqn:Ey. destruct Cl as [rest I|rest z G|inc w l r tl A NG|cs F N L C' obs k ks pc pm c text r tl Bc K Ea]; [discriminate|..]; injection Ey as <-.
    - apply T; reflexivity.
    - eapply (lo_unfit _ _ _ _ forms (a ++ a') inc l r); [rewrite <- app_assoc; reflexivity|exact A|exact NG|]. eapply file_stands; [exact Fi|]. apply in_or_app; right. apply in_or_app; right. apply in_or_app; right. left; reflexivity.
    - eapply (lo_sourceless _ _ _ _ forms (a ++ a') cs F N L C' obs k ks pc pm c text r); [rewrite <- (app_assoc a a'); reflexivity|exact Bc|exact K|]. eapply file_stands; [exact Fi|]. apply in_or_app; right. apply in_or_app; right. apply in_or_app; left. apply in_or_app; right. left; reflexivity. }
  destruct S as [Et I|y Et|inc w l r E A N|u us o B|h u r y E En S HF|h u r forms us o E En S HF B].
  - destruct EW as [?|(c & us & [= <-] & Ei)]; [discriminate|]. destruct us; discriminate.
  - destruct EW as [[= <-]|(c & us & ? & _)]; [|discriminate]. apply T, Et.
  - destruct EW as [[= <-]|(c & us & ? & _)]; [|discriminate]. apply (lo_unfit _ _ _ _ None [] inc l r); auto. eapply file_stands; [exact Fi|]. subst pl. apply in_or_app; right; left; reflexivity.
  - destruct EW as [?|(c & us' & Ec & Ei)]; [discriminate|]. apply (BL None [] pl (u :: us) o); [reflexivity|exact B|]. injection Ec as <-.
    change (map UOk (u :: us) ++ error_item o = map UOk us' ++ error_item (Some x)) in Ei. apply items_inj in Ei. tauto.
  - destruct EW as [[= <-]|(c & us & ? & _)]; [|discriminate]. destruct (header_exists u S) as (ps & H). pose proof H as H'. apply header_intro in H' as [_ HP].
    destruct En as [En _|Hl _]; [|destruct Hl; discriminate].
    destruct (header_forms_error pf u ps y HP HF) as (def & Ed & NE & [[ND ->]|(DL & NF & m & ->)]).
    + eapply lo_list; eauto.
    + eapply lo_forms; eauto.
  - destruct EW as [?|(c & us' & Ec & Ei)]; [discriminate|]. apply (BL forms h r us o); [exact E|exact B|]. injection Ec as <-.
    change (map UOk us ++ error_item o = map UOk us' ++ error_item (Some x)) in Ei. apply items_inj in Ei. tauto.
Qed.
