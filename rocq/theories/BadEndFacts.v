(** Exactly these errors come out of reading (C120). *)
From Coq Require Import String Arith NArith ZArith Bool List Lia.
From Verif Require Import ModelBase ModelLine ModelFormula ModelData ModelUtf8 ModelSource ModelReader
  SpecLine SpecSource SpecReader SpecBlock SpecHeader SpecFault SpecFile SpecAny SpecWriter SpecPossible SpecBadEnds
  BaseFacts LineFacts SourceFacts ReaderFacts ReadsFacts CatalogueFacts StreamFacts BlockFacts BlocksFacts SoundFacts FirstFacts FileFacts MapFacts HeaderFacts BlockThms HeaderThms WriterFacts WritableFacts AccessFacts PieceFacts AnyFacts AnyErrors FaultFacts ReportThms BareFacts PossibleFacts PlaceErrors.
Import ListNotations.
Local Open Scope N_scope.

(** * What comes out *)
Lemma line_of_any s n m l : line_of s n l -> exists l', line_of s m l'.
Proof. intros [B|flags kw q t Q U|flags q t Q U|k c C N]; eexists; [apply ln_blank|eapply ln_message|eapply ln_cont|eapply ln_comment]; eassumption. Qed.
(** Lines and failures of a numbered part of a file. *)
Definition good_line (n : N) (l : po_line) : Prop := exists s, n <= po_line_no l /\ one_line s /\ scalars s /\ line_of s (po_line_no l) l /\ l <> PBlank.
Definition good_fail (n : N) (x : error) : Prop :=
  match x with
  | EIo m _ => n <= m
  | EParse m s w => n + 1 <= m /\ w = [] /\ one_line s /\ scalars s /\ forall j l, ~ line_of s j l
  | _ => False
  end.
Lemma line_number s n l : line_of s n l -> l <> PBlank -> po_line_no l = n.
Proof. intros [] N; try reflexivity. contradiction. Qed.
Lemma parsed_good n ls e pl tl : parsed n ls e pl tl -> (forall s, In s ls -> scalars s) -> (forall l, In l pl -> good_line n l) /\ (forall x, tl = Some x -> good_fail n x).
Proof.
  induction 1 as [n|n e|n s ls e O NL|n s ls e pl tl O L P IH|n s l ls e pl tl O L NB P IH]; intros S; try (split; [intros l []|intros x [= <-]]).
  - cbn. lia.
  - cbn. split; [lia|]. split; [reflexivity|]. split; [exact O|]. split; [apply S; left; reflexivity|]. intros j l L. destruct (line_of_any _ _ n _ L) as (l' & L'). exact (NL _ L').
  - destruct IH as [A B]; [intros x I; apply S; right; exact I|]. split.
    + intros l I. destruct (A l I) as (t & H & R). exists t. split; [lia|exact R].
    + intros x E. specialize (B x E). destruct x; cbn in *; try contradiction; [lia|]. destruct B as (B & R). split; [lia|exact R].
  - destruct IH as [A B]; [intros x I; apply S; right; exact I|]. split.
    + intros k [<-|I].
      * exists s. rewrite (line_number _ _ _ L NB). split; [lia|]. split; [exact O|]. split; [apply S; left; reflexivity|]. split; [exact L|exact NB].
      * destruct (A k I) as (t & H & R). exists t. split; [lia|exact R].
    + intros x E. specialize (B x E). destruct x; cbn in *; try contradiction; [lia|]. destruct B as (B & R). split; [lia|exact R].
Qed.
Lemma good_line_mono n m l : n <= m -> good_line m l -> good_line n l.
Proof. intros L (s & H & R). exists s. split; [lia|exact R]. Qed.
Lemma good_fail_mono n m x : n <= m -> good_fail m x -> good_fail n x.
Proof. intros L. destruct x; cbn; try contradiction; [lia|]. intros (B & R). split; [lia|exact R]. Qed.
Lemma answers_good n bs f rs : answers n bs f rs -> (forall l, In l (kept rs) -> good_line n l) /\ (forall x, In (Some (IFail x)) rs -> good_fail n x).
Proof.
  assert (forall pl x, ~ In (Some (IFail x)) (map (fun l => Some (ILine l)) pl)) as K.
  { intros pl x I. apply in_map_iff in I as (l & E & _). discriminate. }
  assert (forall n b f ls e pl tl, contents b f ls e -> parsed n ls e pl tl -> (forall l, In l pl -> good_line n l) /\ (forall x, tl = Some x -> good_fail n x)) as G.
  { intros n0 b f0 ls e pl tl C P. apply (parsed_good _ _ _ _ _ P). intros s I. exact (proj2 (contents_lines_ok _ _ _ _ C s I)). }
  induction 1 as [n b f ls e pl tl C P|n b b' bs f ls e pl y C P|n b bs f ls pl rs C P T A IH|n b bs f ls pl rs C P T A IH];
    destruct (G _ _ _ _ _ _ _ C P) as [Hl Ht]; rewrite kept_app, kept_map; (split; [intros l I|intros x I]; apply in_app_or in I as [I|I]; auto; try (destruct (K _ _ I))).
  - destruct tl; destruct I.
  - destruct tl as [y|]; [|destruct I]. destruct I as [[= <-]|[]]. auto.
  - destruct I.
  - destruct I as [[= <-]|[]]. auto.
  - destruct IH as [IH _]. eapply good_line_mono; [|apply IH, I]. lia.
  - destruct I as [?|I]; [discriminate|]. destruct IH as [_ IH]. eapply good_fail_mono; [|apply IH, I]. lia.
  - destruct IH as [IH _]. eapply good_line_mono; [|apply IH, I]. lia.
  - destruct IH as [_ IH]. eapply good_fail_mono; [|apply IH, I]. lia.
Qed.
Lemma located_possible pf bs f rs x : answers 1 bs f rs -> located rs 0 x -> possible_error pf x.
Proof.
  intros A. destruct (answers_good _ _ _ _ A) as [Hl Hf]. intros [y I|a l b w E D|a l b E D].
  - specialize (Hf _ I). destruct y as [m i|m s w|m s|s]; cbn in Hf; try contradiction; [apply pe_failure; exact Hf|].
    destruct Hf as (L & -> & O & S & N). apply pe_unreadable; auto.
  - pose proof (answers_position _ _ _ _ A _ _ _ E) as Po. destruct (Hl l) as (s & L & O & S & Lo & NB); [rewrite E; apply in_or_app; right; left; reflexivity|]. cbn [Nat.add] in D.
    destruct D as [[-> D]|[[-> D]|[-> D]]].
    + eapply pe_no_msgid; try eassumption. intros k c Ec. enough (2 <= length a)%nat by lia. apply D. do 3 eexists. exact Ec.
    + eapply pe_no_msgstr; try eassumption. lia.
    + eapply pe_no_form; try eassumption. lia.
  - pose proof (answers_position _ _ _ _ A _ _ _ E) as Po. apply pe_sourceless. cbn [Nat.add] in D. lia.
Qed.
Lemma values_shape ps k v : Forall property_text ps -> scalars (header_text ps) -> property ps k = Some v -> property_shape k v /\ scalars v.
Proof.
  intros T S P. unfold property in P.
  assert (Forall (fun w => (((not_white_first k /\ not_white_last k) /\ (one_line k /\ ~ In 58 k)) /\ ((not_white_first w /\ not_white_last w) /\ one_line w)) /\ scalars w) (values_of k ps)) as V.
  { apply Forall_forall. intros w J. unfold values_of in J. apply in_map_iff in J as ([j w'] & <- & J). apply filter_In in J as [J E]. cbn [fst snd] in *. apply str_eqb_eq in E. subst j.
    rewrite Forall_forall in T. destruct (T _ J) as ((A & B & C & D) & F & G & H). split; [|exact (proj2 (header_text_scalars _ _ _ S J))]. repeat split; assumption. }
  destruct (values_of k ps) as [|w vs]; [discriminate P|]. injection P as <-. rewrite Forall_forall in V. destruct (V w (or_introl eq_refl)) as (((K1 & K2) & _) & _). split.
  - split; [exact K1|]. split; [exact K2|]. exists (w :: vs). split; [discriminate|]. split; [reflexivity|]. apply Forall_forall. intros y J. exact (proj2 (proj1 (V y J))).
  - change (scalars (separated 32 (w :: vs))). apply scalars_separated, Forall_forall. intros y J. exact (proj2 (V y J)).
Qed.
Lemma header_alone pf bs f rs u r x : answers 1 bs f rs -> runit None true rs = (Ok (Some u), r) -> msg_is_empty (u_message u) = true -> header_forms pf (header_props u) = Err x ->
  exists h q ps def, kept rs = h ++ q /\ entry None h u /\ header u ps /\ property ps (lit "Plural-Forms") = Some def /\ def <> [] /\ forms_fault pf def x.
Proof.
  intros A E M HF. assert (Forall written (kept rs)) as W by (apply answers_kept in A; rewrite Forall_forall in *; intros l I; apply A, I).
  destruct (runit_any _ _ _ _ _ W E) as (a & -> & En & _). assert (~ has_source u) as S by (apply sourceless_iff, M).
  destruct (header_exists u S) as (ps & H). pose proof H as H'. apply header_intro in H' as [_ HP].
  destruct En as [En|[_ Hh]]; [|destruct Hh; discriminate].
  unfold header_forms in HF. destruct (sm_get (lit "Plural-Forms") (header_props u)) as [def|] eqn:G; [|discriminate]. destruct (is_empty def) eqn:D; [discriminate|].
  destruct (plural_forms_parse pf def) as [fm|y|] eqn:PF; try discriminate. injection HF as ->.
  rewrite (header_props_spec u ps) in G by exact HP. pose proof (property_one_line _ _ _ _ HP G) as OL.
  exists (kept a), (kept r), ps, def. rewrite kept_app. split; [reflexivity|]. split; [exact En|]. split; [exact H|]. split; [exact G|].
  split; [destruct def; discriminate|]. apply forms_fault_iff; assumption.
Qed.
Theorem error_possible lib pf evs x : ends_with_error (read_catalogue lib pf evs) x -> possible_error pf x.
Proof.
  destruct (all_calls evs) as (bs & f & rs & P & A & _). intros [R|(c & us & R & E)].
  - pose proof (proj1 (any_catalogue lib pf _ _ _ _ _ P A) R) as Rc. remember (Err x) as o eqn:Eo.
    destruct Rc as [e r Ee|r Ee|u r l Ee M Rr|u r e Ee M HF|u r forms l Ee M HF Rr]; try discriminate; injection Eo as ->.
    + apply (located_possible _ _ _ _ _ A). revert Ee. apply runit_locates. left. reflexivity.
    + destruct (header_alone _ _ _ _ _ _ _ A Ee M HF) as (h & q & ps & def & Ek & En & H & Pd & NE & F).
      assert (Forall sane h) as Sh. { apply answers_kept in A. rewrite Ek in A. apply Forall_app in A as [A _]. rewrite Forall_forall in *. intros l I. apply A, I. }
      destruct (header_all_texts _ _ _ (or_introl En) H Sh) as (_ & _ & T & S). destruct (values_shape _ _ _ T S Pd) as [V W]. eapply pe_forms; eassumption.
  - apply (located_possible _ _ _ _ _ A). apply (any_catalogue lib pf _ _ _ _ _ P A) in R. apply (catalogue_locates _ _ _ _ _ R). rewrite E. apply in_or_app. right. left. reflexivity.
Qed.

(** * All of them come out *)
Definition ok_line (s : str) : Prop := one_line s /\ scalars s.
Lemma parsed_padded k : forall m ls e pl tl, parsed (m + N.of_nat k) ls e pl tl -> parsed m (repeat [] k ++ ls) e pl tl.
Proof.
  induction k as [|k IH]; intros m ls e pl tl P.
  - replace (m + N.of_nat 0) with m in P by lia. exact P.
  - cbn [repeat app]. apply ps_blank; [intros []|apply ln_blank; intros c []|]. apply IH. replace (m + 1 + N.of_nat k) with (m + N.of_nat (S k)) by lia. exact P.
Qed.
Lemma contents_padded k bs f ls e : contents bs f ls e -> exists bs', contents bs' f (repeat [] k ++ ls) e.
Proof.
  intros C. induction k as [|k (bs' & IH)]; [exists bs; exact C|]. cbn [repeat app]. exists (utf8 [] ++ [13; 10] ++ bs'). apply ct_line; [intros []|intros c []|apply eol_crlf|exact IH].
Qed.
Lemma padded_file n bs f ls e pl tl : 1 <= n -> contents bs f ls e -> parsed n ls e pl tl -> exists evs bs' ls', delivers evs bs' f /\ contents bs' f ls' e /\ parsed 1 ls' e pl tl.
Proof.
  intros L C P. destruct (contents_padded (N.to_nat (n - 1)) _ _ _ _ C) as (bs' & C'). destruct (delivers_single bs' f) as (evs & D).
  exists evs, bs'. eexists. split; [exact D|]. split; [exact C'|]. apply parsed_padded. replace (1 + N.of_nat (N.to_nat (n - 1))) with n by lia. exact P.
Qed.
Definition comes_out (lib : lang_lib) (pf : platform) (x : error) : Prop := exists evs bs f, delivers evs bs f /\ ends_with_error (read_catalogue lib pf evs) x.
Lemma comes_out_of lib pf n bs f ls e pl tl x : 1 <= n -> contents bs f ls e -> parsed n ls e pl tl -> (exists o, catalogue_of lib pf (listing pl tl) o /\ ends_with_error o x) -> comes_out lib pf x.
Proof.
  intros L C P (o & R & E). destruct (padded_file _ _ _ _ _ _ _ L C P) as (evs & bs' & ls' & D & C' & P'). exists evs, bs', f. split; [exact D|].
  apply (file_catalogue lib pf _ _ _ _ _ _ _ _ D C' P') in R. rewrite R. exact E.
Qed.
Lemma lines_come_out lib pf n ls pl x : 1 <= n -> Forall ok_line ls -> parsed n ls None pl None -> (exists o, catalogue_of lib pf (listing pl None) o /\ ends_with_error o x) -> comes_out lib pf x.
Proof.
  intros L H P R. destruct (lines_written ls) as (bs & C); [intros s I; rewrite Forall_forall in H; exact (H s I)|]. exact (comes_out_of _ _ _ _ _ _ _ _ _ _ L C P R).
Qed.
Lemma failed_at_once lib pf x : exists o, catalogue_of lib pf (listing [] (Some x)) o /\ ends_with_error o x.
Proof. exists (Err x). split; [|left; reflexivity]. eapply co_err. reflexivity. Qed.
Lemma failure_out lib pf n i : 1 <= n -> comes_out lib pf (EIo n i).
Proof.
  intros L. destruct i as [code|].
  - eapply (comes_out_of lib pf n [] (Some code) [] _ [] _); [exact L|apply ct_fail; intros []|apply ps_fail|apply failed_at_once].
  - eapply (comes_out_of lib pf n [255] None [] _ [] _); [exact L|apply ct_last_bad|apply ps_fail|apply failed_at_once].
    + intros [E|[]]. discriminate E.
    + apply utf8_decode_none. reflexivity.
Qed.
Lemma unreadable_out lib pf n s : 2 <= n -> one_line s -> scalars s -> (forall m l, ~ line_of s m l) -> comes_out lib pf (EParse n s []).
Proof.
  intros L O S N. destruct (lines_written [s]) as (bs & C); [intros x [<-|[]]; auto|].
  eapply (comes_out_of lib pf (n - 1)); [lia|exact C| |apply failed_at_once]. replace n with (n - 1 + 1) at 2 by lia. apply ps_bad; [exact O|apply N].
Qed.

Lemma ascii_line t n l : forallb (fun c => (c <? 128) && negb (c =? 10)) t = true -> parse_line t n = Some l -> ok_line t /\ line_of t n l.
Proof.
  intros H P. assert (ok_line t) as [A B].
  { rewrite forallb_forall in H. split; [intros I|intros c I]; specialize (H _ I); [discriminate H|]. apply andb_true_iff in H as [H _]. apply N.ltb_lt in H. left. lia. }
  split; [split; [exact A|exact B]|]. apply line_of_iff; assumption.
Qed.
(** Lines that fit nowhere but at the beginning of an entry. *)
Inductive misfit (n : N) : po_line -> Prop :=
| mf_comment k c : misfit n (PComment n k c)
| mf_string : misfit n (PCont n (lit "~") (lit "x"))
| mf_plain : misfit n (PMessage n [] (lit "msgctxt") (lit "x"))
| mf_obsolete : misfit n (PMessage n (lit "~") (lit "msgctxt") (lit "x"))
| mf_previous : misfit n (PMessage n (lit "|") (lit "|msgctxt") (lit "x"))
| mf_both : misfit n (PMessage n (lit "~|") (lit "|msgctxt") (lit "x")).
Lemma some_misfit s n l : one_line s -> scalars s -> line_of s n l -> l <> PBlank -> exists s' l', ok_line s' /\ line_of s' n l' /\ misfit n l' /\ shown l' = shown l.
Proof.
  intros O S L NB. pose proof (fun t l' => ascii_line t n l') as K.
  destruct L as [B|flags kw q t Q U|flags q t Q U|k c C N].
  - contradiction.
  - destruct Q as (m & w1 & w2 & w3 & w4 & _ & M & _). destruct M.
    1,2: destruct (K (lit "msgctxt ""x""") (PMessage n [] (lit "msgctxt") (lit "x")) eq_refl eq_refl) as [A B]; do 2 eexists; split; [exact A|]; split; [exact B|]; split; [constructor|reflexivity].
    + destruct (K (lit "#~ msgctxt ""x""") (PMessage n (lit "~") (lit "msgctxt") (lit "x")) eq_refl eq_refl) as [A B]; do 2 eexists; split; [exact A|]; split; [exact B|]; split; [constructor|reflexivity].
    + destruct (K (lit "#| msgctxt ""x""") (PMessage n (lit "|") (lit "|msgctxt") (lit "x")) eq_refl eq_refl) as [A B]; do 2 eexists; split; [exact A|]; split; [exact B|]; split; [constructor|reflexivity].
    + destruct (K (lit "#~| msgctxt ""x""") (PMessage n (lit "~|") (lit "|msgctxt") (lit "x")) eq_refl eq_refl) as [A B]; do 2 eexists; split; [exact A|]; split; [exact B|]; split; [constructor|reflexivity].
  - destruct (K (lit "#~ ""x""") (PCont n (lit "~") (lit "x")) eq_refl eq_refl) as [A B]; do 2 eexists; split; [exact A|]; split; [exact B|]; split; [constructor|reflexivity].
  - exists s, (PComment n k c). split; [split; assumption|]. split; [apply ln_comment; assumption|]. split; [constructor|reflexivity].
Qed.
Lemma misfit_no n l : misfit n l -> po_line_no l = n /\ l <> PBlank.
Proof. intros []; split; try reflexivity; discriminate. Qed.
Lemma misfit_msgid lib pf a b n l : misfit n l -> exists o, catalogue_of lib pf (listing [PMessage a [] (lit "msgctxt") (lit "a"); PMessage b [] (lit "msgctxt") (lit "b"); l] None) o /\ ends_with_error o (EParse n (shown l) (lit "msgid")).
Proof.
  intros M. assert (reads None (listing [PMessage b [] (lit "msgctxt") (lit "b"); l] None) [UErr (EParse n (shown l) (lit "msgid"))]) as R.
  { destruct M; eapply reads_err; reflexivity. }
  assert (exists u, runit None true (listing [PMessage a [] (lit "msgctxt") (lit "a"); PMessage b [] (lit "msgctxt") (lit "b"); l] None) = (Ok (Some u), listing [PMessage b [] (lit "msgctxt") (lit "b"); l] None)
     /\ msg_is_empty (u_message u) = true /\ header_forms pf (header_props u) = Ok None) as (u & E & Em & H).
  { destruct M; eexists; split; reflexivity || (split; reflexivity). }
  eexists. split; [exact (co_header lib pf _ u _ None _ E Em H R)|]. right. eexists. exists []. split; reflexivity.
Qed.
Lemma misfit_msgstr lib pf a n l : misfit n l -> exists o, catalogue_of lib pf (listing [PMessage a [] (lit "msgid") (lit "a"); l] None) o /\ ends_with_error o (EParse n (shown l) (lit "msgstr")).
Proof. intros M. exists (Err (EParse n (shown l) (lit "msgstr"))). split; [|left; reflexivity]. destruct M; eapply co_err; reflexivity. Qed.
Lemma misfit_form lib pf a b n l : misfit n l -> exists o, catalogue_of lib pf (listing [PMessage a [] (lit "msgid") (lit "a"); PMessage b [] (lit "msgid_plural") (lit "b"); l] None) o /\ ends_with_error o (EParse n (shown l) (lit "msgstr[0]")).
Proof. intros M. exists (Err (EParse n (shown l) (lit "msgstr[0]"))). split; [|left; reflexivity]. destruct M; eapply co_err; reflexivity. Qed.
(** Lines that fit nowhere at all, but for comments. *)
Inductive stray (n : N) : po_line -> Prop :=
| sy_string : stray n (PCont n (lit "~") (lit "x"))
| sy_plain : stray n (PMessage n [] (lit "msgstr") (lit "x"))
| sy_obsolete : stray n (PMessage n (lit "~") (lit "msgstr") (lit "x"))
| sy_previous : stray n (PMessage n (lit "|") (lit "|msgstr") (lit "x"))
| sy_both : stray n (PMessage n (lit "~|") (lit "|msgstr") (lit "x")).
Lemma some_stray s n l : one_line s -> scalars s -> line_of s n l -> l <> PBlank -> (exists k c, l = PComment n k c) \/ exists s' l', ok_line s' /\ line_of s' n l' /\ stray n l' /\ shown l' = shown l.
Proof.
  intros O S L NB. pose proof (fun t l' => ascii_line t n l') as K.
  destruct L as [B|flags kw q t Q U|flags q t Q U|k c C N].
  - contradiction.
  - right. destruct Q as (m & w1 & w2 & w3 & w4 & _ & M & _). destruct M.
    1,2: destruct (K (lit "msgstr ""x""") (PMessage n [] (lit "msgstr") (lit "x")) eq_refl eq_refl) as [A B]; do 2 eexists; split; [exact A|]; split; [exact B|]; split; [constructor|reflexivity].
    + destruct (K (lit "#~ msgstr ""x""") (PMessage n (lit "~") (lit "msgstr") (lit "x")) eq_refl eq_refl) as [A B]; do 2 eexists; split; [exact A|]; split; [exact B|]; split; [constructor|reflexivity].
    + destruct (K (lit "#| msgstr ""x""") (PMessage n (lit "|") (lit "|msgstr") (lit "x")) eq_refl eq_refl) as [A B]; do 2 eexists; split; [exact A|]; split; [exact B|]; split; [constructor|reflexivity].
    + destruct (K (lit "#~| msgstr ""x""") (PMessage n (lit "~|") (lit "|msgstr") (lit "x")) eq_refl eq_refl) as [A B]; do 2 eexists; split; [exact A|]; split; [exact B|]; split; [constructor|reflexivity].
  - right. destruct (K (lit "#~ ""x""") (PCont n (lit "~") (lit "x")) eq_refl eq_refl) as [A B]; do 2 eexists; split; [exact A|]; split; [exact B|]; split; [constructor|reflexivity].
  - left. eauto.
Qed.
Lemma stray_msgid lib pf n l : stray n l -> exists o, catalogue_of lib pf (listing [l] None) o /\ ends_with_error o (EParse n (shown l) (lit "msgid")).
Proof.
  intros M. assert (reads None (listing [l] None) [UErr (EParse n (shown l) (lit "msgid"))]) as R.
  { destruct M; eapply reads_err; reflexivity. }
  assert (exists u, runit None true (listing [l] None) = (Ok (Some u), listing [l] None) /\ msg_is_empty (u_message u) = true /\ header_forms pf (header_props u) = Ok None) as (u & E & Em & H).
  { destruct M; eexists; split; reflexivity || (split; reflexivity). }
  eexists. split; [exact (co_header lib pf _ u _ None _ E Em H R)|]. right. eexists. exists []. split; reflexivity.
Qed.
Lemma no_msgid_out lib pf n s l : 1 <= n -> one_line s -> scalars s -> line_of s n l -> l <> PBlank -> (forall k c, l = PComment n k c -> 3 <= n) -> comes_out lib pf (EParse n (shown l) (lit "msgid")).
Proof.
  intros L O S Lo NB Co. pose proof (fun x m k' => ascii_line (lit x) m k') as K. destruct (some_stray _ _ _ O S Lo NB) as [(k & c & ->)|(t & k & Ok & Lt & M & <-)].
  - specialize (Co _ _ eq_refl). pose proof (mf_comment n k c) as M.
    destruct (K "msgctxt ""a""" (n - 2) (PMessage (n - 2) [] (lit "msgctxt") (lit "a")) eq_refl eq_refl)%string as [A1 L1]. destruct (K "msgctxt ""b""" (n - 1) (PMessage (n - 1) [] (lit "msgctxt") (lit "b")) eq_refl eq_refl)%string as [A2 L2].
    eapply (lines_come_out lib pf (n - 2)); [lia|constructor; [exact A1|constructor; [exact A2|constructor; [exact (conj O S)|constructor]]]| |exact (misfit_msgid lib pf (n - 2) (n - 1) n _ M)].
    apply ps_line; [exact (proj1 A1)|exact L1|discriminate|]. replace (n - 2 + 1) with (n - 1) by lia. apply ps_line; [exact (proj1 A2)|exact L2|discriminate|]. replace (n - 1 + 1) with n by lia. apply ps_line; [exact O|exact Lo|exact NB|]. constructor.
  - eapply (lines_come_out lib pf n); [exact L|constructor; [exact Ok|constructor]| |exact (stray_msgid lib pf n k M)]. apply ps_line; [exact (proj1 Ok)|exact Lt|destruct M; discriminate|]. constructor.
Qed.
Lemma no_msgstr_out lib pf n s l : 2 <= n -> one_line s -> scalars s -> line_of s n l -> l <> PBlank -> comes_out lib pf (EParse n (shown l) (lit "msgstr")).
Proof.
  intros L O S Lo NB. destruct (some_misfit _ _ _ O S Lo NB) as (t & k & Ok & Lt & M & <-). clear s l O S Lo NB. pose proof (proj2 (misfit_no _ _ M)) as NB.
  destruct (ascii_line (lit "msgid ""a""") (n - 1) (PMessage (n - 1) [] (lit "msgid") (lit "a")) eq_refl eq_refl) as [A1 L1].
  eapply (lines_come_out lib pf (n - 1)); [lia|constructor; [exact A1|constructor; [exact Ok|constructor]]| |exact (misfit_msgstr lib pf (n - 1) n k M)].
  apply ps_line; [exact (proj1 A1)|exact L1|discriminate|]. replace (n - 1 + 1) with n by lia. apply ps_line; [exact (proj1 Ok)|exact Lt|exact NB|]. constructor.
Qed.
Lemma no_form_out lib pf n s l : 3 <= n -> one_line s -> scalars s -> line_of s n l -> l <> PBlank -> comes_out lib pf (EParse n (shown l) (lit "msgstr[0]")).
Proof.
  intros L O S Lo NB. destruct (some_misfit _ _ _ O S Lo NB) as (t & k & Ok & Lt & M & <-). clear s l O S Lo NB. pose proof (proj2 (misfit_no _ _ M)) as NB.
  pose proof (fun x m k' => ascii_line (lit x) m k') as K.
  destruct (K "msgid ""a""" (n - 2) (PMessage (n - 2) [] (lit "msgid") (lit "a")) eq_refl eq_refl)%string as [A1 L1]. destruct (K "msgid_plural ""b""" (n - 1) (PMessage (n - 1) [] (lit "msgid_plural") (lit "b")) eq_refl eq_refl)%string as [A2 L2].
  eapply (lines_come_out lib pf (n - 2)); [lia|constructor; [exact A1|constructor; [exact A2|constructor; [exact Ok|constructor]]]| |exact (misfit_form lib pf (n - 2) (n - 1) n k M)].
  apply ps_line; [exact (proj1 A1)|exact L1|discriminate|]. replace (n - 2 + 1) with (n - 1) by lia. apply ps_line; [exact (proj1 A2)|exact L2|discriminate|]. replace (n - 1 + 1) with n by lia. apply ps_line; [exact (proj1 Ok)|exact Lt|exact NB|]. constructor.
Qed.
Lemma sourceless_out lib pf n : 2 <= n -> comes_out lib pf (EUnexpected n (lit "Source should not be empty")).
Proof.
  intros L. pose proof (fun x m k' => ascii_line (lit x) m k') as K.
  destruct (K "msgctxt ""a""" (n - 1) (PMessage (n - 1) [] (lit "msgctxt") (lit "a")) eq_refl eq_refl)%string as [A1 L1]. destruct (K "msgctxt ""b""" n (PMessage n [] (lit "msgctxt") (lit "b")) eq_refl eq_refl)%string as [A2 L2].
  destruct (K "msgid """"" (n + 1) (PMessage (n + 1) [] (lit "msgid") []) eq_refl eq_refl)%string as [A3 L3]. destruct (K "msgstr ""c""" (n + 1 + 1) (PMessage (n + 1 + 1) [] (lit "msgstr") (lit "c")) eq_refl eq_refl)%string as [A4 L4].
  eapply (lines_come_out lib pf (n - 1)); [lia|constructor; [exact A1|constructor; [exact A2|constructor; [exact A3|constructor; [exact A4|constructor]]]]| |].
  - apply ps_line; [exact (proj1 A1)|exact L1|discriminate|]. replace (n - 1 + 1) with n by lia. apply ps_line; [exact (proj1 A2)|exact L2|discriminate|].
    apply ps_line; [exact (proj1 A3)|exact L3|discriminate|]. apply ps_line; [exact (proj1 A4)|exact L4|discriminate|]. constructor.
  - eexists. split; [eapply co_header; [reflexivity|reflexivity|reflexivity|eapply reads_err; reflexivity]|]. right. do 2 eexists. split; [reflexivity|]. cbn [c_items]. exact (eq_refl (map UOk [] ++ [_])).
Qed.
Lemma forms_out lib pf def x : def <> [] -> property_shape (lit "Plural-Forms") def -> scalars def -> forms_fault pf def x -> comes_out lib pf x.
Proof.
  intros NE Sh Sd F. destruct (spread_properties [(lit "Plural-Forms", def)]) as (ps & T & S & P).
  { constructor; [intros []|constructor]. }
  { intros k v [[= <- <-]|[]]. split; [exact Sh|]. split; [|exact Sd]. intros c I. cbn in I. left. lia. }
  destruct (catalogue_has_file [] [] ps None []) as (hls & uls & bs & Wh & Wu & C); [intros n []|intros c []|exact T|exact S|constructor|].
  destruct (delivers_single bs None) as (evs & D). exists evs, bs, None. split; [exact D|]. left.
  pose proof (WriterFacts.contents_one_line _ _ _ _ C) as Pl. apply plain_app in Pl as [Ph Pu].
  destruct (header_read _ _ _ _ Wh Ph 1) as (h & u & R & E & H & _ & _). destruct (units_read _ _ _ Wu Pu (1 + N.of_nat (length hls))) as (bls & R' & Fb).
  assert (file evs (hls ++ uls) None (h ++ concat bls) None) as Fi by (exists bs, None; split; [exact D|]; split; [exact C|]; apply rd_app; assumption).
  pose proof (entries_ends None None h u _ [] E (entries_only _ _ _ Fb)) as Ea.
  apply (header_fault lib pf _ _ _ _ _ _ _ _ _ _ Fi eq_refl (fe_entry _ _ _ _ E Ea) H). exists def. split; [|split; assumption]. rewrite P. reflexivity.
Qed.
Theorem possible_comes_out lib pf x : possible_error pf x -> exists evs bs f, delivers evs bs f /\ ends_with_error (read_catalogue lib pf evs) x.
Proof.
  intros [n i L|n s L O S N|n s l L O S Lo NB Co|n s l L O S Lo NB|n s l L O S Lo NB|n L|def y NE Sh S F].
  - apply failure_out, L.
  - apply unreadable_out; assumption.
  - eapply no_msgid_out; eassumption.
  - eapply no_msgstr_out; eassumption.
  - eapply no_form_out; eassumption.
  - apply sourceless_out, L.
  - eapply forms_out; eassumption.
Qed.
