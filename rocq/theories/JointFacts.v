(** Every possible catalogue can be followed by every possible error, provided that its line comes late enough (C121). *)
From Coq Require Import String Arith NArith ZArith Bool List Lia.
From Verif Require Import ModelBase ModelLine ModelFormula ModelData ModelUtf8 ModelSource ModelReader
  SpecLine SpecSource SpecReader SpecBlock SpecHeader SpecFault SpecFile SpecAny SpecWriter SpecReport SpecPossible SpecBadEnds
  BaseFacts LineFacts SourceFacts ReaderFacts ReadsFacts CatalogueFacts StreamFacts BlockFacts BlocksFacts SoundFacts FirstFacts FileFacts MapFacts HeaderFacts BlockThms HeaderThms WriterFacts WritableFacts AccessFacts PieceFacts AnyFacts AnyErrors FaultFacts BareFacts PossibleFacts PlaceErrors BadEndFacts LateErrors.
Import ListNotations.
Local Open Scope N_scope.

Lemma lines_before ls1 bs f ls e : Forall ok_line ls1 -> contents bs f ls e -> exists bs', contents bs' f (ls1 ++ ls) e.
Proof.
  intros F C. induction F as [|s ls1 [O S] F (bs' & IH)]; [exists bs; exact C|]. cbn [app]. exists (utf8 s ++ [13; 10] ++ bs'). apply ct_line; [exact O|exact S|apply eol_crlf|exact IH].
Qed.
Lemma parsed_after ls1 : forall n pl1 ls e pl tl, parsed n ls1 None pl1 None -> parsed (n + N.of_nat (length ls1)) ls e pl tl -> parsed n (ls1 ++ ls) e (pl1 ++ pl) tl.
Proof.
  induction ls1 as [|s ls1 IH]; intros n pl1 ls e pl tl A B; inversion A; subst; cbn [app length] in *.
  - replace (n + N.of_nat 0) with n in B by lia. exact B.
  - apply ps_blank; [assumption|assumption|]. apply IH; [assumption|]. replace (n + 1 + N.of_nat (length ls1)) with (n + N.of_nat (S (length ls1))) by lia. exact B.
  - apply ps_line; [assumption|assumption|assumption|]. apply IH; [assumption|]. replace (n + 1 + N.of_nat (length ls1)) with (n + N.of_nat (S (length ls1))) by lia. exact B.
Qed.
Lemma reads_nothing forms pl tl x : Forall written pl -> reads forms (listing pl tl) [UErr x] -> blocks forms pl tl [] (Some x).
Proof.
  intros W R. apply reads_blocks in R as (us & o & B & E); [|exact W]. destruct us as [|u us]; [|discriminate E]. destruct o as [y|]; [|discriminate E]. injection E as <-. exact B.
Qed.

(** Lines from line [p] on, a comment first, that give the error. *)
Definition mark (p : N) : po_line := PComment p 32 (lit "x").
Definition gives (p : N) (x : error) : Prop := exists bs f ls e pl tl, contents bs f ls e /\ parsed p ls e (mark p :: pl) tl /\ forall forms, blocks forms (mark p :: pl) tl [] (Some x).
Lemma gives_from p n bs f ls e pl tl x : p + 1 <= n -> contents bs f ls e -> parsed n ls e pl tl -> (forall forms, reads forms (listing (mark p :: pl) tl) [UErr x]) -> gives p x.
Proof.
  intros L C P R. destruct (contents_padded (N.to_nat (n - (p + 1))) _ _ _ _ C) as (bs' & C').
  destruct (ascii_line (lit "# x") p (mark p) eq_refl eq_refl) as [A1 L1].
  destruct (lines_before [lit "# x"] _ _ _ _ ltac:(constructor; [exact A1|constructor]) C') as (bs2 & C2). exists bs2, f. do 2 eexists. exists pl, tl. split; [exact C2|].
  assert (parsed p ([lit "# x"] ++ repeat [] (N.to_nat (n - (p + 1))) ++ ls) e (mark p :: pl) tl) as P2.
  { cbn [app]. apply ps_line; [exact (proj1 A1)|exact L1|discriminate|]. apply parsed_padded. replace (p + 1 + N.of_nat (N.to_nat (n - (p + 1)))) with n by lia. exact P. }
  split; [exact P2|]. intros forms. apply reads_nothing; [exact (parsed_written _ _ _ _ _ P2)|apply R].
Qed.
Lemma gives_lines p n ls pl x : p + 1 <= n -> Forall ok_line ls -> parsed n ls None pl None -> (forall forms, reads forms (listing (mark p :: pl) None) [UErr x]) -> gives p x.
Proof.
  intros L H P R. destruct (lines_written ls) as (bs & C); [intros s I; rewrite Forall_forall in H; exact (H s I)|]. exact (gives_from _ _ _ _ _ _ _ _ _ L C P R).
Qed.
Lemma no_values n l : misfit n l -> forall k i, parse_values false k i [] (listing [l] None) = (Ok [], listing [l] None).
Proof. intros M. induction k as [|k IH]; intros i; [reflexivity|]. cbn [parse_values]. destruct M; exact (IH (i + 1)). Qed.
Lemma no_values_read forms p a b n l : misfit n l ->
  runit forms false (listing [mark p; PMessage a [] (lit "msgid") (lit "a"); PMessage b [] (lit "msgid_plural") (lit "b"); l] None) = (Err (EParse n (shown l) (lit "msgstr[0]")), listing [l] None).
Proof.
  intros M. pose proof (no_values n l M (N.to_nat (forms_count forms)) 0) as V.
  destruct M; lazy -[parse_values forms_count N.to_nat] in V |- *; rewrite V; reflexivity.
Qed.
Lemma all_given pf p x : possible_error pf x -> p + 3 <= named_line x -> gives p x.
Proof.
  pose proof (fun x m k' => ascii_line (lit x) m k') as K.
  intros [n i L|n s L O S N|n s l L O S Lo NB Co|n s l L O S Lo NB|n s l L O S Lo NB|n L|def y NE Sh S F] B; cbn [named_line] in B.
  - destruct i as [code|].
    + eapply (gives_from p n [] (Some code) [] _ [] _); [lia|apply ct_fail; intros []|apply ps_fail|intros forms; eapply reads_err; reflexivity].
    + eapply (gives_from p n [255] None [] _ [] _); [lia|apply ct_last_bad|apply ps_fail|intros forms; eapply reads_err; reflexivity].
      * intros [E|[]]. discriminate E.
      * apply utf8_decode_none. reflexivity.
  - destruct (lines_written [s]) as (bs & C); [intros x' [<-|[]]; auto|].
    apply (gives_from p (n - 1) bs None [s] None [] (Some (EParse n s []))); [lia|exact C| |intros forms; eapply reads_err; reflexivity]. replace n with (n - 1 + 1) at 2 by lia. apply ps_bad; [exact O|apply N].
  - destruct (some_misfit _ _ _ O S Lo NB) as (t & k & Ok & Lt & M & <-). clear s l O S Lo NB Co. pose proof (proj2 (misfit_no _ _ M)) as NB.
    destruct (K "msgctxt ""b""" (n - 1) (PMessage (n - 1) [] (lit "msgctxt") (lit "b")) eq_refl eq_refl)%string as [A1 L1].
    eapply (gives_lines p (n - 1)); [lia|constructor; [exact A1|constructor; [exact Ok|constructor]]| |].
    { apply ps_line; [exact (proj1 A1)|exact L1|discriminate|]. replace (n - 1 + 1) with n by lia. apply ps_line; [exact (proj1 Ok)|exact Lt|exact NB|]. constructor. }
    intros forms; destruct M; eapply reads_err; reflexivity.
  - destruct (some_misfit _ _ _ O S Lo NB) as (t & k & Ok & Lt & M & <-). clear s l O S Lo NB. pose proof (proj2 (misfit_no _ _ M)) as NB.
    destruct (K "msgid ""a""" (n - 1) (PMessage (n - 1) [] (lit "msgid") (lit "a")) eq_refl eq_refl)%string as [A1 L1].
    eapply (gives_lines p (n - 1)); [lia|constructor; [exact A1|constructor; [exact Ok|constructor]]| |].
    { apply ps_line; [exact (proj1 A1)|exact L1|discriminate|]. replace (n - 1 + 1) with n by lia. apply ps_line; [exact (proj1 Ok)|exact Lt|exact NB|]. constructor. }
    intros forms; destruct M; eapply reads_err; reflexivity.
  - destruct (some_misfit _ _ _ O S Lo NB) as (t & k & Ok & Lt & M & <-). clear s l O S Lo NB. pose proof (proj2 (misfit_no _ _ M)) as NB.
    destruct (K "msgid ""a""" (n - 2) (PMessage (n - 2) [] (lit "msgid") (lit "a")) eq_refl eq_refl)%string as [A1 L1]. destruct (K "msgid_plural ""b""" (n - 1) (PMessage (n - 1) [] (lit "msgid_plural") (lit "b")) eq_refl eq_refl)%string as [A2 L2].
    eapply (gives_lines p (n - 2)); [lia|constructor; [exact A1|constructor; [exact A2|constructor; [exact Ok|constructor]]]| |].
    { apply ps_line; [exact (proj1 A1)|exact L1|discriminate|]. replace (n - 2 + 1) with (n - 1) by lia. apply ps_line; [exact (proj1 A2)|exact L2|discriminate|]. replace (n - 1 + 1) with n by lia. apply ps_line; [exact (proj1 Ok)|exact Lt|exact NB|]. constructor. }
    intros forms. eapply reads_err. eapply no_values_read. exact M.
  - destruct (K "msgid """"" n (PMessage n [] (lit "msgid") []) eq_refl eq_refl)%string as [A1 L1]. destruct (K "msgstr ""c""" (n + 1) (PMessage (n + 1) [] (lit "msgstr") (lit "c")) eq_refl eq_refl)%string as [A2 L2].
    eapply (gives_lines p n); [lia|constructor; [exact A1|constructor; [exact A2|constructor]]| |].
    { apply ps_line; [exact (proj1 A1)|exact L1|discriminate|]. apply ps_line; [exact (proj1 A2)|exact L2|discriminate|]. constructor. }
    intros forms; eapply reads_err; reflexivity.
  - destruct F; cbn [named_line] in B; lia.
Qed.

Lemma mark_ends forms b u p r tl : entry forms b u -> ends_at forms b (mark p :: r) tl.
Proof. intros E. apply starter_ends with u; [exact E|]. left. do 3 eexists. reflexivity. Qed.
Lemma blocks_before forms bls us p r tl o : Forall2 (unit_entry forms) bls us -> blocks forms (mark p :: r) tl [] o -> blocks forms (concat bls ++ mark p :: r) tl us o.
Proof.
  intros F B. induction F as [|b u bls us U F IH]; [exact B|]. cbn [concat]. rewrite <- app_assoc. apply bk_entry; [exact U| |exact IH].
  destruct F as [|b' u' bls us U' F]; cbn [concat app]; [eapply mark_ends; apply U|].
  destruct U' as [En' _]. apply entry_starter in En' as (l' & b2 & -> & S). cbn [app]. apply starter_ends with u; [apply U|exact S].
Qed.
Lemma header_before forms bls us p r tl h u : entry None h u -> Forall2 (unit_entry forms) bls us -> ends_at None h (concat bls ++ mark p :: r) tl.
Proof.
  intros E F. destruct F as [|b' u' bls us U' F]; cbn [concat app]; [eapply mark_ends; exact E|].
  destruct U' as [En' _]. apply entry_starter in En' as (l' & b2 & -> & S). cbn [app]. apply starter_ends with u; [exact E|exact S].
Qed.
Theorem joint_read lib pf c us : possible lib pf c us -> exists k, forall x, possible_error pf x -> k <= named_line x ->
  exists evs bs f c', delivers evs bs f /\ read_catalogue lib pf evs = Ok c' /\ same_catalogue c c' /\ c_items c' = map UOk us ++ [UErr x].
Proof.
  intros [HN HC ND HP HL (forms & HF & W)]. destruct (spread_properties _ ND HP) as (ps & T & S & P).
  assert (forall k, property (c_properties c) k = property ps k) as Q by (intros k; rewrite property_once by exact ND; symmetry; apply P).
  destruct (catalogue_has_file (c_notes c) (c_comments c) ps forms us HN HC T S W) as (hls & uls & bs0 & Wh & Wu & C0).
  pose proof (WriterFacts.contents_one_line _ _ _ _ C0) as Pl. apply plain_app in Pl as [Ph Pu].
  destruct (header_read _ _ _ _ Wh Ph 1) as (h & u & R & E & H & Hn & Hc). destruct (units_read _ _ _ Wu Pu (1 + N.of_nat (length hls))) as (bls & R' & F).
  pose proof (rd_app _ _ _ _ _ R R') as R2. set (p := 1 + N.of_nat (length (hls ++ uls))). exists (p + 3). intros x Px L.
  destruct (all_given pf p x Px L) as (bs & f & ls & e & pl & tl & Ct & Pt & B).
  assert (Forall ok_line (hls ++ uls)) as Ok0 by (apply Forall_forall; exact (contents_lines_ok _ _ _ _ C0)).
  destruct (lines_before _ _ _ _ _ Ok0 Ct) as (bs' & C'). destruct (delivers_single bs' f) as (evs & D).
  pose proof (parsed_after _ _ _ _ _ _ _ R2 Pt) as P2.
  assert (file evs ((hls ++ uls) ++ ls) e ((h ++ concat bls) ++ mark p :: pl) tl) as Fi by (exists bs', f; auto).
  destruct (read_header lib pf evs _ _ _ _ h u ps (concat bls ++ mark p :: pl) forms us (Some x) Fi) as (c' & Rc & (Gn & Gc & Gp & Gl) & Ei).
  - symmetry. apply app_assoc.
  - apply fe_entry; [exact E|]. eapply header_before; eassumption.
  - exact H.
  - exact (forms_same_properties _ _ _ _ Q HF).
  - apply blocks_before; [exact F|apply B].
  - exists evs, bs', f, c'. split; [exact D|]. split; [exact Rc|]. split; [|exact Ei]. repeat split.
    + congruence.
    + congruence.
    + intros k. rewrite Gp. symmetry. apply P.
    + exact (language_det _ _ _ _ (language_same_properties _ _ _ _ Q HL) Gl).
Qed.
Theorem joint_only lib pf evs c us x : read_catalogue lib pf evs = Ok c -> c_items c = map UOk us ++ [UErr x] ->
  possible lib pf c us /\ possible_error pf x /\ 2 * N.of_nat (length us) + 1 <= named_line x.
Proof.
  intros R E. split; [|split].
  - pose proof (read_possible _ _ _ _ R) as P. rewrite E, units_app, units_map, app_nil_r in P. exact P.
  - eapply error_possible; right; eauto.
  - exact (error_after_units _ _ _ _ _ _ R E).
Qed.
