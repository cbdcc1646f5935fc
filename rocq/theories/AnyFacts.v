(** What is delivered of any stream, also of one that goes on after a report of its end: the
    units are the contents of lines of the stream, in order. *)
From Coq Require Import String Arith NArith ZArith Bool List Lia.
From Verif Require Import ModelBase ModelUtf8 ModelLine ModelFormula ModelData ModelSource ModelReader
  SpecLine SpecFormula SpecSource SpecReader SpecBlock SpecHeader SpecFile SpecWriter SpecAny BaseFacts LineFacts LineThms DecFacts SourceFacts IterFacts ReaderFacts ReadsFacts
  CatalogueFacts LocalFacts StreamFacts BlockFacts CommentFacts UnitFacts SoundFacts BlocksFacts FirstFacts FileFacts HeaderFacts BlockThms EntryThms WriterFacts WritableFacts PieceFacts.
Import ListNotations.
Local Open Scope N_scope.

Lemma kept_app a b : kept (a ++ b) = kept a ++ kept b.
Proof. apply flat_map_app. Qed.
Lemma kept_map pl : kept (map (fun l => Some (ILine l)) pl) = pl.
Proof. induction pl as [|l pl IH]; [reflexivity|]. cbn. f_equal. exact IH. Qed.

(** * Fields *)
Lemma append_conts_any p ls : forall s o r, append_conts p s ls = (Ok o, r) ->
  exists a t, ls = a ++ r /\ strings p (kept a) t /\ o = Some (s ++ t).
Proof.
  induction ls as [|i ls IH]; intros s o r H; cbn [append_conts] in H.
  - injection H as <- <-. exists [], []. rewrite (app_nil_r s). repeat split. constructor.
  - destruct i as [[[|n k c|n q tag c|n q c]|e]|]; try discriminate;
      try (injection H as <- <-; exists [], []; rewrite (app_nil_r s); repeat split; constructor).
    + destruct (str_eqb_spec q p) as [->|D].
      * destruct (IH _ _ _ H) as (a & t & -> & S & ->). exists (Some (ILine (PCont n p c)) :: a), (c ++ t).
        rewrite <- app_assoc. repeat split. cbn. constructor. exact S.
      * injection H as <- <-. exists [], []. rewrite (app_nil_r s). repeat split. constructor.
    + injection H as <- <-. exists [None], []. rewrite (app_nil_r s). repeat split. constructor.
Qed.
Lemma parse_any obs p tag kw ls o r : Forall written (kept ls) -> tag = reported_tag p kw ->
  (forall n q s, written (PMessage n q tag s) -> starts_with 126 q = obs -> q = p) ->
  parse_msg obs tag ls = (Ok o, r) -> exists a, ls = a ++ r /\ opt_field p kw (kept a) o.
Proof.
  intros W T U H. rewrite parse_msg_eq in H. destruct ls as [|[[[|n k c|n q t c|n q c]|e]|] ls]; try discriminate;
    try (injection H as <- <-; exists []; split; [reflexivity|constructor]).
  - destruct (str_eqb t tag && Bool.eqb (starts_with 126 q) obs) eqn:E.
    + apply andb_true_iff in E as [E1 E2]. apply str_eqb_eq in E1. apply eqb_prop in E2. subst t.
      cbn in W. apply Forall_cons_iff in W as [W _]. pose proof (U _ _ _ W E2) as ->.
      destruct (append_conts_any _ _ _ _ _ H) as (a & t & -> & S & ->). exists (Some (ILine (PMessage n p tag c)) :: a).
      split; [reflexivity|]. cbn. subst tag. apply of_some. constructor. exact S.
    + injection H as <- <-. exists []. split; [reflexivity|constructor].
  - injection H as <- <-. exists [None]. split; [reflexivity|constructor].
Qed.
Lemma own_any obs kw ls o r : Forall written (kept ls) -> parse_msg obs kw ls = (Ok o, r) -> (forall r, kw <> 124 :: r) ->
  exists a, ls = a ++ r /\ opt_field (own obs) kw (kept a) o.
Proof. intros W H K. revert H. apply parse_any; [exact W|symmetry; apply own_tag|]. intros n q s Wq O. exact (written_own _ _ _ _ _ Wq O K). Qed.
Lemma prev_any obs kw ls o r : Forall written (kept ls) -> parse_msg obs (124 :: kw) ls = (Ok o, r) ->
  exists a, ls = a ++ r /\ opt_field (prev obs) kw (kept a) o.
Proof. intros W. apply parse_any; [exact W|symmetry; apply prev_tag|]. intros n q s Wq O. exact (written_prev _ _ _ _ _ Wq O). Qed.
Lemma kept_written a r : Forall written (kept (a ++ r)) -> Forall written (kept r).
Proof. rewrite kept_app. intros H. apply Forall_app in H. tauto. Qed.
Lemma values_any obs count k : forall i vs0 ls vs r, Forall written (kept ls) -> i + N.of_nat k = count ->
  parse_values obs k i vs0 ls = (Ok vs, r) -> exists a vs', ls = a ++ r /\ vs = vs0 ++ vs' /\ values (own obs) count i (kept a) vs'.
Proof.
  induction k as [|k IH]; intros i vs0 ls vs r W E H; cbn [parse_values] in H.
  - injection H as <- <-. exists [], []. rewrite (app_nil_r vs0). repeat split. constructor.
  - apply bind_ok in H as (t & l & H1 & H2). destruct (own_any _ _ _ _ _ W H1 ltac:(intros ?; discriminate)) as (a & -> & F).
    destruct (IH (i + 1) _ _ _ _ (kept_written _ _ W) ltac:(lia) H2) as (b & vs' & -> & -> & V).
    exists (a ++ b). rewrite kept_app. remember (kept a) as ka. destruct F as [|f t F].
    + exists vs'. rewrite app_assoc. repeat split. apply (values_weaken _ _ (i + 1)); [exact V|lia].
    + exists (t :: vs'). rewrite <- !app_assoc. repeat split. econstructor; [| |apply msgstr_kw_iff; reflexivity|exact F|exact V]; lia.
Qed.

(** * Keyword lines *)
Lemma message_any forms obs id pl ls m r : Forall written (kept ls) -> new_message forms obs (Some id) pl ls = (Ok (Some m), r) ->
  exists a, ls = a ++ r /\ forall l1 l2, field (own obs) (lit "msgid") l1 id -> opt_field (own obs) (lit "msgid_plural") l2 pl ->
    body forms obs (l1 ++ l2 ++ kept a) m.
Proof.
  intros W H. cbn [new_message] in H. destruct pl as [pl|]; apply bind_ok in H as (v & l & H1 & H2).
  - destruct (values_any _ (nforms forms) (N.to_nat (nforms forms)) 0 _ _ _ _ W ltac:(lia) H1) as (a & vs & -> & -> & V). cbn [app] in H2.
    destruct vs as [|x vs]; cbn [is_empty] in H2; [apply bind_ok in H2 as (? & ? & _ & H2); discriminate|]. injection H2 as <- <-.
    exists a. split; [reflexivity|]. intros l1 l2 F1 F2. inversion F2; subst. eapply bd_plural; [exact F1|eassumption|exact V|discriminate].
  - destruct (own_any _ _ _ _ _ W H1 ltac:(intros ?; discriminate)) as (a & -> & F).
    destruct v as [t|]; [|apply bind_ok in H2 as (? & ? & _ & H2); discriminate]. injection H2 as <- <-.
    exists a. split; [reflexivity|]. intros l1 l2 F1 F2. inversion F2; subst. inversion F; subst. cbn [app].
    replace (if is_empty t then None else Some t) with (some_text t) by (destruct t; reflexivity). apply bd_simple; assumption.
Qed.
Lemma fields_any forms first u ls v r : Forall written (kept ls) -> parse_message_fields forms first u ls = (Ok (Some v), r) ->
  let obs := u_obsolete u in exists a, ls = a ++ r /\
  ((exists pc pm c m, keywords forms obs (kept a) pc pm c m /\ v = set_message u pc pm c m)
   \/ (first = true /\ exists l1 pc l2 pm l3 c l4 t, kept a = l1 ++ l2 ++ l3 ++ l4 /\
        opt_field (prev obs) (lit "msgctxt") l1 pc /\ previous forms obs l2 pm /\
        opt_field (own obs) (lit "msgctxt") l3 c /\ opt_field (own obs) (lit "msgid_plural") l4 t /\
        v = set_message u pc pm c (MSimple [] None))).
Proof.
  intros W H obs. unfold parse_message_fields in H. fold obs in H.
  change (lit "|msgctxt") with (124 :: lit "msgctxt") in H. change (lit "|msgid") with (124 :: lit "msgid") in H. change (lit "|msgid_plural") with (124 :: lit "msgid_plural") in H.
  apply bind_ok in H as (pc & r1 & H1 & H). destruct (prev_any _ _ _ _ _ W H1) as (a1 & -> & F1). apply kept_written in W.
  apply bind_ok in H as (pi & r2 & H2 & H). destruct (prev_any _ _ _ _ _ W H2) as (a2 & -> & F2). apply kept_written in W.
  apply bind_ok in H as (pp & r3 & H3 & H).
  assert (exists a3, r2 = a3 ++ r3 /\ previous forms obs (kept a2 ++ kept a3) (new_previous forms pi pp)) as (a3 & -> & P).
  { destruct pi as [pi|].
    - destruct (prev_any _ _ _ _ _ W H3) as (a3 & -> & F3). exists a3. split; [reflexivity|]. inversion F2; subst. destruct F3 as [|f t F3].
      + rewrite app_nil_r. apply pv_simple; assumption.
      + cbn [new_previous]. apply (pv_plural forms obs); assumption.
    - injection H3 as <- <-. exists []. split; [reflexivity|]. inversion F2. constructor. }
  apply kept_written in W.
  apply bind_ok in H as (c & r4 & H4 & H). destruct (own_any _ _ _ _ _ W H4 ltac:(intros ?; discriminate)) as (a4 & -> & F4). apply kept_written in W.
  apply bind_ok in H as (id & r5 & H5 & H). destruct (own_any _ _ _ _ _ W H5 ltac:(intros ?; discriminate)) as (a5 & -> & F5). apply kept_written in W.
  destruct (negb first && match id with Some _ => false | None => true end) eqn:E; [apply bind_ok in H as (? & ? & _ & H); discriminate|].
  apply bind_ok in H as (pl & r6 & H6 & H). destruct (own_any _ _ _ _ _ W H6 ltac:(intros ?; discriminate)) as (a6 & -> & F6). apply kept_written in W.
  apply bind_ok in H as (m & r7 & H7 & H). destruct m as [m|]; [|discriminate]. injection H as <- <-.
  destruct id as [id|].
  - destruct (message_any _ _ _ _ _ _ _ W H7) as (a7 & -> & B). inversion F5; subst.
    exists (a1 ++ (a2 ++ a3) ++ a4 ++ a5 ++ a6 ++ a7). split; [rewrite <- !app_assoc; reflexivity|]. left.
    exists pc, (new_previous forms pi pp), c, m. split; [|reflexivity]. rewrite !kept_app. constructor; [exact F1|exact P|exact F4|]. apply B; assumption.
  - destruct first; [|discriminate]. cbn [new_message] in H7. injection H7 as <- <-. inversion F5 as [E5|]; subst.
    exists (a1 ++ (a2 ++ a3) ++ a4 ++ a5 ++ a6). split; [rewrite <- !app_assoc; reflexivity|]. right. split; [reflexivity|].
    exists (kept a1), pc, (kept (a2 ++ a3)), (new_previous forms pi pp), (kept a4), c, (kept a6), pl. rewrite !kept_app, <- E5. repeat split; assumption.
Qed.

(** * Units *)
Lemma comments_any ls : forall u v r, parse_comments u ls = (Ok v, r) -> exists a, ls = a ++ r /\ Forall is_comment (kept a) /\ v = fold_left apply_line (kept a) u.
Proof.
  induction ls as [|i ls IH]; intros u v r H; cbn [parse_comments] in H; [injection H as <- <-; exists []; repeat split; constructor|].
  destruct i as [[[|n k c|n q t c|n q c]|e]|]; try discriminate; try (injection H as <- <-; exists []; repeat split; constructor).
  destruct (IH _ _ _ H) as (a & -> & F & ->). exists (Some (ILine (PComment n k c)) :: a). repeat split. cbn. constructor; [unfold is_comment; eauto|exact F].
Qed.
Theorem runit_any forms first ls u r : Forall written (kept ls) -> runit forms first ls = (Ok (Some u), r) ->
  exists a, ls = a ++ r /\ (entry forms (kept a) u \/ first = true /\ headless forms (kept a) u) /\ (first = false -> has_source u).
Proof.
  intros W H. unfold runit in H. apply bind_ok in H as (w & l1 & H1 & H). destruct (comments_any _ _ _ _ H1) as (a & -> & Fc & ->).
  apply kept_written in W. destruct (peek l1) as [[l|]|]; try discriminate.
  apply bind_ok in H as (o & l2 & H2 & H). destruct o as [v|]; [|discriminate]. cbn [finish_unit] in H.
  destruct (negb first && msg_is_empty (u_message v)) eqn:E; [discriminate|]. injection H as <- <-.
  destruct (block_comments_total _ Fc) as (F & N & L & C & B). rewrite (comments_unit _ _ _ _ _ B) in H2. unfold set_obsolete in H2. cbn in H2.
  destruct (fields_any _ _ _ _ _ _ W H2) as (b & -> & K). cbn [u_obsolete] in K. exists (a ++ b). split; [rewrite app_assoc; reflexivity|]. rewrite kept_app.
  split.
  - destruct K as [(pc & pm & c & m & K & ->)|(-> & l1 & pc & pl & pm & l3 & c & l4 & t & Ek & F1 & F2 & F3 & F4 & ->)].
    + left. unfold set_message. cbn. rewrite finalize_set. eapply en_intro; [exact B|exact K|]. apply state_of_iff. reflexivity.
    + right. split; [reflexivity|]. unfold set_message. cbn. rewrite Ek, finalize_set. eapply hl_intro; [exact B|exact F1|exact F2|exact F3|exact F4|]. apply state_of_iff. reflexivity.
  - intros ->. cbn [negb andb] in E. apply has_source_iff. rewrite <- E. f_equal. unfold finalize_state. destruct (u_state v); try reflexivity. destruct (msg_is_blank (u_message v)); reflexivity.
Qed.
Theorem reads_any forms ls l : reads forms ls l -> Forall written (kept ls) -> exists bls rest, kept ls = concat bls ++ rest /\ Forall2 (unit_entry forms) bls (units l).
Proof.
  induction 1 as [ls r E|ls e r E|ls u r l E H IH]; intros W.
  - exists [], (kept ls). split; [reflexivity|constructor].
  - exists [], (kept ls). split; [reflexivity|constructor].
  - destruct (runit_any _ _ _ _ _ W E) as (a & -> & [En|[? _]] & S); [|discriminate]. destruct (IH (kept_written _ _ W)) as (bls & rest & Er & F).
    exists (kept a :: bls), rest. rewrite kept_app, Er. cbn [concat]. rewrite app_assoc. split; [reflexivity|]. constructor; [split; [exact En|apply S; reflexivity]|exact F].
Qed.
Theorem catalogue_any lib pf ls c : Forall written (kept ls) -> catalogue_of lib pf ls (Ok c) -> stream_catalogue lib pf (kept ls) c.
Proof.
  intros W H. remember (Ok c) as o eqn:Eo. destruct H as [e r E|r E|u r l E M R|u r e E M HF|u r forms l E M HF R]; try discriminate; injection Eo as <-.
  - exists [], None, [], (kept ls). split; [reflexivity|]. split; [|constructor]. left. repeat split; reflexivity.
  - destruct (runit_any _ _ _ _ _ W E) as (a & -> & [En|[_ Hl]] & _).
    + destruct (reads_any _ _ _ R (kept_written _ _ W)) as (bls & rest & Er & F). exists [], None, (kept a :: bls), rest. rewrite kept_app, Er. cbn [concat app]. rewrite app_assoc.
      split; [reflexivity|]. split; [left; repeat split; reflexivity|]. constructor; [|exact F]. split; [exact En|]. apply has_source_iff, M.
    + exfalso. apply (headless_sourceless _ _ _ Hl), has_source_iff, M.
  - destruct (runit_any _ _ _ _ _ W E) as (a & -> & En & _). destruct (reads_any _ _ _ R (kept_written _ _ W)) as (bls & rest & Er & F).
    exists (kept a), forms, bls, rest. rewrite kept_app, Er. split; [reflexivity|]. split; [|exact F]. right.
    assert (~ has_source u) as S by (apply sourceless_iff, M). destruct (header_exists u S) as (ps & H). exists u, ps.
    split; [destruct En as [En|[_ En]]; auto|]. split; [exact H|]. split; [|apply header_shown_of, H].
    apply header_intro in H as [_ H]. apply (header_forms_iff pf u ps); assumption.
Qed.

(** * Streams *)
Lemma answers_kept n bs f rs : answers n bs f rs -> Forall (fun l => written l /\ sane l) (kept rs).
Proof.
  assert (forall n b f ls e pl tl, contents b f ls e -> parsed n ls e pl tl -> Forall (fun l => written l /\ sane l) pl) as K.
  { intros n0 b f0 ls e pl tl C P. pose proof (parsed_written _ _ _ _ _ P) as A. pose proof (parsed_sane _ _ _ _ _ P (contents_lines_ok _ _ _ _ C)) as B.
    rewrite Forall_forall in *. auto. }
  induction 1 as [n b f ls e pl tl C P|n b b' bs f ls e pl x C P|n b bs f ls pl rs C P T A IH|n b bs f ls pl rs C P T A IH]; rewrite kept_app, kept_map; apply Forall_app; (split; [eapply K; eassumption|]).
  - destruct tl; constructor.
  - constructor.
  - exact IH.
  - exact IH.
Qed.
Theorem any_stream lib pf evs bs f rs c : pieces evs bs f -> answers 1 bs f rs -> read_catalogue lib pf evs = Ok c -> stream_catalogue lib pf (kept rs) c.
Proof.
  intros P A R. apply (any_catalogue lib pf _ _ _ _ _ P A) in R. apply catalogue_any; [|exact R].
  apply answers_kept in A. rewrite Forall_forall in *. intros l I. apply A, I.
Qed.
Theorem unit_entry_any lib pf evs c u : read_catalogue lib pf evs = Ok c -> In (UOk u) (c_items c) -> exists forms b, unit_entry forms b u /\ Forall sane b.
Proof.
  intros R I. destruct (all_calls evs) as (bs & f & rs & P & A & _). destruct (any_stream _ _ _ _ _ _ _ P A R) as (h & forms & bls & rest & E & _ & F).
  assert (In u (units (c_items c))) as J by (apply in_flat_map; exists (UOk u); split; [exact I|left; reflexivity]).
  assert (Forall sane (kept rs)) as S by (apply answers_kept in A; rewrite Forall_forall in *; intros l X; apply A, X). rewrite E in S.
  apply Forall_app in S as [_ S]. apply Forall_app in S as [S _]. clear E. induction F as [|b v bls us U F IH]; [contradiction|].
  cbn [concat] in S. apply Forall_app in S as [S1 S2]. destruct J as [->|J]; [eauto|]. apply IH; assumption.
Qed.
Theorem unit_state_any lib pf evs c u : read_catalogue lib pf evs = Ok c -> In (UOk u) (c_items c) ->
  (u_state u = StNeedsWork <-> In (lit "fuzzy") (u_flags u))
  /\ (u_state u = StFinal <-> ~ In (lit "fuzzy") (u_flags u) /\ exists t, In t (translations (u_message u)) /\ t <> [])
  /\ (u_state u = StEmpty <-> ~ In (lit "fuzzy") (u_flags u) /\ forall t, In t (translations (u_message u)) -> t = [])
  /\ (unit_is_translated u = true <-> u_state u = StFinal).
Proof.
  intros R I. destruct (unit_entry_any _ _ _ _ _ R I) as (forms & b & [En _] & _). destruct (state_of_cases _ _ _ (entry_state _ _ _ En)) as (A & B & C).
  split; [exact A|]. split; [exact B|]. split; [exact C|]. unfold unit_is_translated. destruct (u_state u); intuition discriminate.
Qed.
Theorem unit_source_any lib pf evs c u : read_catalogue lib pf evs = Ok c -> In (UOk u) (c_items c) -> forall text, u_message u <> MSimple [] text.
Proof. intros R I. destruct (unit_entry_any _ _ _ _ _ R I) as (forms & b & [_ S] & _). exact S. Qed.

(** * Written and read again *)
Lemma header_texts u ps h : entry None h u \/ headless None h u -> header u ps -> Forall sane h -> exists ls, writes_header (u_notes u) (u_comments u) ps ls /\ lines_ok ls.
Proof.
  intros En (t & Em & HP) S.
  assert (scalars (opt_str t) /\ (forall n, In n (u_notes u) -> comment_text (note_kind (note_origin n)) (note_value n))
      /\ (forall x, In x (u_comments u) -> ~ In (com_kind x) [44; 58; 46; 32] /\ comment_text (com_kind x) (com_content x))) as (St & A & B).
  { destruct En as [En|En]; [destruct En as [cs F N L C obs ks pc pm x m st Bc K Q]|destruct En as [cs F N L C obs l1 pc l2 pm l3 x l4 t' st Bc H1 H2 H3 H4 H5]].
    - apply Forall_app in S as [S1 S2]. destruct (block_comments_texts _ _ _ _ _ Bc S1) as (_ & _ & A & B). cbn [u_message u_notes u_comments] in *.
      split; [|auto]. destruct K as [l1 pc l2 pm l3 x l4 m H1 H2 H3 H4]. do 3 apply Forall_app in S2 as [_ S2]. subst m. apply (body_text _ _ _ _ H4 S2).
    - apply Forall_app in S as [S1 _]. destruct (block_comments_texts _ _ _ _ _ Bc S1) as (_ & _ & A & B). cbn [u_message u_notes u_comments] in *.
      injection Em as <-. split; [intros y []|auto]. }
  destruct (header_pairs_texts _ _ HP St) as [PT ST]. apply header_writable; assumption.
Qed.
Theorem any_writable lib pf evs c : read_catalogue lib pf evs = Ok c ->
  exists ps forms, header_forms_of pf ps forms /\ (forall k, property ps k = sm_get k (c_properties c)) /\ language_of lib ps (c_language c)
    /\ Forall (well_formed forms) (units (c_items c))
    /\ exists hls uls, writes_header (c_notes c) (c_comments c) ps hls /\ writes_units forms (units (c_items c)) uls /\ lines_ok (hls ++ uls).
Proof.
  intros R. destruct (all_calls evs) as (bs & f & rs & P & A & _). destruct (any_stream _ _ _ _ _ _ _ P A R) as (h & forms & bls & rest & E & Pr & F).
  assert (Forall sane (kept rs)) as S by (apply answers_kept in A; rewrite Forall_forall in *; intros l X; apply A, X). rewrite E in S.
  apply Forall_app in S as [S1 S]. apply Forall_app in S as [S2 _]. clear E P A.
  assert (exists ps, header_forms_of pf ps forms /\ (forall k, property ps k = sm_get k (c_properties c)) /\ language_of lib ps (c_language c)
    /\ exists ls, writes_header (c_notes c) (c_comments c) ps ls /\ lines_ok ls) as (ps & HF & Hp & Hl & hls & Wh & Lh).
  { destruct Pr as [(-> & -> & Hn & Hc & Hp & Hl)|(u & ps & En & H & HF & (Hn & Hc & Hp & Hl))].
    - exists []. split; [apply hf_absent; reflexivity|]. split; [intros k; rewrite Hp; reflexivity|]. split; [exact Hl|].
      rewrite Hn, Hc. apply header_writable; [intros n []|intros x []|constructor|intros x []].
    - exists ps. split; [exact HF|]. split; [intros k; symmetry; apply Hp|]. split; [exact Hl|]. rewrite Hn, Hc. eapply header_texts; eassumption. }
  assert (Forall (well_formed forms) (units (c_items c))) as W.
  { clear -F S2. induction F as [|b u bls us U F IH]; [constructor|]. cbn [concat] in S2. apply Forall_app in S2 as [A B]. constructor; [exact (entry_well_formed _ _ _ U A)|apply IH, B]. }
  destruct (units_writable _ _ W) as (uls & Wu & Lu). exists ps, forms. split; [exact HF|]. split; [exact Hp|]. split; [exact Hl|]. split; [exact W|].
  exists hls, uls. split; [exact Wh|]. split; [exact Wu|]. apply lines_ok_app; assumption.
Qed.
Theorem any_read_write_read lib pf evs c : read_catalogue lib pf evs = Ok c ->
  exists evs' bs' c', delivers evs' bs' None /\ read_catalogue lib pf evs' = Ok c' /\ same_catalogue c c' /\ c_items c' = map UOk (units (c_items c)).
Proof.
  intros R. destruct (any_writable lib pf evs c R) as (ps & forms & HF & Hp & Hl & _ & hls & uls & Wh & Wu & L).
  destruct (contents_exist _ L) as (bs' & C). pose proof (delivers_one bs') as D'.
  destruct (written_file_read lib pf _ _ _ _ _ _ _ _ _ Wh HF Wu C D') as (c' & R' & Ei & En & Ec & Ep & El).
  do 3 eexists. split; [exact D'|]. split; [exact R'|]. split; [|exact Ei]. repeat split; auto.
  - intros k. rewrite Ep, Hp. reflexivity.
  - exact (language_det _ _ _ _ Hl El).
Qed.
Theorem any_well_formed lib pf evs c : read_catalogue lib pf evs = Ok c ->
  exists ps forms, header_forms_of pf ps forms /\ (forall k, property ps k = sm_get k (c_properties c)) /\ Forall (well_formed forms) (units (c_items c)).
Proof. intros R. destruct (any_writable lib pf evs c R) as (ps & forms & A & B & _ & C & _). eauto. Qed.
