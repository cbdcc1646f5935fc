(** Whole files in terms of blocks of lines. *)
From Coq Require Import String Arith NArith ZArith Bool List Lia.
From Verif Require Import ModelBase ModelUtf8 ModelLine ModelFormula ModelData ModelSource ModelReader
  SpecLine SpecSource SpecReader SpecBlock SpecHeader SpecFile BaseFacts LineFacts LineThms DecFacts SourceFacts IterFacts ReaderFacts ReadsFacts CatalogueFacts LocalFacts StreamFacts
  BlockFacts CommentFacts UnitFacts SoundFacts BlocksFacts FirstFacts.
Import ListNotations.
Local Open Scope N_scope.

(** The first entry of a file. *)
Inductive catalogue_shape (lib : lang_lib) (pf : platform) (pl : list po_line) (tl : option error) : outcome catalogue -> Prop :=
| sh_none : tl = None -> incomplete None pl -> catalogue_shape lib pf pl tl (Ok (Catalogue [] [] [] (lang_invariant lib) []))
| sh_fail e : tl = Some e -> catalogue_shape lib pf pl tl (Err e)
| sh_line inc w l r : pl = inc ++ l :: r -> awaited None inc w -> ~ begun None (inc ++ [l]) ->
    catalogue_shape lib pf pl tl (Err (EParse (po_line_no l) (shown l) w))
| sh_plain u us o : blocks None pl tl (u :: us) o ->
    catalogue_shape lib pf pl tl (Ok (Catalogue [] [] [] (lang_invariant lib) (map UOk (u :: us) ++ error_item o)))
| sh_bad h u r e : pl = h ++ r ->
    first_entry h r tl u -> ~ has_source u ->
    header_forms pf (header_props u) = Err e -> catalogue_shape lib pf pl tl (Err e)
| sh_header h u r forms us o : pl = h ++ r ->
    first_entry h r tl u -> ~ has_source u ->
    header_forms pf (header_props u) = Ok forms -> blocks forms r tl us o ->
    catalogue_shape lib pf pl tl (Ok (Catalogue (u_notes u) (u_comments u) (header_props u)
                                          (header_language lib (lang_invariant lib) (header_props u)) (map UOk us ++ error_item o))).
Lemma sourceless_iff u : ~ has_source u <-> msg_is_empty (u_message u) = true.
Proof. rewrite has_source_iff. destruct (msg_is_empty (u_message u)); intuition congruence. Qed.
Lemma headless_sourceless forms b u : headless forms b u -> ~ has_source u.
Proof. intros Hl S. destruct Hl. exact (S _ eq_refl). Qed.
Lemma comments_incomplete p : Forall comment_line p -> incomplete None p.
Proof.
  intros H. apply comment_lines_iff in H. destruct (block_comments_total _ H) as (F & N & L & C & B). exists (lit "msgid"). apply (aw_id None false).
  rewrite <- (app_nil_r p). change [] with (@nil po_line ++ [] ++ []). eapply og_intro; [exact B|apply of_none|apply pv_none|apply of_none].
Qed.
Theorem catalogue_shape_sound lib pf pl tl o : Forall written pl -> catalogue_of lib pf (listing pl tl) o -> catalogue_shape lib pf pl tl o.
Proof.
  intros W H. pose proof (first_sound pl tl W) as R.
  destruct H as [e ls' E|ls' E|u ls' l E S Rd|u ls' e E S HF|u ls' forms l E S HF Rd]; rewrite E in R; cbn [first_result] in R.
  - destruct R as [(-> & _)|(inc & l & r' & w & -> & A & _ & NG & -> & _)]; [apply sh_fail; reflexivity|eapply sh_line; eauto].
  - destruct R as (-> & I). apply sh_none; [reflexivity|]. destruct I as [I|(w & I & _)]; [|exists w; exact I]. exact (comments_incomplete pl I).
  - destruct R as (b & r' & -> & -> & [En Ea|Hl _]).
    + apply Forall_app in W as [_ W]. apply reads_blocks in Rd as (us & o & Bl & ->); [|exact W].
      change (UOk u :: map UOk us ++ error_item o) with (map UOk (u :: us) ++ error_item o). apply sh_plain.
      apply bk_entry; [|exact Ea|exact Bl]. split; [exact En|]. apply has_source_iff, S.
    + exfalso. apply (headless_sourceless _ _ _ Hl), has_source_iff, S.
  - destruct R as (b & r' & -> & -> & R). eapply sh_bad; [reflexivity| |apply sourceless_iff, S|exact HF].
    exact R.
  - destruct R as (b & r' & -> & -> & R). apply Forall_app in W as [_ W]. apply reads_blocks in Rd as (us & o & Bl & ->); [|exact W].
    eapply sh_header; [reflexivity| |apply sourceless_iff, S|exact HF|exact Bl].
    exact R.
Qed.
(** Conversely. *)
Theorem plain_complete lib pf pl tl u us o : Forall written pl -> blocks None pl tl (u :: us) o ->
  catalogue_of lib pf (listing pl tl) (Ok (Catalogue [] [] [] (lang_invariant lib) (map UOk (u :: us) ++ error_item o))).
Proof.
  intros W B. remember (u :: us) as us' eqn:E. destruct B as [|b v r tl us0 o [En S] Ea B]; [discriminate|]. injection E as -> ->.
  apply Forall_app in W as [_ W]. eapply co_plain; [|apply has_source_iff, S|apply reads_blocks; [exact W|exists us, o; split; [exact B|reflexivity]]].
  apply runit_first_entry; [exact En|exact (ends_boundary _ _ _ _ W Ea)].
Qed.
Theorem header_complete lib pf h u r tl : Forall written (h ++ r) -> first_entry h r tl u -> ~ has_source u ->
  match header_forms pf (header_props u) with
  | Ok forms => forall us o, blocks forms r tl us o ->
      catalogue_of lib pf (listing (h ++ r) tl) (Ok (Catalogue (u_notes u) (u_comments u) (header_props u)
                                          (header_language lib (lang_invariant lib) (header_props u)) (map UOk us ++ error_item o)))
  | Err e => catalogue_of lib pf (listing (h ++ r) tl) (Err e)
  | Panic => False
  end.
Proof.
  intros W Fe S. destruct (first_read h u r tl W Fe) as (v & E & <- & <- & EM). apply Forall_app in W as [_ W]. apply sourceless_iff in S. rewrite <- EM in S.
  replace (header_props u) with (header_props v) by (unfold header_props; rewrite EM; reflexivity).
  destruct (header_forms pf (header_props v)) as [forms|e|] eqn:HF.
  - intros us o B. eapply co_header; eauto. apply reads_blocks; [exact W|]. exists us, o. auto.
  - eapply co_bad_header; eauto.
  - exact (header_forms_no_panic _ _ HF).
Qed.

(** * A block begins where another one ends *)
(** Lines an entry may begin with. *)
Definition starter (l : po_line) : Prop :=
  is_comment l \/ exists n p t s, l = PMessage n p t s /\ In t [lit "|msgctxt"; lit "|msgid"; lit "msgctxt"; lit "msgid"].
Lemma entry_starter forms b u : entry forms b u -> exists l b', b = l :: b' /\ starter l.
Proof.
  intros [cs F N L C obs ks pc pm c m st B K St]. apply block_comments_comment in B.
  destruct B as [|l cs Hl Cs]; [|exists l; eexists; split; [reflexivity|left; exact Hl]].
  cbn [app]. destruct K as [l1 pc' l2 pm' l3 c' l4 m' F1 F2 F3 Bo].
  assert (forall p kw f t r, field p kw f t -> In (reported_tag p kw) [lit "|msgctxt"; lit "|msgid"; lit "msgctxt"; lit "msgid"] -> exists l b', f ++ r = l :: b' /\ starter l) as X.
  { intros p kw f t r [n s ls t' _] I. do 2 eexists. split; [reflexivity|]. right. eauto 10. }
  destruct F1 as [|l1 t F1].
  2: { eapply X; [exact F1|]. rewrite prev_tag. cbn; auto. }
  cbn [app]. destruct F2 as [|l2 t F2|l2 t l2' t' F2 F2'].
  2: { eapply X; [exact F2|]. rewrite prev_tag. cbn; auto. }
  2: { rewrite <- app_assoc. eapply X; [exact F2|]. rewrite prev_tag. cbn; auto. }
  cbn [app]. destruct F3 as [|l3 t F3].
  2: { eapply X; [exact F3|]. rewrite own_tag. cbn; auto. }
  cbn [app]. destruct Bo as [g1 id g2 t F4 F5|g1 id g2 t vl vs F4 F5 V NE].
  - eapply X; [exact F4|]. rewrite own_tag. cbn; auto.
  - eapply X; [exact F4|]. rewrite own_tag. cbn; auto.
Qed.
Lemma opening_entry forms obs p l id : opening forms obs p -> field (own obs) (lit "msgid") l id ->
  exists u, entry forms (p ++ l ++ [PMessage 0 (own obs) (lit "msgstr") []]) u.
Proof.
  intros [cs F N L C l1 pc l2 pm l3 c B F1 F2 F3] Fi. eexists. rewrite <- !app_assoc. eapply entry_of; [exact B|].
  constructor; [exact F1|exact F2|exact F3|]. apply bd_simple; [exact Fi|apply own_line].
Qed.
Lemma app_first {A} (a b : list A) x y : a ++ b = x :: y -> a <> [] -> exists z, a = x :: z.
Proof. destruct a as [|z a]; intros E N; [contradiction|]. injection E as -> _. eauto. Qed.
Lemma awaited_entry forms l p w : awaited forms (l :: p) w -> exists y u, entry forms (l :: y) u.
Proof.
  intros A. remember (l :: p) as x eqn:Ex. destruct A as [obs p' O|obs p' f id O Fi|obs p' f id f' pl O Fi Fp].
  - destruct (opening_entry forms obs p' _ _ O (own_line obs (lit "msgid") 0 [])) as (u & E). rewrite Ex in E. cbn [app] in E. eauto.
  - destruct (opening_entry forms obs p' _ _ O Fi) as (u & E). rewrite app_assoc, Ex in E. cbn [app] in E. eauto.
  - destruct (opening_entry forms obs p' _ _ O Fi) as (u & E). rewrite app_assoc in Ex, E. apply app_first in Ex as (z & Ez).
    + rewrite Ez in E. cbn [app] in E. eauto.
    + intros Q. apply app_eq_nil in Q as [_ ->]. exact (field_nonempty _ _ _ _ Fi eq_refl).
Qed.
Lemma begun_starter forms l p : begun forms (l :: p) -> starter l.
Proof.
  intros [(q & u & E)|(w & A)]; [|apply awaited_entry in A as (q & u & E)];
    apply entry_starter in E as (l' & b' & E & S); injection E as -> _; exact S.
Qed.
Lemma starter_ends forms b u l r tl : entry forms b u -> starter l -> ends_at forms b (l :: r) tl.
Proof.
  intros [cs F N L C obs ks pc pm c m st B K St] S. cbn [ends_at]. intros V.
  assert (follow forms obs ks [l] None) as Fo.
  { split.
    - destruct S as [(n & k & s & ->)|(n & p & t & s & -> & _)]; exact Logic.I.
    - intros j _. split; [discriminate|]. intros n p s r' [= -> _]. destruct S as [(? & ? & ? & [=])|(n' & p' & t' & s' & [= _ _ <- _] & I)].
      exfalso. cbn in I. repeat (destruct I as [I|I]; [discriminate I|]). exact I. }
  pose proof (fields_complete forms false (set_obsolete (fold_left apply_line cs unit_default) obs) obs ks pc pm c m [l] None eq_refl K Fo) as E.
  pose proof (keywords_marked _ _ _ _ _ _ _ [l] K) as M.
  assert (exists o, runit forms false (listing ((cs ++ ks) ++ [l]) None) = (o, listing [l] None)) as (o & R).
  { unfold runit. rewrite <- app_assoc. rewrite (parse_comments_listing cs (block_comments_comment _ _ _ _ _ B) _ _ _ (marked_no_comment _ _ M)).
    destruct M as (n & p & t & s & r' & Er & O). rewrite Er in E |- *. cbn [bind]; rewrite listing_cons. unfold peek; cbn [hd line_obsolete po_line_no]; rewrite O, <- listing_cons, E; cbn [bind finish_unit].
    destruct (negb false && _); eexists; reflexivity. }
  apply (rest_not_begun _ _ _ _ _ _ _ R). left. exact V.
Qed.

(** * Files that are read without error *)
Lemma blocks_entries forms r us tl : blocks forms r tl us None <-> entries forms r us /\ tl = None.
Proof.
  split.
  - intros B. remember None as o eqn:Eo. induction B as [rest tl o Cl|b u r tl us o U E B IH]; subst o.
    + remember None as o eqn:Eo. destruct Cl; try discriminate. split; [|reflexivity]. exists [], rest. repeat split; [constructor|assumption].
    + destruct (IH eq_refl) as [(bls & tail & -> & F & I) ->]. split; [|reflexivity]. exists (b :: bls), tail. cbn [concat]. rewrite <- app_assoc. repeat split; [constructor; assumption|exact I].
  - intros [(bls & tail & -> & F & I) ->]. induction F as [|b u bls us U F IH]; cbn [concat app].
    + apply bk_close, cl_end, I.
    + rewrite <- app_assoc. apply bk_entry; [exact U| |exact IH]. destruct (concat bls ++ tail) as [|l r] eqn:E; [reflexivity|].
      apply starter_ends with u; [apply U|]. destruct F as [|b' u' bls us U' F]; cbn [concat app] in E.
      * subst tail. apply (begun_starter forms l r). right; exact I.
      * destruct U' as [En _]. apply entry_starter in En as (l' & b2 & -> & S). cbn [app] in E. injection E as -> _. exact S.
Qed.
Lemma entries_ends forms forms' h u r us : entry forms h u -> entries forms' r us -> ends_at forms h r None.
Proof.
  intros En (bls & tail & -> & F & I). destruct (concat bls ++ tail) as [|l r] eqn:E; [reflexivity|].
  apply starter_ends with u; [exact En|]. destruct F as [|b' u' bls us U' F]; cbn [concat app] in E.
  - subst tail. apply (begun_starter forms' l r). right; exact I.
  - destruct U' as [En' _]. apply entry_starter in En' as (l' & b2 & -> & S). cbn [app] in E. injection E as -> _. exact S.
Qed.

(** * From bytes *)
Lemma file_catalogue lib pf evs bs f ls e pl tl o : delivers evs bs f -> contents bs f ls e -> parsed 1 ls e pl tl ->
  (read_catalogue lib pf evs = o <-> catalogue_of lib pf (listing pl tl) o) /\ Forall written pl.
Proof.
  intros D C P. rewrite (catalogue_contents lib pf _ _ _ _ _ o D C), (parsed_items _ _ _ _ _ P). split; [reflexivity|].
  exact (parsed_written _ _ _ _ _ P).
Qed.
Theorem file_shape lib pf evs bs f ls e pl tl : delivers evs bs f -> contents bs f ls e -> parsed 1 ls e pl tl ->
  catalogue_shape lib pf pl tl (read_catalogue lib pf evs).
Proof.
  intros D C P. destruct (file_catalogue lib pf evs bs f ls e pl tl (read_catalogue lib pf evs) D C P) as [E W].
  apply catalogue_shape_sound; [exact W|]. apply E. reflexivity.
Qed.
