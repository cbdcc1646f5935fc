(** What has been read when a unit is delivered. *)
From Coq Require Import String Arith NArith ZArith Bool List Lia.
From Verif Require Import ModelBase ModelUtf8 ModelLine ModelFormula ModelData ModelSource ModelReader ModelLazy
  SpecLine SpecSource SpecReader SpecBlock SpecHeader SpecFile SpecLazy BaseFacts LineFacts LineThms DecFacts SourceFacts IterFacts ReaderFacts ReadsFacts CatalogueFacts LocalFacts StreamFacts
  BlockFacts CommentFacts UnitFacts SoundFacts BlocksFacts FirstFacts FileFacts MapFacts HeaderFacts BlockThms EntryThms PlaceFacts FileIntro LazyFacts FutureFacts.
Import ListNotations.

(** * The same results *)
Theorem lazy_results lib pf evs :
  match lz_parse lib pf evs, po_parse lib pf evs with
  | Ok l, Ok r => lr_header_notes l = rd_header_notes r /\ lr_header_comments l = rd_header_comments r
      /\ lr_header_properties l = rd_header_properties r /\ lr_target_language l = rd_target_language r
      /\ forall k, fst (lz_calls k l) = fst (calls k r)
  | Err e, Err e' => e = e'
  | _, _ => False
  end.
Proof.
  pose proof (reader_new_no_panic lib pf (responses (li_new evs))) as NP. fold (po_parse lib pf evs) in NP.
  destruct (parse_agree lib pf evs) as [l r R|e|]; [|reflexivity|contradiction].
  pose proof (proj1 R) as E. repeat split; try (rewrite E; reflexivity). intros k.
  exact (proj1 (calls_agree _ _ (responses_exact (li_new evs)) k l r R)).
Qed.

(** * After a unit the next line is known *)
Section Settled.
  Variable it0 : line_iter.
  Variable L : lines.
  Hypothesis HL : forall k, nth k L None = poll k it0.
  Hypothesis HS : ~ In None L.
  Notation sim := (sim it0 L).
  Notation agree := (agree it0 L).
  Notation rsim := (rsim it0 L).

  Definition settled (p : peekable) (ls : lines) : Prop :=
    pk_peeked p <> None \/ ls = [] /\ exists j, length L <= j /\ pk_iter p = after (S j) it0.
  Definition sagree {A} (l : lres A) (m : res A) : Prop := agree l m /\ forall a, fst l = Ok a -> settled (snd l) (snd m).
  Lemma sim_end p ls : sim p ls -> peek ls = None -> ls = [].
  Proof.
    intros (j & -> & _) P. destruct (skipn j L) as [|x r] eqn:E; [reflexivity|]. cbn in P. subst x. exfalso. apply HS.
    rewrite <- (firstn_skipn j L), E. apply in_or_app. right; left; reflexivity.
  Qed.
  Lemma sagree_ret {A} (a : A) p ls : sim p ls -> settled p ls -> sagree (Ok a, p) (Ok a, ls).
  Proof. intros S T. split; [apply agree_ret, S|auto]. Qed.
  Lemma sagree_err {A} e p ls : sim p ls -> @sagree A (Err e, p) (Err e, ls).
  Proof. intros S. split; [apply agree_ret, S|discriminate]. Qed.
  Lemma sagree_panic {A} p ls : sim p ls -> @sagree A (Panic, p) (Panic, ls).
  Proof. intros S. split; [apply agree_ret, S|discriminate]. Qed.
  Lemma sagree_bind {A B} (l : lres A) m (f : A -> peekable -> lres B) g : sagree l m ->
    (forall a p ls, sim p ls -> settled p ls -> sagree (f a p) (g a ls)) -> sagree (lbind l f) (bind m g).
  Proof.
    destruct l as [o p], m as [o' ls]. intros [[E S] T] H. cbn [fst snd] in *. subst o'. destruct o as [a|e|]; cbn [lbind bind].
    - apply H; [exact S|exact (T _ eq_refl)].
    - apply sagree_err, S.
    - apply sagree_panic, S.
  Qed.
  Lemma lz_peek_settled p x p' : lz_peek p = (x, p') -> pk_peeked p' <> None.
  Proof.
    unfold lz_peek. destruct (pk_peeked p) as [y|] eqn:E; [intros H; injection H as <- <-; congruence|].
    destruct (li_next _) as [y it]. intros H; injection H as <- <-. cbn. discriminate.
  Qed.
  Lemma fetch_next_sagree p ls : sim p ls -> sagree (lz_fetch_next p) (fetch_next ls).
  Proof.
    intros S. unfold lz_fetch_next, fetch_next. destruct (lz_peek_sim it0 L HL p ls S) as (p1 & E1 & S1 & _). rewrite E1.
    destruct (lz_next_sim it0 L HL p1 ls S1) as (p2 & E2 & S2 & _). unfold next. fold (peek ls).
    destruct (peek ls) as [[l|e]|] eqn:P.
    - apply sagree_ret; [exact S1|]. left. exact (lz_peek_settled _ _ _ E1).
    - rewrite E2. apply sagree_err, S2.
    - rewrite E2. apply sagree_ret; [exact S2|]. right. rewrite (sim_end _ _ S P). split; [reflexivity|].
      destruct S1 as (j & Ej & A). rewrite (sim_end _ _ S P) in Ej. exists j. split.
      { apply (f_equal (@length _)) in Ej. rewrite skipn_length in Ej. cbn in Ej. lia. }
      apply lz_peek_settled in E1. unfold at_line, lz_next in *. destruct (pk_peeked p1) as [x|]; [|contradiction]. injection E2 as _ <-. exact (proj2 A).
  Qed.
  Lemma append_conts_settled q fuel : forall s p ls, sim p ls -> forall a, fst (lz_append_conts fuel q s p) = Ok a ->
    settled (snd (lz_append_conts fuel q s p)) (snd (append_conts q s ls)).
  Proof.
    induction fuel as [|fuel IH]; intros s p ls S a H; [discriminate|]. cbn [lz_append_conts] in *.
    destruct (fetch_next_sagree p ls S) as [[E1 S1] T1]. destruct (lz_fetch_next p) as [o p1]. cbn [fst snd] in *.
    unfold fetch_next, next, peek in *.
    destruct ls as [|[[l|e]|] ls]; cbn [append_conts hd tl fst snd lbind] in *; subst o; cbn [lbind fst snd] in *; try discriminate; try (exact (T1 _ eq_refl)).
    destruct l as [|n k t|n f tag t|n f t]; try (exact (T1 _ eq_refl)).
    destruct (str_eqb f q); [|exact (T1 _ eq_refl)].
    destruct (lz_next_sim it0 L HL p1 _ S1) as (p2 & E2 & S2 & _). cbn [peek hd tl] in E2, S2. rewrite E2 in *.
    exact (IH _ _ _ S2 _ H).
  Qed.
  Lemma parse_msg_sagree o t p ls : sim p ls -> sagree (lz_parse_msg o t p) (parse_msg o t ls).
  Proof.
    intros S. unfold lz_parse_msg, parse_msg. apply sagree_bind; [apply fetch_next_sagree, S|]. clear p ls S. intros l p1 ls1 S1 T1.
    destruct l as [[|n k s|n q tag s|n q s]|]; try (apply sagree_ret; assumption).
    destruct (_ && _); [|apply sagree_ret; assumption].
    destruct (lz_next_sim it0 L HL p1 _ S1) as (p2 & E2 & S2 & _). rewrite E2. unfold next. fold (peek ls1).
    destruct (peek ls1) as [[[|n' k' s'|n' q' tag' s'|n' q' s']|e]|]; try (apply sagree_panic; assumption).
    split; [apply append_conts_agree; [exact HL|exact S2|lia]|]. intros a. apply append_conts_settled, S2.
  Qed.
  Lemma expected_sagree z p ls : sim p ls -> sagree (lz_expected z p) (expected z ls).
  Proof.
    intros S. unfold lz_expected, expected. destruct (lz_peek_sim it0 L HL p ls S) as (p1 & E1 & S1 & _). rewrite E1. apply lz_peek_settled in E1.
    destruct (lz_next_sim it0 L HL p1 ls S1) as (p2 & E2 & S2 & _). unfold next. fold (peek ls).
    destruct (peek ls) as [[[|n k s|n q tag s|n q s]|e]|]; try (apply sagree_ret; [assumption|left; assumption]); try (apply sagree_err; assumption).
    rewrite E2. apply sagree_err; assumption.
  Qed.
  Lemma parse_values_sagree o k : forall i vs p ls, sim p ls -> settled p ls -> sagree (lz_parse_values o k i vs p) (parse_values o k i vs ls).
  Proof.
    induction k as [|k IH]; intros i vs p ls S T; cbn [lz_parse_values parse_values]; [apply sagree_ret; assumption|].
    apply sagree_bind; [apply parse_msg_sagree, S|]. intros v p' ls' S' T'. apply IH; assumption.
  Qed.
  Lemma new_message_sagree forms o id pl p ls : sim p ls -> settled p ls -> sagree (lz_new_message forms o id pl p) (new_message forms o id pl ls).
  Proof.
    intros S T. unfold lz_new_message, new_message. destruct id as [id|]; [|apply sagree_ret; assumption]. destruct pl as [pl|].
    - apply sagree_bind; [apply parse_values_sagree; assumption|]. intros vs p' ls' S' T'. destruct (is_empty vs); [|apply sagree_ret; assumption].
      apply sagree_bind; [apply expected_sagree, S'|]. intros; apply sagree_ret; assumption.
    - apply sagree_bind; [apply parse_msg_sagree, S|]. intros [t|] p' ls' S' T'; [apply sagree_ret; assumption|].
      apply sagree_bind; [apply expected_sagree, S'|]. intros; apply sagree_ret; assumption.
  Qed.
  Lemma parse_message_fields_sagree forms first u p ls : sim p ls ->
    sagree (lz_parse_message_fields forms first u p) (parse_message_fields forms first u ls).
  Proof.
    intros S. unfold lz_parse_message_fields, parse_message_fields.
    apply sagree_bind; [apply parse_msg_sagree, S|]. clear p ls S. intros pc p ls S T.
    apply sagree_bind; [apply parse_msg_sagree, S|]. clear p ls S T. intros pi p ls S T.
    apply sagree_bind; [destruct pi; [apply parse_msg_sagree, S|apply sagree_ret; assumption]|]. clear p ls S T. intros pp p ls S T.
    apply sagree_bind; [apply parse_msg_sagree, S|]. clear p ls S T. intros c p ls S T.
    apply sagree_bind; [apply parse_msg_sagree, S|]. clear p ls S T. intros i p ls S T.
    destruct (negb first && _).
    - apply sagree_bind; [apply expected_sagree, S|]. intros; apply sagree_ret; assumption.
    - apply sagree_bind; [apply parse_msg_sagree, S|]. clear p ls S T. intros pl p ls S T.
      apply sagree_bind; [apply new_message_sagree; assumption|]. intros [m|] p' ls' S' T'; apply sagree_ret; assumption.
  Qed.
  Definition rsettled (l : lreader) (r : reader) (u : option uitem) : Prop := forall v, u = Some (UOk v) -> settled (lr_lines l) (rd_lines r).
  Lemma read_unit_settled first l r u : rsim l r -> fst (lz_read_unit first l) = Ok (Some u) ->
    settled (lr_lines (snd (lz_read_unit first l))) (rd_lines (snd (read_unit first r))).
  Proof.
    intros R. unfold lz_read_unit, read_unit.
    destruct (parse_comments_agree it0 L HL (S (pk_size (lr_lines l))) unit_default _ _ (rsim_sim _ _ _ _ R)) as [E1 S1]; [lia|].
    destruct (lz_parse_comments _ unit_default (lr_lines l)) as [o p1], (parse_comments unit_default (rd_lines r)) as [o' ls1].
    cbn [fst snd] in E1, S1. subst o'. pose proof (rsim_lines it0 L _ _ _ _ R S1) as R1. destruct o as [v|e|]; try discriminate.
    destruct (read_line_agree it0 L HL _ _ R1) as [E2 R2]. clear R S1 R1.
    destruct (lz_read_line _) as [o l2], (read_line _) as [o' r2]. cbn [fst snd] in E2, R2. subst o'.
    destruct o as [[[line obs]|]|e|]; try discriminate. rewrite (rsim_forms _ _ _ _ R2).
    destruct (parse_message_fields_sagree (rd_plural_forms r2) first (set_obsolete v obs) _ _ (rsim_sim _ _ _ _ R2)) as [[E3 S3] T3].
    destruct (lz_parse_message_fields _ _ _ (lr_lines l2)) as [o p3], (parse_message_fields _ _ _ (rd_lines r2)) as [o' ls3].
    cbn [fst snd] in E3, S3, T3. subst o'. destruct o as [[w|]|e|]; try discriminate. specialize (T3 _ eq_refl).
    destruct (negb first && _); try discriminate. intros _. exact T3.
  Qed.
  Lemma next_unit_settled first l r v : rsim l r -> fst (lz_next_unit first l) = Val (Some (UOk v)) ->
    settled (lr_lines (snd (lz_next_unit first l))) (rd_lines (snd (next_unit first r))).
  Proof.
    intros R. unfold lz_next_unit, next_unit. pose proof (fun u => read_unit_settled first l r u R) as T. destruct (read_unit_agree it0 L HL first l r R) as [E R1].
    destruct (lz_read_unit first l) as [o l1], (read_unit first r) as [o' r1]. cbn [fst snd] in *. subst o'.
    destruct o as [[u|]|e|]; try discriminate. intros _. exact (T _ eq_refl).
  Qed.
  (** The state between calls. *)
  Definition rstat (l : lreader) (r : reader) : Prop := rsim l r /\ forall v, lr_next_unit l = Some (UOk v) -> settled (lr_lines l) (rd_lines r).
  Lemma po_next_stat l r : rstat l r -> rstat (snd (lz_po_next l)) (snd (po_next r)).
  Proof.
    intros [R T]. split; [exact (proj2 (po_next_agree it0 L HL l r R))|]. intros v. revert T. unfold lz_po_next, po_next. rewrite (rsim_unit _ _ _ _ R).
    destruct (rd_next_unit r) as [[u|e]|] eqn:EU; cbn [snd lr_with_next_unit lr_next_unit lr_lines]; try discriminate.
    - intros _. destruct (next_unit_agree it0 L HL false l r R) as [E R1]. pose proof (fun w => next_unit_settled false l r w R) as T.
      pose proof (next_unit_no_panic false r) as NP. destruct (lz_next_unit false l) as [o l1], (next_unit false r) as [o' r1].
      cbn [fst snd] in *. subst o'. destruct o as [nu|]; cbn [snd lr_with_next_unit lr_next_unit lr_lines].
      + intros ->. exact (T _ eq_refl).
      + contradiction.
    - rewrite (rsim_unit _ _ _ _ R), EU. discriminate.
  Qed.
  Lemma calls_stat k : forall l r, rstat l r -> rstat (snd (lz_calls k l)) (snd (calls k r)).
  Proof.
    induction k as [|k IH]; intros l r R; cbn [lz_calls calls]; [exact R|].
    pose proof (po_next_stat l r R) as R1. destruct (lz_po_next l) as [x l1], (po_next r) as [x' r1]. cbn [fst snd] in R1.
    pose proof (IH _ _ R1) as R2. destruct (lz_calls k l1) as [xs l2], (calls k r1) as [xs' r2]. exact R2.
  Qed.
End Settled.
Theorem parse_stat lib pf evs L : (forall k, nth k L None = poll k (li_new evs)) -> ~ In None L ->
  forall l r, lz_parse lib pf evs = Ok l -> reader_new lib pf L = Ok r -> rstat (li_new evs) L l r.
Proof.
  unfold lz_parse, reader_new. set (it0 := li_new evs). intros HL HS.
  set (l0 := LReader _ _ _ _ _ _ _). set (r0 := Reader _ _ _ _ _ _ _).
  assert (rsim it0 L l0 r0) as R0.
  { split; [reflexivity|]. exists 0. split; [reflexivity|]. unfold at_line. reflexivity. }
  destruct (next_unit_agree it0 L HL true l0 r0 R0) as [E R1]. pose proof (fun v => next_unit_settled it0 L HL HS true l0 r0 v R0) as T1.
  destruct (lz_next_unit true l0) as [o l1], (next_unit true r0) as [o' r1]. cbn [fst snd] in E, R1, T1. subst o'.
  destruct o as [nu|]; [|discriminate].
  pose proof (rsim_next_unit it0 L l1 r1 nu R1) as R2.
  assert (rstat it0 L (lr_with_next_unit l1 nu) (with_next_unit r1 nu)) as R2'.
  { split; [exact R2|]. cbn [lr_with_next_unit lr_next_unit lr_lines with_next_unit rd_lines]. intros v ->. exact (T1 _ eq_refl). }
  destruct nu as [[u|e]|]; [|discriminate|intros l r H H'; injection H as <-; injection H' as <-; exact R2']. cbv zeta.
  destruct (msg_is_empty (u_message u)); [|intros l r H H'; injection H as <-; injection H' as <-; exact R2'].
  destruct (header_agree it0 L lib pf _ _ R2) as [E3 R3].
  destruct (lz_parse_po_header _ _ _) as [o l3], (parse_po_header _ _ _) as [o' r3]. cbn [fst snd] in E3, R3. subst o'.
  destruct o as [z|e|]; try discriminate.
  destruct (next_unit_agree it0 L HL false l3 r3 R3) as [E4 R4]. pose proof (fun v => next_unit_settled it0 L HL HS false l3 r3 v R3) as T4.
  destruct (lz_next_unit false l3) as [o l4], (next_unit false r3) as [o' r4]. cbn [fst snd] in E4, R4, T4. subst o'.
  destruct o as [nu|]; [|discriminate]. intros l r H H'. injection H as <-. injection H' as <-. split; [apply rsim_next_unit, R4|].
  cbn [lr_with_next_unit lr_next_unit lr_lines with_next_unit rd_lines]. intros v ->. exact (T4 _ eq_refl).
Qed.

(** * The place of the list reader *)
Inductive reads_to (forms : option plural_forms) : lines -> list unit_ -> lines -> Prop :=
| rt_nil ls : reads_to forms ls [] ls
| rt_cons ls u ls1 us ls2 : runit forms false ls = (Ok (Some u), ls1) -> reads_to forms ls1 us ls2 -> reads_to forms ls (u :: us) ls2.
Lemma calls_place forms us : forall ls ls' r u0, reads_to forms ls us ls' -> rd_lines r = ls -> rd_plural_forms r = forms -> rd_next_unit r = Some (UOk u0) ->
  exists u, rd_next_unit (snd (calls (length us) r)) = Some (UOk u) /\ rd_lines (snd (calls (length us) r)) = ls'.
Proof.
  induction us as [|v us IH]; intros ls ls' r u0 H EL EF EU; inversion H; subst; cbn [length calls]; [eauto|].
  unfold po_next. rewrite EU, next_unit_eq, H3. cbn [fst snd to_item with_lines rd_next_unit].
  set (r1 := with_next_unit _ _).
  destruct (IH ls1 ls' r1 v H5 eq_refl eq_refl eq_refl) as (u & E1 & E2). destruct (calls (length us) r1) as [xs r2]. cbn [snd] in *. eauto.
Qed.
Lemma reads_to_entries forms bls us b u r tl : Forall2 (unit_entry forms) bls us -> Forall written (concat bls ++ b ++ r) ->
  unit_entry forms b u -> ends_at forms b r tl ->
  reads_to forms (listing (concat bls ++ b ++ r) tl) (us ++ [u]) (listing r tl).
Proof.
  intros F W U Ea. induction F as [|b0 u0 bls us U0 F IH]; cbn [concat app] in *.
  - apply Forall_app in W as [_ W]. eapply rt_cons; [apply runit_entry; [exact U|exact (ends_boundary _ _ _ _ W Ea)]|apply rt_nil].
  - rewrite <- app_assoc in *. apply Forall_app in W as [_ W]. eapply rt_cons; [|exact (IH W)].
    apply runit_entry; [exact U0|]. apply (ends_boundary _ _ _ _ W). eapply next_ends; [apply U0|exact F|apply U].
Qed.
Lemma parse_place_plain lib pf ls u0 ls1 : runit None true ls = (Ok (Some u0), ls1) -> msg_is_empty (u_message u0) = false ->
  exists r, reader_new lib pf ls = Ok r /\ rd_lines r = ls1 /\ rd_plural_forms r = None /\ rd_next_unit r = Some (UOk u0).
Proof.
  intros E M. unfold reader_new. rewrite next_unit_eq. cbn [rd_plural_forms rd_lines]. rewrite E. cbn [fst snd to_item]. rewrite M. eexists. split; [reflexivity|auto].
Qed.
Lemma parse_place_header lib pf ls v ls1 forms u0 ls2 : runit None true ls = (Ok (Some v), ls1) -> msg_is_empty (u_message v) = true ->
  header_forms pf (header_props v) = Ok forms -> runit forms false ls1 = (Ok (Some u0), ls2) ->
  exists r, reader_new lib pf ls = Ok r /\ rd_lines r = ls2 /\ rd_plural_forms r = forms /\ rd_next_unit r = Some (UOk u0).
Proof.
  intros E M HF E2. unfold reader_new. rewrite next_unit_eq. cbn [rd_plural_forms rd_lines]. rewrite E. cbn [fst snd to_item]. rewrite M. cbv zeta.
  unfold parse_po_header. cbn [rd_next_unit with_next_unit with_lines rd_header_notes rd_header_comments rd_header_properties rd_target_language rd_plural_forms rd_lines app].
  fold (header_props v). unfold header_forms in HF.
  destruct (sm_get _ _) as [d|].
  2: { injection HF as <-. rewrite next_unit_eq. cbn [rd_plural_forms rd_lines]. rewrite E2. cbn [fst snd to_item]. eexists. split; [reflexivity|auto]. }
  destruct (is_empty d).
  { injection HF as <-. rewrite next_unit_eq. cbn [rd_plural_forms rd_lines]. rewrite E2. cbn [fst snd to_item]. eexists. split; [reflexivity|auto]. }
  destruct (plural_forms_parse pf d) as [f|e|]; try discriminate. injection HF as <-.
  rewrite next_unit_eq. cbn [rd_plural_forms rd_lines]. rewrite E2. cbn [fst snd to_item]. eexists. split; [reflexivity|auto].
Qed.
Lemma calls_pending k : forall r l, pending r l -> k <= length l -> fst (calls k r) = map (fun x => Val (Some x)) (firstn k l).
Proof.
  induction k as [|k IH]; intros r l P H; [reflexivity|]. apply po_next_pending in P. destruct l as [|x l]; [cbn in H; lia|].
  destruct P as (r' & E & P & _). cbn [calls firstn map]. rewrite E. cbn [length] in H. specialize (IH r' l P ltac:(lia)).
  destruct (calls k r') as [xs r'']. cbn [fst] in *. congruence.
Qed.
Theorem list_place lib pf pl tl c k r : Forall written pl -> unit_ends lib pf pl tl c k r ->
  exists rd u, reader_new lib pf (listing pl tl) = Ok rd /\ rd_lines (snd (calls k rd)) = listing r tl /\ rd_next_unit (snd (calls k rd)) = Some (UOk u).
Proof.
  intros W [h bls b forms us u items -> Pa F Lk _ U Ea].
  assert (forall u0 us' ls1 rd, us ++ [u] = u0 :: us' -> reads_to forms ls1 us' (listing r tl) -> rd_lines rd = ls1 ->
    rd_plural_forms rd = forms -> rd_next_unit rd = Some (UOk u0) ->
    exists w, rd_lines (snd (calls k rd)) = listing r tl /\ rd_next_unit (snd (calls k rd)) = Some (UOk w)) as X.
  { intros u0 us' ls1 rd E R El Ef Eu. destruct (calls_place forms us' _ _ rd u0 R El Ef Eu) as (w & E1 & E2).
    assert (length us' = k) as <-. { apply (f_equal (@length _)) in E. rewrite app_length in E. cbn in E. lia. } eauto. }
  inversion Pa as [r' tl' c' NH|h' r' tl' v ps forms' c' Fe Hd HF Hs]; subst.
  - cbn [app] in *. inversion F as [|b0 u0 bls0 us0 U0 F0]; subst; cbn [concat app length] in *.
    + pose proof W as W'. apply Forall_app in W' as [_ W']. destruct U as [En Sc].
      destruct (parse_place_plain lib pf _ _ _ (runit_first_entry None b u r tl En (ends_boundary _ _ _ _ W' Ea))) as (rd & E & E1 & E2 & E3); [apply has_source_iff, Sc|].
      destruct (X u [] _ rd eq_refl (rt_nil _ _) E1 E2 E3) as (w & A & B). eauto.
    + rewrite <- app_assoc in *. pose proof W as W'. apply Forall_app in W' as [_ W']. destruct U0 as [En Sc].
      assert (ends_at None b0 (concat bls0 ++ b ++ r) tl) as Ea0 by (eapply next_ends; [exact En|exact F0|apply U]).
      destruct (parse_place_plain lib pf _ _ _ (runit_first_entry None b0 u0 _ tl En (ends_boundary _ _ _ _ W' Ea0))) as (rd & E & E1 & E2 & E3); [apply has_source_iff, Sc|].
      destruct (X u0 (us0 ++ [u]) _ rd eq_refl (reads_to_entries _ _ _ _ _ _ _ F0 W' U Ea) E1 E2 E3) as (w & A & B). eauto.
  - destruct (first_read h v _ tl W Fe) as (v' & E & _ & _ & EM). apply Forall_app in W as [_ W].
    apply header_intro in Hd as [Ms HP].
    assert (header_forms pf (header_props v') = Ok forms) as HF'.
    { apply (header_forms_iff pf v' ps); [|exact HF]. rewrite EM. exact HP. }
    pose proof (reads_to_entries _ _ _ _ _ _ _ F W U Ea) as R.
    inversion R as [ls EN|ls u0 ls1 us' ls2 E0 R']; [destruct us; discriminate|]. subst.
    destruct (parse_place_header lib pf _ v' _ forms u0 ls1 E) as (rd & Er & E1 & E2 & E3); [rewrite EM; apply sourceless_iff, Ms|exact HF'|exact E0|].
    destruct (X u0 us' ls1 rd (eq_sym H0) R' E1 E2 E3) as (w & A & B). eauto.
Qed.
Lemma li_next_line it l it' : li_next it = (Some (ILine l), it') -> li_n it' = (po_line_no l + 1)%N.
Proof.
  unfold li_next. generalize (S (li_size it)) (li_n it) (li_inner it). clear it. intros f. induction f as [|f IH]; intros n inner; cbn [li_loop].
  - destruct inner; discriminate.
  - destruct inner as [s|]; [|discriminate]. destruct (lines_next s) as [[[line|e]|] s']; try discriminate.
    destruct (parse_line line n) as [p|] eqn:P; [|discriminate]. destruct p; [apply IH| | |]; intros H; injection H as <- <-; apply parse_line_no in P; try discriminate; rewrite <- P; reflexivity.
Qed.
Lemma listing_solid pl tl : ~ In None (listing pl tl).
Proof.
  unfold listing. intros H. apply in_app_or in H as [H|H].
  - apply in_map_iff in H as (l & E & _). discriminate.
  - destruct tl; cbn in H; [|contradiction]. destruct H as [H|[]]; discriminate.
Qed.
Theorem read_ahead lib pf evs ls e pl tl c k l r : file evs ls e pl tl -> read_catalogue lib pf evs = Ok c -> unit_ends lib pf pl tl c k (l :: r) ->
  exists rd, lz_parse lib pf evs = Ok rd /\ fst (lz_calls k rd) = map (fun x => Val (Some x)) (firstn k (c_items c))
    /\ lines_read (snd (lz_calls k rd)) = po_line_no l
    /\ pk_iter (lr_lines (snd (lz_calls k rd))) = after (length pl - length r) (li_new evs).
Proof.
  intros (bs & f & D & C & P) RC U. destruct (file_catalogue lib pf evs bs f ls e pl tl (Ok c) D C P) as [EC W]. apply EC in RC. clear EC.
  assert (forall j, nth j (listing pl tl) None = poll j (li_new evs)) as HL.
  { intros j. rewrite <- (responses_exact (li_new evs) j). rewrite <- (parsed_items _ _ _ _ _ P). symmetry. apply (responses_contents evs bs f ls e D C). }
  destruct (list_place lib pf pl tl c k (l :: r) W U) as (rd & u & E & EL & EU).
  pose proof (parse_agree_on lib pf evs _ HL) as A. rewrite E in A. inversion A as [lr r' R E1 E2|e' E1 E2|E1 E2]; subst. exists lr. split; [reflexivity|].
  symmetry in E1. pose proof (parse_stat lib pf evs _ HL (listing_solid pl tl) lr rd E1 E) as St.
  pose proof (reader_new_cases lib pf (listing pl tl)) as Cs. rewrite E in Cs. destruct Cs as (items & Pn & _ & Co).
  pose proof (catalogue_of_det _ _ _ _ _ RC Co) as EQ. injection EQ as ->. cbn [head_view c_items].
  split.
  { rewrite (proj1 (calls_agree _ _ HL k lr rd R)). apply calls_pending; [exact Pn|].
    destruct U as [h bls b forms us v its _ _ _ <- EI _ _]. cbn [head_view c_items] in EI. rewrite EI, app_length, map_length. lia. }
  destruct (calls_stat _ _ HL (listing_solid pl tl) k lr rd St) as [R' T].
  set (l' := snd (lz_calls k lr)) in *. set (r' := snd (calls k rd)) in *.
  rewrite <- (rsim_unit _ _ _ _ R') in EU. specialize (T _ EU). destruct (rsim_sim _ _ _ _ R') as (j & Ej & At).
  rewrite EL in Ej, T. destruct T as [T|[T _]]; [|discriminate].
  assert (Datatypes.S j = length pl - length r) as Lj.
  { apply (f_equal (@length _)) in Ej. rewrite skipn_length in Ej. unfold listing in Ej. rewrite !app_length, !map_length in Ej. cbn [length] in Ej. lia. }
  unfold at_line in At. destruct (pk_peeked (lr_lines l')) as [x|]; [|contradiction]. destruct At as [_ At]. rewrite <- Lj. split; [|exact At].
  unfold lines_read. rewrite At, after_S. pose proof (poll_after j (li_new evs)) as Q. rewrite <- HL, <- hd_skipn, <- Ej in Q. cbn [listing map app hd] in Q.
  destruct (li_next (after j (li_new evs))) as [y it'] eqn:Z. cbn [fst snd] in *. subst y. apply li_next_line in Z. rewrite Z. lia.
Qed.

(** ** At the end of the file *)
Definition holding (it : line_iter) (ls : list str) (e : option ioerr) : Prop := exists s bs f, li_inner it = Some s /\ contents bs f ls e /\ holds s bs f.
Lemma li_next_holding ls e : forall it, holding it ls e ->
  match li_next it with
  | (Some (ILine l), it') => exists ls', holding it' ls' e /\ (li_n it' + N.of_nat (length ls') = li_n it + N.of_nat (length ls))%N
  | (Some (IFail _), _) => True
  | (None, it') => e = None /\ holding it' [] None /\ li_n it' = (li_n it + N.of_nat (length ls))%N
  end.
Proof.
  induction ls as [|l ls IH]; intros it (s & bs & f & I & C & Hs); pose proof (lines_next_spec s bs f _ _ C Hs) as R; rewrite li_next_step, I.
  - destruct e as [e|].
    + destruct R as (s' & ->). exact Logic.I.
    + destruct R as (s' & -> & Hs'). split; [reflexivity|]. split; [|cbn; lia]. exists s', [], None. split; [reflexivity|]. split; [constructor|exact Hs'].
  - destruct R as (s' & bs' & -> & C' & Hs').
    assert (holding (LineIter (li_n it + 1) (Some s')) ls e) as Hd by (exists s', bs', f; auto). 
    destruct (parse_line l (li_n it)) as [[| | |]|].
    + specialize (IH _ Hd). destruct (li_next _) as [[[]|] it']; cbn [li_n] in *.
      * destruct IH as (ls' & H1 & H2). exists ls'. split; [exact H1|]. cbn [length]. lia.
      * exact Logic.I.
      * destruct IH as (H1 & H2 & H3). split; [exact H1|]. split; [exact H2|]. cbn [length]. lia.
    + exists ls. split; [exact Hd|]. cbn [li_n length]. lia.
    + exists ls. split; [exact Hd|]. cbn [li_n length]. lia.
    + exists ls. split; [exact Hd|]. cbn [li_n length]. lia.
    + exact Logic.I.
Qed.
Lemma after_end j ls e : forall it, holding it ls e -> (forall i, i <= j -> forall x, poll i it <> Some (IFail x)) -> poll j it = None ->
  li_n (after (S j) it) = (li_n it + N.of_nat (length ls))%N.
Proof.
  revert ls e. induction j as [|j IH]; intros ls e it Hd NF E.
  - pose proof (li_next_holding ls e it Hd) as H. cbn [poll after] in *. destruct (li_next it) as [[x|] it']; [discriminate|]. apply H.
  - pose proof (li_next_holding ls e it Hd) as H. pose proof (NF 0 ltac:(lia)) as NF0. cbn [poll after] in *. destruct (li_next it) as [[[l|x]|] it'] eqn:Z; cbn [fst snd] in *.
    + destruct H as (ls' & Hd' & <-). apply (IH ls' e it' Hd'); [|exact E].
      intros i Hi x Q. apply (NF (Datatypes.S i) ltac:(lia) x). cbn [poll]. rewrite Z. exact Q.
    + exfalso. exact (NF0 x eq_refl).
    + destruct H as (_ & Hd' & Q). pose proof (IH [] None it' Hd') as K. cbn [after] in K. rewrite K; [cbn [length]; lia| |exact E].
      intros i Hi x Q'. apply (NF (Datatypes.S i) ltac:(lia) x). cbn [poll]. rewrite Z. exact Q'.
Qed.
Theorem read_to_end lib pf evs ls e pl tl c k : file evs ls e pl tl -> read_catalogue lib pf evs = Ok c -> unit_ends lib pf pl tl c k [] ->
  exists rd, lz_parse lib pf evs = Ok rd /\ fst (lz_calls k rd) = map (fun x => Val (Some x)) (firstn k (c_items c))
    /\ lines_read (snd (lz_calls k rd)) = N.of_nat (length ls).
Proof.
  intros (bs & f & D & C & P) RC U. destruct (file_catalogue lib pf evs bs f ls e pl tl (Ok c) D C P) as [EC W]. apply EC in RC. clear EC.
  assert (forall j, nth j (listing pl tl) None = poll j (li_new evs)) as HL.
  { intros j. rewrite <- (responses_exact (li_new evs) j). rewrite <- (parsed_items _ _ _ _ _ P). symmetry. apply (responses_contents evs bs f ls e D C). }
  destruct (list_place lib pf pl tl c k [] W U) as (rd & u & E & EL & EU).
  pose proof (parse_agree_on lib pf evs _ HL) as A. rewrite E in A. inversion A as [lr r' R E1 E2|e' E1 E2|E1 E2]; subst. exists lr. split; [reflexivity|].
  symmetry in E1. pose proof (parse_stat lib pf evs _ HL (listing_solid pl tl) lr rd E1 E) as St.
  pose proof (reader_new_cases lib pf (listing pl tl)) as Cs. rewrite E in Cs. destruct Cs as (items & Pn & _ & Co).
  pose proof (catalogue_of_det _ _ _ _ _ RC Co) as EQ. injection EQ as ->. cbn [head_view c_items].
  split.
  { rewrite (proj1 (calls_agree _ _ HL k lr rd R)). apply calls_pending; [exact Pn|].
    destruct U as [h bls b forms us v its _ _ _ <- EI _ _]. cbn [head_view c_items] in EI. rewrite EI, app_length, map_length. lia. }
  destruct (calls_stat _ _ HL (listing_solid pl tl) k lr rd St) as [R' T].
  assert (tl = None) as -> by (destruct U as [? ? ? ? ? ? ? _ _ _ _ _ _ Ea]; exact Ea).
  set (l' := snd (lz_calls k lr)) in *. set (r' := snd (calls k rd)) in *.
  rewrite <- (rsim_unit _ _ _ _ R') in EU. specialize (T _ EU). destruct (rsim_sim _ _ _ _ R') as (j & Ej & At).
  rewrite EL in Ej, T. cbn [listing map app ending] in Ej.
  assert (exists i, length (listing pl None) <= i /\ pk_iter (lr_lines l') = after (Datatypes.S i) (li_new evs)) as (i & Hi & Ei).
  { destruct T as [T|[_ T]]; [|exact T]. unfold at_line in At. destruct (pk_peeked (lr_lines l')) as [x|]; [|contradiction]. exists j. split; [|exact (proj2 At)].
    apply (f_equal (@length _)) in Ej. rewrite skipn_length in Ej. cbn [length] in Ej. lia. }
  unfold lines_read. rewrite Ei, (after_end i ls e).
  - cbn [li_new li_n]. lia.
  - exists (Source [] evs), bs, f. split; [reflexivity|]. split; [exact C|]. exists bs. auto.
  - intros a _ x Q. rewrite <- HL in Q. destruct (nth_in_or_default a (listing pl None) None) as [Q'|Q']; rewrite Q in Q'; [|discriminate].
    unfold listing in Q'. cbn [ending] in Q'. rewrite app_nil_r in Q'. apply in_map_iff in Q' as (y & Q' & _). discriminate.
  - rewrite <- HL. apply nth_overflow, Hi.
Qed.
(** Every unit has an end. *)
Theorem unit_has_end lib pf evs ls e pl tl c k u : file evs ls e pl tl -> read_catalogue lib pf evs = Ok c -> nth_error (c_items c) k = Some (UOk u) ->
  exists r, unit_ends lib pf pl tl c k r.
Proof.
  intros F R N. destruct (unit_placed _ _ _ _ _ _ _ _ _ _ F R N) as (forms & b & [h bls r us items E Pa Fa L I U Ea]). exists r. econstructor; eassumption.
Qed.

(** * An example *)
Definition three_lines : list string := ["msgid ""a"""; "msgstr ""b"""; ""; "msgid ""c"""; "msgstr ""d"""; ""; "msgid ""e"""; "msgstr ""f"""]%string.
Definition three_parsed : list po_line := simple_block 1 2 (lit "a") (lit "b") ++ simple_block 4 5 (lit "c") (lit "d") ++ simple_block 7 8 (lit "e") (lit "f").
Definition three_catalogue : catalogue :=
  Catalogue [] [] [] (lang_invariant demo_lib) [UOk (simple_unit (lit "a") (lit "b")); UOk (simple_unit (lit "c") (lit "d")); UOk (simple_unit (lit "e") (lit "f"))].
(** one read per line *)
Definition by_lines (ls : list string) : list rd_event := map (fun s => RdData (utf8 (lit s ++ [10%N]))) ls.
Lemma by_lines_delivers ls : delivers (by_lines ls) (utf8 (flat_map (fun s => lit s ++ [10%N]) ls)) None.
Proof.
  induction ls as [|s ls IH]; [constructor|]. cbn [by_lines map flat_map]. rewrite (utf8_app (lit s ++ [10%N])). apply dl_data; [|exact IH].
  rewrite utf8_app. intros Q. apply app_eq_nil in Q as [_ Q]. discriminate.
Qed.
Lemma by_lines_file ls pl tl : ls <> [] -> forallb (fun s => line_okb (lit s)) ls = true -> parse_lines 1 (map lit ls) = (pl, tl) -> file (by_lines ls) (map lit ls) None pl tl.
Proof.
  intros NE H P. destruct (lf_file ls pl tl NE H P) as (bs & f & D & C & Pd). exists bs, f. split; [|auto].
  assert (utf8 (flat_map (fun s => lit s ++ [10%N]) ls) <> []) as NN.
  { destruct ls as [|s ls]; [contradiction|]. cbn [flat_map]. rewrite <- app_assoc, !utf8_app. intros Q. apply app_eq_nil in Q as [_ Q]. discriminate. }
  unfold lf_stream in D. pose proof (by_lines_delivers ls) as B. remember (utf8 (flat_map (fun s => lit s ++ [10%N]) ls)) as t eqn:Et. clear Et.
  inversion D as [| | |d evs bs' f' N D'|evs D' Q]; subst.
  - inversion D'; subst. rewrite app_nil_r. exact B.
  - contradiction.
Qed.
Lemma three_file : file (by_lines three_lines) (map lit three_lines) None three_parsed None.
Proof. apply by_lines_file; [discriminate|reflexivity|vm_compute; reflexivity]. Qed.
Lemma simple_unit_entry forms n m s t : s <> [] -> unit_entry forms (simple_block n m s t) (simple_unit s t).
Proof. intros N. split; [apply simple_entry|]. intros x E. injection E as E _. contradiction. Qed.
Lemma three_ends : unit_ends demo_lib demo_pf three_parsed None three_catalogue 0 (simple_block 4 5 (lit "c") (lit "d") ++ simple_block 7 8 (lit "e") (lit "f")).
Proof.
  eapply (ue_intro _ _ _ _ _ _ _ [] [] (simple_block 1 2 (lit "a") (lit "b")) None []).
  - reflexivity.
  - apply pa_none. repeat split.
  - constructor.
  - reflexivity.
  - reflexivity.
  - apply simple_unit_entry. discriminate.
  - eapply starter_ends; [apply simple_entry|]. right. do 4 eexists. split; [reflexivity|]. cbn; auto.
Qed.
Theorem prompt_refuted : exists evs ls pl k l r, file evs ls None pl None /\ forall lib pf, exists c rd, read_catalogue lib pf evs = Ok c /\ unit_ends lib pf pl None c k (l :: r)
  /\ lz_parse lib pf evs = Ok rd /\ (po_line_no l < lines_read (snd (lz_calls (S k) rd)))%N.
Proof.
  exists (by_lines three_lines), (map lit three_lines), three_parsed, 0, (PMessage 4 [] (lit "msgid") (lit "c")), (PMessage 5 [] (lit "msgstr") (lit "d") :: simple_block 7 8 (lit "e") (lit "f")).
  split; [exact three_file|]. intros lib pf. do 2 eexists. split; [vm_compute; reflexivity|]. split; [|split; [vm_compute; reflexivity|vm_compute; reflexivity]].
  eapply (ue_intro _ _ _ _ _ _ _ [] [] (simple_block 1 2 (lit "a") (lit "b")) None []).
  - reflexivity.
  - apply pa_none. repeat split.
  - constructor.
  - reflexivity.
  - reflexivity.
  - apply simple_unit_entry. discriminate.
  - eapply starter_ends; [apply simple_entry|]. right. do 4 eexists. split; [reflexivity|]. cbn; auto.
Qed.
