(** What entries say about units. *)
From Coq Require Import String Arith NArith ZArith Bool List Lia Sorted.
From Verif Require Import ModelBase ModelUtf8 ModelLine ModelFormula ModelData ModelSource ModelReader
  SpecLine SpecFormula SpecSource SpecReader SpecBlock SpecHeader SpecFile BaseFacts LineFacts LineThms DecFacts SourceFacts IterFacts ReaderFacts ReadsFacts CatalogueFacts LocalFacts StreamFacts
  BlockFacts CommentFacts UnitFacts SoundFacts BlocksFacts FileFacts MapFacts HeaderFacts BlockThms.
Import ListNotations.
Local Open Scope N_scope.

(** * Units are entries *)
Lemma in_units u l : In (UOk u) l -> In u (units l).
Proof. intros I. apply in_flat_map. exists (UOk u). split; [exact I|left; reflexivity]. Qed.
Lemma concat_split {A} (b : list A) bls : In b bls -> exists a z, concat bls = a ++ b ++ z.
Proof. intros I. apply in_split in I as (x & y & ->). exists (concat x), (concat y). rewrite concat_app. reflexivity. Qed.
Lemma Forall2_in_r {A B} (R : A -> B -> Prop) la lb b : Forall2 R la lb -> In b lb -> exists a, In a la /\ R a b.
Proof. induction 1 as [|x y la lb H F IH]; intros I; [destruct I|]. destruct I as [->|I]; [exists x; split; [left; reflexivity|exact H]|]. destruct (IH I) as (a & Ia & Ra). exists a. split; [right; exact Ia|exact Ra]. Qed.
Lemma Forall2_in_l {A B} (R : A -> B -> Prop) la lb a : Forall2 R la lb -> In a la -> exists b, In b lb /\ R a b.
Proof. induction 1 as [|x y la lb H F IH]; intros I; [destruct I|]. destruct I as [->|I]; [exists y; split; [left; reflexivity|exact H]|]. destruct (IH I) as (b & Ib & Rb). exists b. split; [right; exact Ib|exact Rb]. Qed.
Theorem unit_block lib pf evs ls e pl tl c u : file evs ls e pl tl -> read_catalogue lib pf evs = Ok c -> In (UOk u) (c_items c) ->
  exists forms a b z, pl = a ++ b ++ z /\ unit_entry forms b u.
Proof.
  intros Fi R I. destruct (catalogue_blocks lib pf evs ls e pl tl c Fi R) as (h & forms & bls & rest & -> & _ & F).
  apply in_units in I. destruct (Forall2_in_r _ _ _ _ F I) as (b & Ib & U). destruct (concat_split b bls Ib) as (x & z & E).
  exists forms, (h ++ x), b, (z ++ rest). split; [|exact U]. rewrite E, <- !app_assoc. reflexivity.
Qed.
Lemma file_exists evs bs f : delivers evs bs f -> exists ls e pl tl, file evs ls e pl tl.
Proof.
  intros D. destruct (contents_total bs f) as (ls & e & C). destruct (parsed_total ls e (contents_one_line _ _ _ _ C) 1) as (pl & tl & P).
  exists ls, e, pl, tl. exists bs, f. auto.
Qed.
Theorem unit_is_entry lib pf evs bs f c u : delivers evs bs f -> read_catalogue lib pf evs = Ok c -> In (UOk u) (c_items c) -> exists forms b, unit_entry forms b u.
Proof.
  intros D R I. destruct (file_exists evs bs f D) as (ls & e & pl & tl & Fi). destruct (unit_block lib pf evs ls e pl tl c u Fi R I) as (forms & a & b & z & _ & U). eauto.
Qed.

(** * State and flags *)
Lemma distinct_in x F : In x (distinct F) <-> In x F.
Proof.
  induction F as [|y F IH]; cbn [distinct In]; [tauto|]. rewrite filter_In, IH. destruct (str_eqb_spec y x) as [->|D]; cbn [negb]; intuition congruence.
Qed.
Lemma distinct_nodup F : NoDup (distinct F).
Proof.
  induction F as [|y F IH]; cbn [distinct]; [constructor|]. constructor; [|apply NoDup_filter, IH].
  rewrite filter_In. destruct (str_eqb_spec y y) as [_|D]; [intros [_ ?]; discriminate|congruence].
Qed.
Lemma entry_state forms b u : entry forms b u -> state_of (u_flags u) (u_message u) (u_state u).
Proof.
  intros [cs F N L C obs ks pc pm c m st B K St]. cbn. destruct St as [I|t NI I NE|NI H]; [apply so_fuzzy|apply so_final with t|apply so_empty]; auto; rewrite distinct_in; assumption.
Qed.
Lemma state_of_cases F m st : state_of F m st ->
  (st = StNeedsWork <-> In (lit "fuzzy") F)
  /\ (st = StFinal <-> ~ In (lit "fuzzy") F /\ exists t, In t (translations m) /\ t <> [])
  /\ (st = StEmpty <-> ~ In (lit "fuzzy") F /\ forall t, In t (translations m) -> t = []).
Proof. intros [I|t NI I NE|NI H]; (split; [|split]); split; intros X; try discriminate X; try tauto; eauto; firstorder; subst; exfalso; auto. Qed.
Theorem unit_state lib pf evs bs f c u : delivers evs bs f -> read_catalogue lib pf evs = Ok c -> In (UOk u) (c_items c) ->
  (u_state u = StNeedsWork <-> In (lit "fuzzy") (u_flags u))
  /\ (u_state u = StFinal <-> ~ In (lit "fuzzy") (u_flags u) /\ exists t, In t (translations (u_message u)) /\ t <> [])
  /\ (u_state u = StEmpty <-> ~ In (lit "fuzzy") (u_flags u) /\ forall t, In t (translations (u_message u)) -> t = [])
  /\ (unit_is_translated u = true <-> u_state u = StFinal).
Proof.
  intros D R I. destruct (unit_is_entry _ _ _ _ _ _ _ D R I) as (forms & b & En & _). destruct (state_of_cases _ _ _ (entry_state _ _ _ En)) as (A & B & C).
  split; [exact A|]. split; [exact B|]. split; [exact C|]. unfold unit_is_translated. destruct (u_state u); intuition discriminate.
Qed.
Theorem unit_source lib pf evs bs f c u : delivers evs bs f -> read_catalogue lib pf evs = Ok c -> In (UOk u) (c_items c) -> forall text, u_message u <> MSimple [] text.
Proof. intros D R I. destruct (unit_is_entry _ _ _ _ _ _ _ D R I) as (forms & b & _ & S). exact S. Qed.

(** * Markers *)
Definition marked_by (obs : bool) (l : po_line) : Prop :=
  match l with PMessage _ p _ _ | PCont _ p _ => p = own obs \/ p = prev obs | _ => False end.
Lemma strings_marked f obs ls t : strings f ls t -> f = own obs \/ f = prev obs -> Forall (marked_by obs) ls.
Proof. induction 1; constructor; [assumption|apply IHstrings; assumption]. Qed.
Lemma field_marked_by f kw obs ls t : field f kw ls t -> f = own obs \/ f = prev obs -> Forall (marked_by obs) ls.
Proof. intros [n s l t' S] H. constructor; [exact H|exact (strings_marked _ _ _ _ S H)]. Qed.
Lemma opt_marked_by f kw obs ls t : opt_field f kw ls t -> f = own obs \/ f = prev obs -> Forall (marked_by obs) ls.
Proof. intros [|l t' S] H; [constructor|exact (field_marked_by _ _ _ _ _ S H)]. Qed.
Lemma values_marked obs count i ls vs : values (own obs) count i ls vs -> Forall (marked_by obs) ls.
Proof. induction 1 as [|i k kw ls s ls' vs _ _ _ Fi _ IH]; [constructor|]. apply Forall_app. split; [|exact IH]. apply (field_marked_by _ _ _ _ _ Fi). auto. Qed.
Lemma body_marked forms obs ls m : body forms obs ls m -> Forall (marked_by obs) ls.
Proof.
  intros [l1 id l2 t F1 F2|l1 id l2 t l3 vs F1 F2 V _]; repeat (apply Forall_app; split); eauto using field_marked_by, values_marked.
Qed.
Lemma previous_marked forms obs ls m : previous forms obs ls m -> Forall (marked_by obs) ls.
Proof. intros [|l id F|l1 id l2 t F1 F2]; [constructor|eauto using field_marked_by|]. apply Forall_app; split; eauto using field_marked_by. Qed.
Lemma keywords_marked_by forms obs ks pc pm c m : keywords forms obs ks pc pm c m -> Forall (marked_by obs) ks.
Proof.
  intros [l1 pc' l2 pm' l3 c' l4 m' F1 F2 F3 Bo]. apply Forall_app; split; [eauto using opt_marked_by|]. apply Forall_app; split; [eauto using previous_marked|].
  apply Forall_app; split; [eauto using opt_marked_by|eauto using body_marked].
Qed.
(** The parts of an entry. *)
Theorem entry_parts forms b u : entry forms b u -> exists cs ks F,
  b = cs ++ ks /\ ks <> [] /\ block_comments cs F (u_notes u) (u_locations u) (u_comments u) /\ u_flags u = distinct F
  /\ keywords forms (u_obsolete u) ks (u_prev_context u) (u_prev_message u) (u_context u) (u_message u)
  /\ Forall (marked_by (u_obsolete u)) ks.
Proof.
  intros [cs F N L C obs ks pc pm c m st B K St]. exists cs, ks, F. cbn. repeat split; auto.
  - pose proof (keywords_marked _ _ _ _ _ _ _ [] K) as (n & p & t & s & r & E & _). rewrite app_nil_r in E. rewrite E. discriminate.
  - exact (keywords_marked_by _ _ _ _ _ _ _ K).
Qed.

(** * Plural forms of an entry *)
Lemma kw_fields_tags f kw ls t l : field f kw ls t -> In l ls -> forall n p tag s, l = PMessage n p tag s -> tag = reported_tag f kw.
Proof.
  intros [n s l' t' S] I n' p tag x ->. destruct I as [[= _ _ <- _]|I]; [reflexivity|]. exfalso.
  clear -S I. induction S as [|q w l0 u S IH]; [destruct I|]. destruct I as [I|I]; [discriminate|exact (IH I)].
Qed.
(** The lines of an entry: those before the values, and the values. *)
Definition no_index (l : po_line) : Prop := forall n p tag s k, l = PMessage n p tag s -> ~ msgstr_kw k tag.
Lemma field_no_index f kw ls t : field f kw ls t -> In (reported_tag f kw) [lit "|msgctxt"; lit "|msgid"; lit "|msgid_plural"; lit "msgctxt"; lit "msgid"; lit "msgid_plural"; lit "msgstr"] -> Forall no_index ls.
Proof.
  intros F I. apply Forall_forall. intros l Il n p tag s k E (ds & _ & Et). pose proof (kw_fields_tags _ _ _ _ _ F Il _ _ _ _ E) as Tg.
  rewrite <- Tg in I. subst tag. cbn in I. intuition discriminate.
Qed.
Lemma comments_no_index cs F N L C : block_comments cs F N L C -> Forall no_index cs.
Proof. intros B. apply block_comments_comment in B. eapply Forall_impl; [|exact B]. intros l (n & k & s & ->) n' p tag x j E. discriminate. Qed.
Lemma opt_no_index f kw ls t : opt_field f kw ls t -> In (reported_tag f kw) [lit "|msgctxt"; lit "|msgid"; lit "|msgid_plural"; lit "msgctxt"; lit "msgid"; lit "msgid_plural"; lit "msgstr"] -> Forall no_index ls.
Proof. intros [|l t' F] I; [constructor|exact (field_no_index _ _ _ _ F I)]. Qed.
Lemma entry_values forms b u : entry forms b u ->
  exists p ls vs, b = p ++ ls /\ Forall no_index p /\ values (own (u_obsolete u)) (nforms forms) 0 ls vs /\
    match u_message u with MPlural m => vs = pl_values m | MSimple _ _ => vs = [] end.
Proof.
  intros [cs F N L C obs ks pc pm c m st B K St]. cbn [u_obsolete u_message]. destruct K as [l1 pc' l2 pm' l3 c' l4 m' F1 F2 F3 Bo].
  assert (Forall no_index (cs ++ l1 ++ l2 ++ l3)) as H.
  { apply Forall_app; split; [exact (comments_no_index _ _ _ _ _ B)|]. apply Forall_app; split; [eapply opt_no_index; [exact F1|rewrite prev_tag; cbn; auto]|].
    apply Forall_app; split; [|eapply opt_no_index; [exact F3|rewrite own_tag; cbn; auto 10]].
    destruct F2 as [|l id Fi|la id lb t Fa Fb]; [constructor|eapply field_no_index; [exact Fi|rewrite prev_tag; cbn; auto]|].
    apply Forall_app; split; [eapply field_no_index; [exact Fa|rewrite prev_tag; cbn; auto]|eapply field_no_index; [exact Fb|rewrite prev_tag; cbn; auto]]. }
  destruct Bo as [g1 id g2 t G1 G2|g1 id g2 t g3 vs G1 G2 V NE].
  - exists (cs ++ l1 ++ l2 ++ l3 ++ g1 ++ g2), [], []. rewrite app_nil_r. split; [reflexivity|]. split; [|split; [constructor|reflexivity]].
    replace (cs ++ l1 ++ l2 ++ l3 ++ g1 ++ g2) with ((cs ++ l1 ++ l2 ++ l3) ++ g1 ++ g2) by (rewrite <- !app_assoc; reflexivity).
    apply Forall_app; split; [exact H|]. apply Forall_app; split; [eapply field_no_index; [exact G1|rewrite own_tag; cbn; auto 10]|eapply field_no_index; [exact G2|rewrite own_tag; cbn; auto 10]].
  - exists (cs ++ l1 ++ l2 ++ l3 ++ g1 ++ g2), g3, vs. split; [rewrite <- !app_assoc; reflexivity|]. split; [|split; [exact V|reflexivity]].
    replace (cs ++ l1 ++ l2 ++ l3 ++ g1 ++ g2) with ((cs ++ l1 ++ l2 ++ l3) ++ g1 ++ g2) by (rewrite <- !app_assoc; reflexivity).
    apply Forall_app; split; [exact H|]. apply Forall_app; split; [eapply field_no_index; [exact G1|rewrite own_tag; cbn; auto 10]|eapply field_no_index; [exact G2|rewrite own_tag; cbn; auto 10]].
Qed.
Lemma msgstr_kw_inj i j kw : msgstr_kw i kw -> msgstr_kw j kw -> i = j.
Proof. rewrite !msgstr_kw_iff. intros -> E. apply msgstr_tag_inj, E. Qed.
(** Indices of the message lines. *)
Lemma values_lines obs count i ls vs : values (own obs) count i ls vs -> forall a n p t s c, ls = a ++ PMessage n p t s :: c ->
  exists k, msgstr_kw k t /\ i <= k /\ k < count /\
    forall n' p' t' s', In (PMessage n' p' t' s') c -> exists k', msgstr_kw k' t' /\ k < k'.
Proof.
  induction 1 as [i|i k kw ls x ls' vs Hi Hk Kw Fi V IH]; intros a n p t s c E.
  - destruct a; discriminate.
  - assert (forall n' p' t' s', In (PMessage n' p' t' s') ls' -> exists k', msgstr_kw k' t' /\ k < k') as After.
    { intros n' p' t' s' I. apply in_split in I as (a' & c' & ->). destruct (IH a' n' p' t' s' c' eq_refl) as (k' & K1 & K2 & _). exists k'. split; [exact K1|lia]. }
    destruct Fi as [m y conts t' S]. rewrite own_tag in E. destruct a as [|z a]; cbn [app] in E.
    + injection E as -> <- -> -> <-. exists k. repeat split; try assumption. intros n' p' t1 s' I. apply in_app_or in I as [I|I]; [|exact (After _ _ _ _ I)].
      exfalso. clear -S I. induction S as [|q w l u S IH]; [destruct I|]. destruct I as [I|I]; [discriminate|exact (IH I)].
    + injection E as <- E. apply app_eq_app in E as (d & [[Ea Ed]|[-> ->]]).
      * destruct d as [|w d].
        -- destruct (IH [] n p t s c (eq_sym Ed)) as (k' & K1 & K2 & K3 & K4). exists k'. repeat split; try assumption; lia.
        -- exfalso. injection Ed as <- _. assert (In (PMessage n p t s) conts) as I by (rewrite Ea; apply in_or_app; right; left; reflexivity).
           clear -S I. induction S as [|q w l u S IH]; [destruct I|]. destruct I as [I|I]; [discriminate|exact (IH I)].
      * destruct (IH d n p t s c eq_refl) as (k' & K1 & K2 & K3 & K4). exists k'. repeat split; try assumption; lia.
Qed.
Theorem entry_indices forms b u a n p t s c k : entry forms b u -> b = a ++ PMessage n p t s :: c -> msgstr_kw k t ->
  k < nforms forms /\ forall n' p' t' s' j, In (PMessage n' p' t' s') a -> msgstr_kw j t' -> j < k.
Proof.
  intros En E Kw. destruct (entry_values _ _ _ En) as (q & ls & vs & Eb & NI & V & _). rewrite Eb in E.
  assert (forall x y, In x q -> x = PMessage n p t s -> y = tt -> False) as NQ.
  { intros x y I -> _. rewrite Forall_forall in NI. exact (NI _ I _ _ _ _ k eq_refl Kw). }
  apply app_eq_app in E as (d & [[Eq Ed]|[-> Ed]]).
  - destruct d as [|x d].
    + rewrite app_nil_r in Eq. subst q. cbn [app] in Ed. destruct (values_lines _ _ _ _ _ V [] n p t s c (eq_sym Ed)) as (k' & K1 & _ & K3 & _).
      rewrite (msgstr_kw_inj _ _ _ Kw K1). split; [exact K3|]. intros n' p' t' s' j I J. exfalso. rewrite Forall_forall in NI. exact (NI _ I _ _ _ _ j eq_refl J).
    + exfalso. injection Ed as <- _. apply (NQ (PMessage n p t s) tt); auto. rewrite Eq. apply in_or_app; right; left; reflexivity.
  - destruct (values_lines _ _ _ _ _ V d n p t s c Ed) as (k' & K1 & _ & K3 & _).
    rewrite (msgstr_kw_inj _ _ _ Kw K1). split; [exact K3|]. intros n' p' t' s' j I J. apply in_app_or in I as [I|I].
    + exfalso. rewrite Forall_forall in NI. exact (NI _ I _ _ _ _ j eq_refl J).
    + apply in_split in I as (d1 & d2 & ->). rewrite <- app_assoc in Ed. cbn [app] in Ed.
      destruct (values_lines _ _ _ _ _ V d1 n' p' t' s' _ Ed) as (j' & J1 & _ & _ & J4).
      destruct (J4 n p t s) as (k2 & Q1 & Q2); [apply in_or_app; right; left; reflexivity|].
      rewrite (msgstr_kw_inj _ _ _ J J1). rewrite (msgstr_kw_inj _ _ _ K1 Q1). exact Q2.
Qed.
Lemma strings_split_unique f c1 t1 r1 c2 t2 r2 : strings f c1 t1 -> strings f c2 t2 -> c1 ++ r1 = c2 ++ r2 ->
  (forall n x r, r1 <> PCont n f x :: r) -> (forall n x r, r2 <> PCont n f x :: r) -> t1 = t2 /\ r1 = r2.
Proof.
  intros S1. revert c2 t2. induction S1 as [|n s ls t S1 IH]; intros c2 t2 S2 E N1 N2.
  - destruct S2 as [|n' s' ls' t' S2]; cbn [app] in E; [auto|]. subst r1. exfalso. exact (N1 _ _ _ eq_refl).
  - destruct S2 as [|n' s' ls' t' S2]; cbn [app] in E; [subst r2; exfalso; exact (N2 _ _ _ eq_refl)|]. injection E as <- <- E.
    destruct (IH _ _ S2 E N1 N2) as [-> ->]. auto.
Qed.
Lemma values_no_cont obs count i ls vs : values (own obs) count i ls vs -> forall n f x r, ls <> PCont n f x :: r.
Proof. intros [|i' k kw l s l' vs' _ _ _ [n y c t S] _] m f x r E; discriminate E. Qed.
Lemma values_forms obs count i ls vs : values (own obs) count i ls vs ->
  exists ks, StronglySorted N.lt ks /\ Forall (fun k => i <= k /\ k < count) ks /\ length ks = length vs /\
    forall j s, form_at ls j s <-> exists m, nth_error ks m = Some j /\ nth_error vs m = Some s.
Proof.
  induction 1 as [i|i k kw ls x ls' vs Hi Hk Kw Fi V (ks & So & Fo & Le & IH)].
  - exists []. repeat split; try constructor.
    + intros (a & f & kw & l & c & E & _ & Fl & _). destruct Fl as [n y cs t S]. destruct a; discriminate E.
    + intros (m & E & _). destruct m; discriminate.
  - exists (k :: ks). repeat split.
    + constructor; [exact So|]. eapply Forall_impl; [|exact Fo]. cbn. intros y Hy; lia.
    + constructor; [auto|]. eapply Forall_impl; [|exact Fo]. cbn. intros y Hy; lia.
    + cbn [length]. congruence.
    + intros (a & o & kw' & l & c & E & Kw' & Fl & Mx). destruct Fi as [n y conts t S]. destruct Fl as [n' y' conts' t' S']. rewrite !own_tag in E.
      destruct a as [|z a]; cbn [app] in E.
      * injection E as <- Eo <- <- E. rewrite <- Eo in *. exists 0%nat. rewrite (msgstr_kw_inj _ _ _ Kw' Kw).
        destruct (strings_split_unique _ _ _ _ _ _ _ S S' E) as [-> _]; [intros; exact (values_no_cont _ _ _ _ _ V _ _ _ _)|exact Mx|]. auto.
      * injection E as <- E. assert (~ In (PMessage n' (own o) kw' y') conts) as NI.
        { clear -S. intros I. induction S as [|q w l0 u S IH]; [destruct I|]. destruct I as [I|I]; [discriminate|exact (IH I)]. }
        apply app_eq_app in E as (d & [[Ea Ed]|[Ea Ed]]).
        -- destruct d as [|w d].
           ++ destruct (proj1 (IH j (y' ++ t'))) as (m & M1 & M2); [|exists (Datatypes.S m); auto]. exists [], o, kw', (PMessage n' (own o) kw' y' :: conts'), c.
              cbn [app] in *. repeat split; auto. pose proof (fl_intro (own o) kw' n' y' conts' t' S') as X. rewrite own_tag in X. exact X.
           ++ exfalso. injection Ed as <- _. apply NI. rewrite Ea. apply in_or_app; right; left; reflexivity.
        -- destruct (proj1 (IH j (y' ++ t'))) as (m & M1 & M2); [|exists (Datatypes.S m); auto]. exists d, o, kw', (PMessage n' (own o) kw' y' :: conts'), c.
           repeat split; auto. pose proof (fl_intro (own o) kw' n' y' conts' t' S') as X. rewrite own_tag in X. exact X.
    + intros ([|m] & M1 & M2); cbn [nth_error] in M1, M2.
      * injection M1 as <-. injection M2 as <-. exists [], obs, kw, ls, ls'. repeat split; auto. intros; exact (values_no_cont _ _ _ _ _ V _ _ _ _).
      * destruct (proj2 (IH j s)) as (a & o & kw' & l & c & E & H); [eauto|]. exists (ls ++ a), o, kw', l, c. split; [|exact H]. rewrite E, <- app_assoc. reflexivity.
Qed.
Lemma form_at_skip p ls j s : Forall no_index p -> (form_at (p ++ ls) j s <-> form_at ls j s).
Proof.
  intros NI. split.
  - intros (a & o & kw & l & c & E & Kw & Fl & Mx). assert (exists n y l', l = PMessage n (own o) kw y :: l') as (n & y & l' & El) by (destruct Fl; rewrite own_tag; eauto).
    symmetry in E. apply app_eq_app in E as (d & [[Ea Ed]|[-> Ed]]).
    + exists d, o, kw, l, c. auto.
    + destruct d as [|x d].
      * exists [], o, kw, l, c. auto.
      * exfalso. rewrite El in Ed. injection Ed as <- _. rewrite Forall_forall in NI.
        assert (In (PMessage n (own o) kw y) (a ++ PMessage n (own o) kw y :: d)) as I by (apply in_or_app; right; left; reflexivity).
        exact (NI _ I _ _ _ _ j eq_refl Kw).
  - intros (a & o & kw & l & c & -> & H). exists (p ++ a), o, kw, l, c. split; [rewrite <- app_assoc; reflexivity|exact H].
Qed.
(** The values of a plural entry are its forms in the order of their indices. *)
Theorem entry_forms forms b u m : entry forms b u -> u_message u = MPlural m ->
  exists ks, StronglySorted N.lt ks /\ Forall (fun k => k < nforms forms) ks /\ length ks = length (pl_values m) /\
    forall i s, form_at b i s <-> exists j, nth_error ks j = Some i /\ nth_error (pl_values m) j = Some s.
Proof.
  intros En Em. destruct (entry_values _ _ _ En) as (p & ls & vs & -> & NI & V & E). rewrite Em in E. subst vs.
  destruct (values_forms _ _ _ _ _ V) as (ks & So & Fo & Le & H). exists ks. repeat split; auto.
  - eapply Forall_impl; [|exact Fo]. cbn; tauto.
  - intros X. apply H. apply form_at_skip in X; assumption.
  - intros X. apply form_at_skip; [exact NI|]. apply H, X.
Qed.
(** Without a gap value i is form i. *)
Lemma sorted_gapless ks : StronglySorted N.lt ks -> (forall i j, In i ks -> j < i -> In j ks) -> forall m, (m < length ks)%nat -> nth_error ks m = Some (N.of_nat m).
Proof.
  intros So Ga. assert (forall m, (m < length ks)%nat -> forall v, nth_error ks m = Some v -> N.of_nat m <= v) as Lo.
  { induction m as [|m IH]; intros Hm v Hv; [lia|]. destruct (nth_error ks m) as [w|] eqn:Hw.
    - specialize (IH ltac:(lia) w eq_refl). assert (w < v); [|lia]. clear -So Hv Hw. revert m Hv Hw. induction So as [|x l So IH Fo]; intros m Hv Hw; [destruct m; discriminate|].
      destruct m as [|m]; cbn in Hv, Hw; [injection Hw as ->; rewrite Forall_forall in Fo; apply Fo, (nth_error_In l 0 Hv)|exact (IH m Hv Hw)].
    - apply nth_error_None in Hw. lia. }
  assert (forall m, (m < length ks)%nat -> forall v, nth_error ks m = Some v -> v <= N.of_nat m) as Hi.
  { induction m as [m IH] using lt_wf_ind. intros Hm v Hv. destruct (N.le_gt_cases v (N.of_nat m)) as [H|H]; [exact H|exfalso].
    assert (In (N.of_nat m) ks) as I by (apply (Ga v); [exact (nth_error_In _ _ Hv)|exact H]).
    apply In_nth_error in I as (q & Hq). assert (q < length ks)%nat as Lq by (apply nth_error_Some; congruence).
    destruct (Nat.lt_trichotomy q m) as [L|[->|L]].
    - specialize (IH q L Lq _ Hq). lia.
    - rewrite Hv in Hq. injection Hq as ->. lia.
    - pose proof (Lo q Lq _ Hq). lia. }
  intros m Hm. destruct (nth_error ks m) as [v|] eqn:E; [|apply nth_error_None in E; lia]. f_equal. pose proof (Lo m Hm v E). pose proof (Hi m Hm v E). lia.
Qed.
Theorem entry_forms_gapless forms b u m : entry forms b u -> u_message u = MPlural m ->
  (forall i j s, form_at b i s -> j < i -> exists t, form_at b j t) ->
  forall i s, form_at b (N.of_nat i) s <-> nth_error (pl_values m) i = Some s.
Proof.
  intros En Em Ga. destruct (entry_forms _ _ _ _ En Em) as (ks & So & _ & Le & H).
  assert (forall q, (q < length ks)%nat -> nth_error ks q = Some (N.of_nat q)) as K.
  { apply sorted_gapless; [exact So|]. intros i j I L. apply In_nth_error in I as (q & Hq).
    assert (q < length (pl_values m))%nat as Lq by (rewrite <- Le; apply nth_error_Some; congruence).
    destruct (nth_error (pl_values m) q) as [s|] eqn:Es; [|apply nth_error_None in Es; lia].
    destruct (Ga i j s) as (t & Ft); [apply H; eauto|exact L|]. apply H in Ft as (q' & Hq' & _). exact (nth_error_In _ _ Hq'). }
  intros i s. rewrite H. split.
  - intros (q & Hq & Hs). assert (q < length ks)%nat as Lq by (apply nth_error_Some; congruence). rewrite (K q Lq) in Hq. injection Hq as Hq. apply Nat2N.inj in Hq. subst. exact Hs.
  - intros Hs. exists i. split; [|exact Hs]. apply K. rewrite Le. apply nth_error_Some. congruence.
Qed.

(** * Lines that belong to no entry *)
Lemma inner_not_starter l : inner_line l -> ~ starter l.
Proof.
  intros I [(n & k & s & ->)|(n & p & t & s & -> & H)]; [exact I|]. apply I. cbn in *. intuition.
Qed.
Lemma blocks_then_line forms bls us l r tl : Forall2 (unit_entry forms) bls us -> inner_line l -> (bls <> [] -> ~ viable forms (last bls [] ++ [l])) ->
  blocks forms (concat bls ++ l :: r) tl us (Some (EParse (po_line_no l) (shown l) (lit "msgid"))).
Proof.
  intros F Il. induction F as [|b u bls us U F IH]; intros NV; cbn [concat app].
  - apply bk_close. change (l :: r) with ([] ++ l :: r). apply cl_line.
    + apply (aw_id forms false []). change (@nil po_line) with (@nil po_line ++ [] ++ [] ++ []). eapply og_intro; constructor.
    + cbn [app]. intros G. exact (inner_not_starter l Il (begun_starter _ _ _ G)).
  - rewrite <- app_assoc. apply bk_entry; [exact U| |].
    + destruct F as [|b' u' bls us U' F].
      * cbn [concat app]. cbn [last] in NV. apply NV. discriminate.
      * cbn [concat]. destruct U' as [En' _]. apply entry_starter in En' as (l' & b2 & -> & S). cbn [app]. apply starter_ends with u; [apply U|exact S].
    + apply IH. intros NE. destruct bls as [|b' bls]; [contradiction|]. apply NV. discriminate.
Qed.
Theorem surplus_line lib pf evs ls e pl tl h bls l r forms us : file evs ls e pl tl -> pl = h ++ concat bls ++ l :: r ->
  heading pf h (concat bls ++ l :: r) tl forms us -> Forall2 (unit_entry forms) bls us -> inner_line l ->
  (bls <> [] -> ~ viable forms (last bls [] ++ [l])) ->
  exists c, read_catalogue lib pf evs = Ok c /\ c_items c = map UOk us ++ [UErr (EParse (po_line_no l) (shown l) (lit "msgid"))].
Proof.
  intros Fi E H F Il NV. eapply (read_file lib pf evs ls e pl tl h _ forms us (Some _)); [exact Fi|exact E|exact H|]. apply blocks_then_line; assumption.
Qed.
(** A form whose index is too large or not larger than that of another form. *)
Theorem surplus_form_not_viable forms b n p t s k : msgstr_kw k t ->
  nforms forms <= k \/ (exists n' p' t' s' j, In (PMessage n' p' t' s') b /\ msgstr_kw j t' /\ k <= j) ->
  ~ viable forms (b ++ [PMessage n p t s]).
Proof.
  intros Kw H (q & u & En). rewrite <- app_assoc in En. destruct (entry_indices _ _ _ _ _ _ _ _ _ k En eq_refl Kw) as [Lt Af].
  destruct H as [H|(n' & p' & t' & s' & j & I & J & L)]; [lia|]. specialize (Af _ _ _ _ j I J). lia.
Qed.

(** * What follows complete entries *)
Lemma blocks_then forms bls us rest tl o : Forall2 (unit_entry forms) bls us -> closing forms rest tl o ->
  (bls <> [] -> ends_at forms (last bls []) rest tl) -> blocks forms (concat bls ++ rest) tl us o.
Proof.
  intros F Cl. induction F as [|b u bls us U F IH]; intros NV; cbn [concat app]; [apply bk_close, Cl|].
  rewrite <- app_assoc. apply bk_entry; [exact U| |].
  - destruct F as [|b' u' bls us U' F].
    + cbn [concat app]. cbn [last] in NV. apply NV. discriminate.
    + cbn [concat]. destruct U' as [En' _]. apply entry_starter in En' as (l' & b2 & -> & S). cbn [app]. apply starter_ends with u; [apply U|exact S].
  - apply IH. intros NE. destruct bls as [|b' bls]; [contradiction|]. apply NV. discriminate.
Qed.
Lemma last_in {A} (l : list A) d : l <> [] -> In (last l d) l.
Proof. induction l as [|x [|y l] IH]; intros NE; [contradiction|left; reflexivity|right; apply IH; discriminate]. Qed.
Lemma blocks_starter forms bls us l r tl : Forall2 (unit_entry forms) bls us -> bls <> [] -> starter l -> ends_at forms (last bls []) (l :: r) tl.
Proof.
  intros F NE S. pose proof (last_in bls [] NE) as I. destruct (Forall2_in_l _ _ _ _ F I) as (u & _ & [En _]). exact (starter_ends _ _ _ _ _ _ En S).
Qed.
(** An entry with an empty id. *)
Theorem empty_source lib pf evs ls e pl tl h r forms us bls cs F N L C obs k ks pc pm ct text rest :
  file evs ls e pl tl -> pl = h ++ r -> r = concat bls ++ (cs ++ k :: ks) ++ rest -> heading pf h r tl forms us ->
  Forall2 (unit_entry forms) bls us -> block_comments cs F N L C -> keywords forms obs (k :: ks) pc pm ct (MSimple [] text) ->
  ends_at forms (cs ++ k :: ks) rest tl ->
  exists c, read_catalogue lib pf evs = Ok c
    /\ c_items c = map UOk us ++ [UErr (EUnexpected (po_line_no k) (lit "Source should not be empty"))].
Proof.
  intros Fi E Er H Fo B K Ea. eapply (read_file lib pf evs ls e pl tl h r forms us (Some _)); [exact Fi|exact E|exact H|]. rewrite Er. apply blocks_then; [exact Fo| |].
  - eapply cl_empty; eassumption.
  - intros NE. assert (exists u, entry forms (cs ++ k :: ks) u) as (u & En) by (eexists; eapply entry_of; eassumption).
    apply entry_starter in En as (l & b & -> & S). cbn [app]. eapply blocks_starter; eassumption.
Qed.
(** A line that does not fit. *)
Theorem unfit_line lib pf evs ls e pl tl h bls l r forms us inc w : file evs ls e pl tl -> pl = h ++ concat bls ++ inc ++ l :: r ->
  heading pf h (concat bls ++ inc ++ l :: r) tl forms us -> Forall2 (unit_entry forms) bls us ->
  awaited forms inc w -> ~ begun forms (inc ++ [l]) -> (bls <> [] -> inc = [] -> ~ viable forms (last bls [] ++ [l])) ->
  exists c, read_catalogue lib pf evs = Ok c /\ c_items c = map UOk us ++ [UErr (EParse (po_line_no l) (shown l) w)].
Proof.
  intros Fi E H Fo A NB NV. eapply (read_file lib pf evs ls e pl tl h _ forms us (Some _)); [exact Fi|exact E|exact H|]. apply blocks_then; [exact Fo|apply cl_line; assumption|].
  intros NE. destruct inc as [|x inc]; [exact (NV NE eq_refl)|]. cbn [app]. eapply blocks_starter; [exact Fo|exact NE|]. eapply begun_starter. right. exists w. exact A.
Qed.

(** * Parts of units *)
Lemma unit_at_entry lib pf pl tl c k forms b u : unit_at lib pf pl tl c k forms b u -> entry forms b u.
Proof. intros [h bls r us items _ _ _ _ _ [E _] _]. exact E. Qed.
Lemma entry_obsolete forms b u : entry forms b u ->
  (exists n p t s, In (PMessage n p t s) b)
  /\ forall l, In l b -> match l with
       | PMessage _ p _ _ | PCont _ p _ => if u_obsolete u then p = lit "~" \/ p = lit "~|" else p = [] \/ p = lit "|"
       | PComment _ _ _ => True
       | PBlank => False
       end.
Proof.
  intros En. destruct (entry_parts _ _ _ En) as (cs & ks & F & -> & _ & B & _ & K & M). split.
  - pose proof (keywords_marked _ _ _ _ _ _ _ [] K) as (n & p & t & s & r & Ek & _). rewrite app_nil_r in Ek. exists n, p, t, s. rewrite Ek. apply in_or_app; right; left; reflexivity.
  - intros l Il. apply in_app_or in Il as [Il|Il].
    + apply block_comments_comment in B. rewrite Forall_forall in B. destruct (B _ Il) as (n & kd & s & ->). exact Logic.I.
    + rewrite Forall_forall in M. specialize (M _ Il). destruct l; try contradiction; destruct (u_obsolete u); exact M.
Qed.
Theorem unit_obsolete lib pf evs ls e pl tl c k u : file evs ls e pl tl -> read_catalogue lib pf evs = Ok c -> nth_error (c_items c) k = Some (UOk u) ->
  exists forms b, unit_at lib pf pl tl c k forms b u
    /\ (exists n p t s, In (PMessage n p t s) b)
    /\ forall l, In l b -> match l with
         | PMessage _ p _ _ | PCont _ p _ => if u_obsolete u then p = lit "~" \/ p = lit "~|" else p = [] \/ p = lit "|"
         | PComment _ _ _ => True
         | PBlank => False
         end.
Proof.
  intros Fi R I. destruct (unit_placed _ _ _ _ _ _ _ _ _ _ Fi R I) as (forms & b & U). exists forms, b. split; [exact U|]. exact (entry_obsolete _ _ _ (unit_at_entry _ _ _ _ _ _ _ _ _ U)).
Qed.
Lemma entry_comments forms b u : entry forms b u ->
  exists cs ks F, b = cs ++ ks /\ block_comments cs F (u_notes u) (u_locations u) (u_comments u) /\ u_flags u = distinct F
    /\ (forall f, In f (u_flags u) <-> In f F) /\ NoDup (u_flags u)
    /\ ks <> [] /\ (forall l, In l ks -> match l with PMessage _ _ _ _ | PCont _ _ _ => True | _ => False end)
    /\ keywords forms (u_obsolete u) ks (u_prev_context u) (u_prev_message u) (u_context u) (u_message u).
Proof.
  intros En. destruct (entry_parts _ _ _ En) as (cs & ks & F & -> & NE & B & Ef & K & M).
  exists cs, ks, F. split; [reflexivity|]. split; [exact B|]. split; [exact Ef|]. rewrite Ef. split; [intros f; apply distinct_in|]. split; [apply distinct_nodup|].
  split; [exact NE|]. split; [|exact K]. intros l Il. rewrite Forall_forall in M. specialize (M _ Il). destruct l; try exact Logic.I; contradiction.
Qed.
Theorem unit_comments lib pf evs ls e pl tl c k u : file evs ls e pl tl -> read_catalogue lib pf evs = Ok c -> nth_error (c_items c) k = Some (UOk u) ->
  exists forms cs ks F, unit_at lib pf pl tl c k forms (cs ++ ks) u /\ block_comments cs F (u_notes u) (u_locations u) (u_comments u) /\ u_flags u = distinct F
    /\ (forall f, In f (u_flags u) <-> In f F) /\ NoDup (u_flags u)
    /\ ks <> [] /\ (forall l, In l ks -> match l with PMessage _ _ _ _ | PCont _ _ _ => True | _ => False end)
    /\ keywords forms (u_obsolete u) ks (u_prev_context u) (u_prev_message u) (u_context u) (u_message u).
Proof.
  intros Fi R I. destruct (unit_placed _ _ _ _ _ _ _ _ _ _ Fi R I) as (forms & b & U). destruct (entry_comments _ _ _ (unit_at_entry _ _ _ _ _ _ _ _ _ U)) as (cs & ks & F & -> & H).
  exists forms, cs, ks, F. split; [exact U|exact H].
Qed.
Lemma entry_previous forms b u : entry forms b u ->
  exists cs l1 l2 own_lines, b = cs ++ l1 ++ l2 ++ own_lines
    /\ Forall (fun l => exists n k s, l = PComment n k s) cs
    /\ opt_field (prev (u_obsolete u)) (lit "msgctxt") l1 (u_prev_context u)
    /\ previous forms (u_obsolete u) l2 (u_prev_message u)
    /\ (exists l3 l4, own_lines = l3 ++ l4 /\ opt_field (own (u_obsolete u)) (lit "msgctxt") l3 (u_context u) /\ body forms (u_obsolete u) l4 (u_message u))
    /\ translations (u_prev_message u) = [].
Proof.
  intros En. destruct (entry_parts _ _ _ En) as (cs & ks & F & -> & _ & B & _ & K & _).
  destruct K as [l1 pc l2 pm l3 ct l4 m F1 F2 F3 Bo]. exists cs, l1, l2, (l3 ++ l4). split; [reflexivity|].
  split; [exact (block_comments_comment _ _ _ _ _ B)|]. split; [exact F1|]. split; [exact F2|]. split; [eauto|]. destruct F2; reflexivity.
Qed.
Theorem unit_previous lib pf evs ls e pl tl c k u : file evs ls e pl tl -> read_catalogue lib pf evs = Ok c -> nth_error (c_items c) k = Some (UOk u) ->
  exists forms cs l1 l2 own_lines, unit_at lib pf pl tl c k forms (cs ++ l1 ++ l2 ++ own_lines) u
    /\ Forall (fun l => exists n k s, l = PComment n k s) cs
    /\ opt_field (prev (u_obsolete u)) (lit "msgctxt") l1 (u_prev_context u)
    /\ previous forms (u_obsolete u) l2 (u_prev_message u)
    /\ (exists l3 l4, own_lines = l3 ++ l4 /\ opt_field (own (u_obsolete u)) (lit "msgctxt") l3 (u_context u) /\ body forms (u_obsolete u) l4 (u_message u))
    /\ translations (u_prev_message u) = [].
Proof.
  intros Fi R I. destruct (unit_placed _ _ _ _ _ _ _ _ _ _ Fi R I) as (forms & b & U). destruct (entry_previous _ _ _ (unit_at_entry _ _ _ _ _ _ _ _ _ U)) as (cs & l1 & l2 & ow & -> & H).
  exists forms, cs, l1, l2, ow. split; [exact U|exact H].
Qed.
Lemma entry_plural_forms forms b u p : entry forms b u -> u_message u = MPlural p -> pl_forms p = forms.
Proof.
  intros En Em. destruct (entry_parts _ _ _ En) as (cs & ks & F & _ & _ & _ & _ & K & _). rewrite Em in K. remember (MPlural p) as m eqn:E.
  destruct K as [l1 pc l2 pm l3 ct l4 m _ _ _ Bo]. destruct Bo; [discriminate|]. injection E as <-. reflexivity.
Qed.
Theorem unit_values lib pf evs ls e pl tl c k u p : file evs ls e pl tl -> read_catalogue lib pf evs = Ok c -> nth_error (c_items c) k = Some (UOk u) ->
  u_message u = MPlural p ->
  exists b ks, unit_at lib pf pl tl c k (pl_forms p) b u
    /\ StronglySorted N.lt ks /\ Forall (fun k => k < nforms (pl_forms p)) ks /\ length ks = length (pl_values p)
    /\ (forall i s, form_at b i s <-> exists j, nth_error ks j = Some i /\ nth_error (pl_values p) j = Some s)
    /\ ((forall i j s, form_at b i s -> j < i -> exists t, form_at b j t) ->
        forall i s, form_at b (N.of_nat i) s <-> nth_error (pl_values p) i = Some s).
Proof.
  intros Fi R I Em. destruct (unit_placed _ _ _ _ _ _ _ _ _ _ Fi R I) as (forms & b & U). pose proof (unit_at_entry _ _ _ _ _ _ _ _ _ U) as En.
  rewrite (entry_plural_forms _ _ _ _ En Em). destruct (entry_forms _ _ _ _ En Em) as (ks & So & Fo & Le & H).
  exists b, ks. split; [exact U|]. split; [exact So|]. split; [exact Fo|]. split; [exact Le|]. split; [exact H|]. exact (entry_forms_gapless _ _ _ _ En Em).
Qed.
Theorem first_unit lib pf evs ls e pl tl b r u : file evs ls e pl tl -> pl = b ++ r -> unit_entry None b u -> ends_at None b r tl ->
  exists c rest, read_catalogue lib pf evs = Ok c /\ no_header lib c /\ c_items c = UOk u :: rest.
Proof.
  intros Fi -> U Ea. pose proof Fi as (bs & f & D & C & P). destruct (file_catalogue lib pf evs bs f ls e (b ++ r) tl (read_catalogue lib pf evs) D C P) as [_ W].
  apply Forall_app in W as [_ W]. destruct (blocks_total None r tl W) as (us & o & B).
  eexists. exists (map UOk us ++ error_item o). split; [exact (read_plain lib pf evs ls e _ tl u us o Fi (bk_entry None b u r tl us o U Ea B))|]. split; [|reflexivity].
  repeat split.
Qed.
