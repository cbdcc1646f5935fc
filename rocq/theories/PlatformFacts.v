(** The influence of the platform on reading and looking up. *)
From Coq Require Import String Arith NArith ZArith Bool List Lia.
From Verif Require Import ModelBase ModelUtf8 ModelRegex ModelLine ModelFormula ModelData ModelSource ModelReader
  SpecLine SpecFormula SpecSource SpecReader SpecBlock SpecHeader BaseFacts LineFacts LineThms ReaderFacts ReadsFacts StreamThms CommentFacts MapFacts FormulaFacts HeaderFacts AccessFacts FileIntro SpecUse EvalFacts UseFacts FormulaWitness.
Import ListNotations.
Local Open Scope N_scope.

(** * Counts *)
Lemma max_mono pf pf' : usize_bits pf <= usize_bits pf' -> usize_max pf <= usize_max pf'.
Proof. intros H. unfold usize_max. pose proof (N.pow_le_mono_r 2 (usize_bits pf) (usize_bits pf') ltac:(lia) H). lia. Qed.
Lemma digits_wider max max' ds v : max <= max' -> parse_digits max 0 ds = inl v -> parse_digits max' 0 ds = inl v.
Proof. intros M H. apply parse_digits_ok in H as (A & B & C). apply parse_digits_ok. split; [exact A|]. split; [lia|exact C]. Qed.
Lemma digits_narrow max max' ds v : parse_digits max' 0 ds = inl v -> v <= max -> parse_digits max 0 ds = inl v.
Proof.
  intros H L. apply parse_digits_ok in H as (A & B & C). apply parse_digits_ok. split; [exact A|]. split; [|exact C].
  destruct (Z.le_gt_cases 0 (digits_value ds)); lia.
Qed.
Lemma digits_error max max' ds e : max <= max' -> forall a, parse_digits max a ds = inr e -> parse_digits max' a ds = inr e \/ e = IntPosOverflow.
Proof.
  intros M. induction ds as [|c ds IH]; intros a H; cbn [parse_digits] in *; [discriminate|]. destruct (is_digit c); [|left; exact H].
  destruct (max <? a * 10) eqn:E1; [right; congruence|]. destruct (max <? a * 10 + (c - 48)) eqn:E2; [right; congruence|].
  replace (max' <? a * 10) with false by lia. replace (max' <? a * 10 + (c - 48)) with false by lia. apply IH, H.
Qed.
Lemma digits_below max ds v : parse_digits max 0 ds = inl v -> v <= max.
Proof. intros H. apply parse_digits_ok in H as (_ & B & ->). lia. Qed.
Lemma unsigned_wider max max' s v : max <= max' -> parse_unsigned max s = inl v -> parse_unsigned max' s = inl v.
Proof.
  intros M. unfold parse_unsigned. destruct s as [|c s]; [discriminate|]. destruct (c =? 43); [destruct s; [discriminate|]|]; apply digits_wider, M.
Qed.
Lemma unsigned_narrow max max' s v : parse_unsigned max' s = inl v -> v <= max -> parse_unsigned max s = inl v.
Proof. unfold parse_unsigned. destruct s as [|c s]; [discriminate|]. destruct (c =? 43); [destruct s; [discriminate|]|]; apply digits_narrow. Qed.
Lemma unsigned_error max max' s e : max <= max' -> parse_unsigned max s = inr e -> parse_unsigned max' s = inr e \/ e = IntPosOverflow.
Proof. intros M. unfold parse_unsigned. destruct s as [|c s]; [auto|]. destruct (c =? 43); [destruct s; [auto|]|]; apply digits_error, M. Qed.
Lemma unsigned_below max s v : parse_unsigned max s = inl v -> v <= max.
Proof. unfold parse_unsigned. destruct s as [|c s]; [discriminate|]. destruct (c =? 43); [destruct s; [discriminate|]|]; apply digits_below. Qed.

(** * Definitions *)
Section Wider.
  Context (pf pf' : platform) (W : usize_bits pf <= usize_bits pf').
  Lemma definition_wider def f : plural_forms_parse pf def = Ok f -> plural_forms_parse pf' def = Ok f.
  Proof.
    unfold plural_forms_parse. destruct (parse_map def) as [m|]; [|discriminate]. destruct (formula_parse _); [|discriminate]. destruct (sm_get _ m) as [s|]; [|auto].
    destruct (parse_unsigned (usize_max pf) s) as [v|] eqn:E; [|discriminate]. rewrite (unsigned_wider _ _ _ _ (max_mono _ _ W) E). auto.
  Qed.
  Lemma definition_narrow def f : plural_forms_parse pf' def = Ok f -> pf_count f <= usize_max pf -> plural_forms_parse pf def = Ok f.
  Proof.
    unfold plural_forms_parse. destruct (parse_map def) as [m|]; [|discriminate]. destruct (formula_parse _); [|discriminate]. destruct (sm_get _ m) as [s|]; [|auto].
    destruct (parse_unsigned (usize_max pf') s) as [v|] eqn:E; [|discriminate]. intros [= <-] L. cbn [pf_count] in L. rewrite (unsigned_narrow _ _ _ _ E L). reflexivity.
  Qed.
  Lemma definition_error def e : plural_forms_parse pf def = Err e ->
    plural_forms_parse pf' def = Err e \/ e = EPluralForms (lit "number too large to fit in target type").
  Proof.
    unfold plural_forms_parse. destruct (parse_map def) as [m|]; [|auto]. destruct (formula_parse _); [|auto]. destruct (sm_get _ m) as [s|]; [|auto].
    destruct (parse_unsigned (usize_max pf) s) as [v|x] eqn:E; [discriminate|]. intros [= <-]. destruct (unsigned_error _ _ _ _ (max_mono _ _ W) E) as [-> | ->]; auto.
  Qed.
End Wider.
Lemma definition_below pf def f : 8 <= usize_bits pf -> plural_forms_parse pf def = Ok f -> pf_count f <= usize_max pf.
Proof.
  intros B. unfold plural_forms_parse. destruct (parse_map def) as [m|]; [|discriminate]. destruct (formula_parse _); [|discriminate]. destruct (sm_get _ m) as [s|].
  - destruct (parse_unsigned (usize_max pf) s) as [v|] eqn:E; [|discriminate]. intros [= <-]. exact (unsigned_below _ _ _ E).
  - intros [= <-]. cbn. unfold usize_max. pose proof (N.pow_le_mono_r 2 8 (usize_bits pf) ltac:(lia) B) as P. change (2 ^ 8) with 256 in P. lia.
Qed.

(** * Reading *)
Lemma forms_wider pf pf' props forms : usize_bits pf <= usize_bits pf' -> header_forms pf props = Ok forms -> header_forms pf' props = Ok forms.
Proof.
  intros W. unfold header_forms. destruct (sm_get _ props) as [def|]; [|auto]. destruct (is_empty def); [auto|].
  destruct (plural_forms_parse pf def) as [f|e|] eqn:E; try discriminate. rewrite (definition_wider pf pf' W _ _ E). auto.
Qed.
Theorem reading_wider lib pf pf' evs : usize_bits pf <= usize_bits pf' ->
  match read_catalogue lib pf evs with
  | Ok c => read_catalogue lib pf' evs = Ok c
  | Err e => read_catalogue lib pf' evs = Err e \/ e = EPluralForms (lit "number too large to fit in target type")
  | Panic => False
  end.
Proof.
  intros W. destruct (read_catalogue lib pf evs) as [c|e|] eqn:R; [| |exact (read_catalogue_no_panic _ _ _ R)].
  all: apply read_catalogue_of in R; inversion R as [x ls' E|ls' E|u ls' l E M Rd|u ls' x E M HF|u ls' forms l E M HF Rd]; subst.
  - apply read_catalogue_of. eapply co_empty; eassumption.
  - apply read_catalogue_of. eapply co_plain; eassumption.
  - apply read_catalogue_of. eapply co_header; try eassumption. exact (forms_wider _ _ _ _ W HF).
  - left. apply read_catalogue_of. eapply co_err; eassumption.
  - assert (X : header_forms pf' (header_props u) = Err e \/ e = EPluralForms (lit "number too large to fit in target type")).
    { revert HF. unfold header_forms. destruct (sm_get _ _) as [def|]; [|discriminate]. destruct (is_empty def); [discriminate|].
      destruct (plural_forms_parse pf def) as [f|x|] eqn:D; try discriminate. intros [= <-]. destruct (definition_error pf pf' W _ _ D) as [-> | ->]; auto. }
    destruct X as [X|X]; [left|right; exact X]. apply read_catalogue_of. eapply co_bad_header; eassumption.
Qed.
Theorem reading_same_width lib pf pf' evs : usize_bits pf = usize_bits pf' -> read_catalogue lib pf evs = read_catalogue lib pf' evs.
Proof.
  intros W. pose proof (reading_wider lib pf pf' evs ltac:(lia)) as A. pose proof (reading_wider lib pf' pf evs ltac:(lia)) as B.
  destruct (read_catalogue lib pf evs) as [c|e|] eqn:R; [congruence| |contradiction]. destruct (read_catalogue lib pf' evs) as [c'|e'|]; [discriminate| |contradiction].
  destruct A as [A|A]; [congruence|]. destruct B as [B|B]; congruence.
Qed.
Lemma property_one_line k v : property_shape k v -> one_line v.
Proof. intros (_ & _ & vs & _ & -> & F). apply separated_one_line. eapply Forall_impl; [|exact F]. intros x [_ O]. exact O. Qed.
Lemma get_in {A} k (m : smap A) v : sm_get k m = Some v -> exists k', In (k', v) m.
Proof.
  induction m as [|[k' w] m IH]; cbn [sm_get]; [discriminate|]. destruct (str_eqb k k'); [intros [= ->]; exists k'; left; reflexivity|].
  intros H. destruct (IH H) as (k1 & I). exists k1. right. exact I.
Qed.
Lemma shown_forms pf u forms : forms_shown pf (header_props u) forms <-> header_forms pf (header_props u) = Ok forms.
Proof.
  split; [|apply header_forms_shown]. unfold forms_shown, header_forms. destruct (sm_get _ _) as [def|] eqn:G; [|intros ->; reflexivity].
  destruct (get_in _ _ _ G) as (k & I). apply header_props_shape, property_one_line in I. intros [(-> & ->)|(N & f & -> & F)]; [reflexivity|].
  destruct def; [contradiction|]. cbn [is_empty]. apply (forms_parse_iff pf _ f I) in F. rewrite F. reflexivity.
Qed.
Lemma forms_narrow pf pf' props forms : 8 <= usize_bits pf -> usize_bits pf <= usize_bits pf' -> header_forms pf' props = Ok forms ->
  (header_forms pf props = Ok forms <-> forall f, forms = Some f -> pf_count f <= usize_max pf).
Proof.
  intros B W. unfold header_forms. destruct (sm_get _ props) as [def|]; [|intros [= <-]; split; [discriminate|reflexivity]].
  destruct (is_empty def); [intros [= <-]; split; [discriminate|reflexivity]|].
  destruct (plural_forms_parse pf' def) as [f|e|] eqn:E; try discriminate. intros [= <-]. split.
  - destruct (plural_forms_parse pf def) as [g|e|] eqn:D; try discriminate. intros [= ->] f' [= <-]. exact (definition_below _ _ _ B D).
  - intros H. rewrite (definition_narrow pf pf' _ _ E (H f eq_refl)). reflexivity.
Qed.
Theorem reading_exact lib pf pf' evs c forms : 8 <= usize_bits pf -> usize_bits pf <= usize_bits pf' -> read_catalogue lib pf' evs = Ok c -> forms_shown pf' (c_properties c) forms ->
  (read_catalogue lib pf evs = Ok c <-> forall f, forms = Some f -> pf_count f <= usize_max pf).
Proof.
  intros B W R S. rewrite read_catalogue_of. apply read_catalogue_of in R. inversion R as [x ls' E|ls' E|u ls' l E M Rd|u ls' x E M HF|u ls' forms' l E M HF Rd]; subst; cbn [c_properties] in S.
  - cbn in S. subst. split; [discriminate|]. intros _. eapply co_empty; eassumption.
  - cbn in S. subst. split; [discriminate|]. intros _. eapply co_plain; eassumption.
  - apply shown_forms in S. assert (forms' = forms) by congruence. subst forms'. pose proof (forms_narrow pf pf' _ _ B W HF) as N. split.
    + intros C. apply N. inversion C as [|ls2 E2|u2 ls2 l2 E2 M2 Rd2| |u2 ls2 forms2 l2 E2 M2 HF2 Rd2]; rewrite E in E2; try discriminate.
      * injection E2 as <- _. congruence.
      * injection E2 as <- _. rewrite HF2. rewrite (forms_wider _ _ _ _ W HF2) in HF. exact HF.
    + intros C. eapply co_header; try eassumption. apply N, C.
Qed.

(** * Looking up *)
Lemma execute_checks e n x : execute true e n = Some x -> execute false e n = Some x.
Proof.
  revert x. induction e as [|v|op r IH|op l IHl r IHr|c IHc t IHt f IHf]; intros x H; cbn [execute] in *; try exact H.
  - destruct (execute true r n) as [y|]; [|discriminate]. rewrite (IH y eq_refl). destruct op; [|exact H]. cbn [andb] in H. destruct (y =? i64_min_z)%Z; [discriminate|exact H].
  - destruct (execute true l n) as [y|]; [|discriminate]. rewrite (IHl y eq_refl). cbv zeta in *.
    assert (X : forall g, match execute true r n with None => None | Some z => Some (g z) end = Some x -> match execute false r n with None => None | Some z => Some (g z) end = Some x).
    { intros g Hg. destruct (execute true r n) as [z|]; [|discriminate]. rewrite (IHr z eq_refl). exact Hg. }
    destruct op; try (apply X; exact H); destruct (negb (y =? 0)%Z); try exact H; apply X; exact H.
  - destruct (execute true c n) as [y|]; [|discriminate]. rewrite (IHc y eq_refl). destruct (negb (y =? 0)%Z); auto.
Qed.
Theorem lookup_checks pf pf' m n r : usize_bits pf = usize_bits pf' -> overflow_checks pf' = false -> msg_get_plural_text pf m n = Some r -> msg_get_plural_text pf' m n = Some r.
Proof.
  intros W C. destruct m as [id t|p]; [auto|]. cbn [msg_get_plural_text]. unfold plural_get. destruct (pl_forms p) as [f|]; [|auto].
  unfold forms_get_value, formula_execute. rewrite <- W, C. destruct (execute (overflow_checks pf) _ _) as [x|] eqn:E; [|discriminate].
  destruct (overflow_checks pf); [rewrite (execute_checks _ _ _ E)|rewrite E]; auto.
Qed.
Lemma mod_small_pow v a b : a <= b -> v mod 2 ^ b < 2 ^ a -> v mod 2 ^ a = v mod 2 ^ b.
Proof.
  intros L H. replace (2 ^ b) with (2 ^ a * 2 ^ (b - a)) in * by (rewrite <- N.pow_add_r; f_equal; lia).
  rewrite N.mod_mul_r in * by (apply N.pow_nonzero; lia). pose proof (N.pow_nonzero 2 a ltac:(lia)).
  destruct ((v / 2 ^ a) mod 2 ^ (b - a)) as [|q] eqn:Q; [lia|]. exfalso. pose proof (N.mod_lt v (2 ^ a) ltac:(lia)). nia.
Qed.
Lemma value_narrow pf pf' f n v : usize_bits pf <= usize_bits pf' -> overflow_checks pf = overflow_checks pf' -> pf_count f <= usize_max pf ->
  forms_get_value pf' f n = Some (Some v) -> forms_get_value pf f n = Some (Some v).
Proof.
  intros W C L. unfold forms_get_value, formula_execute. rewrite C. destruct (execute _ _ _) as [x|]; [|discriminate]. destruct (x <? 0)%Z; [discriminate|].
  destruct (N.ltb_spec (Z.to_N x mod 2 ^ usize_bits pf') (pf_count f)) as [H|H]; [|discriminate]. intros [= <-].
  unfold usize_max in L. pose proof (N.pow_nonzero 2 (usize_bits pf) ltac:(lia)).
  rewrite (mod_small_pow _ _ _ W) by lia. destruct (N.ltb_spec (Z.to_N x mod 2 ^ usize_bits pf') (pf_count f)); [reflexivity|lia].
Qed.
Lemma unit_count lib pf evs c u p f : 8 <= usize_bits pf -> read_catalogue lib pf evs = Ok c -> In (UOk u) (c_items c) -> plural_in u p -> pl_forms p = Some f -> pf_count f <= usize_max pf.
Proof.
  intros B R I P F. destruct (plural_forms_shown _ _ _ _ R) as (forms & S & A). rewrite (A u p I P) in F. subst forms.
  exact (proj1 (reading_exact lib pf pf evs c (Some f) B ltac:(lia) R S) R f eq_refl).
Qed.
(** What a wider platform finds, a narrower one that reads the file finds too. *)
Theorem lookup_narrow lib pf pf' evs c u n t : 8 <= usize_bits pf -> usize_bits pf <= usize_bits pf' -> overflow_checks pf = overflow_checks pf' ->
  read_catalogue lib pf evs = Ok c -> In (UOk u) (c_items c) -> msg_get_plural_text pf' (u_message u) n = Some (Some t) -> msg_get_plural_text pf (u_message u) n = Some (Some t).
Proof.
  intros B W C R I. destruct (u_message u) as [id x|p] eqn:M; [auto|]. cbn [msg_get_plural_text]. unfold plural_get. destruct (pl_forms p) as [f|] eqn:F; [|auto].
  pose proof (unit_count lib pf evs c u p f B R I (or_introl M) F) as L.
  destruct (forms_get_value pf' f n) as [[v|]|] eqn:V; try discriminate. rewrite (value_narrow pf pf' f n v W C L V). auto.
Qed.
(** The other way round if the value of the formula fits the narrower one. *)
Theorem lookup_fits lib pf pf' pf0 evs c u p f n w x : usize_bits pf <= usize_bits pf' -> overflow_checks pf = overflow_checks pf' ->
  read_catalogue lib pf0 evs = Ok c -> In (UOk u) (c_items c) -> u_message u = MPlural p -> pl_forms p = Some f -> congruent w (Z.of_N n) -> runs w (pf_formula f) x -> (x < 2 ^ Z.of_N (usize_bits pf))%Z ->
  msg_get_plural_text pf (u_message u) n = msg_get_plural_text pf' (u_message u) n.
Proof.
  intros W C R I M F Cw Rx L. pose proof (delivered_literals _ _ _ _ _ _ _ R I M F) as Lit. rewrite M. cbn [msg_get_plural_text]. unfold plural_get. rewrite F.
  unfold forms_get_value, formula_execute. rewrite <- C. pose proof (proj1 (congruent_wrap _ _) Cw) as Ew. rewrite <- Ew.
  assert (X : execute false (pf_formula f) w = Some x) by (apply execute_runs; [exact (proj1 Cw)|exact Lit|exact Rx]).
  destruct (execute (overflow_checks pf) (pf_formula f) w) as [y|] eqn:E; [|reflexivity].
  assert (y = x) by (destruct (overflow_checks pf); [apply execute_checks in E|]; congruence). subst y.
  destruct (Z.ltb_spec x 0) as [|P]; [reflexivity|].
  assert (B : Z.to_N x < 2 ^ usize_bits pf) by (apply N2Z.inj_lt; rewrite Z2N.id, N2Z.inj_pow by exact P; exact L).
  pose proof (N.pow_le_mono_r 2 _ _ ltac:(lia) W). rewrite !N.mod_small by lia. reflexivity.
Qed.

(** * Witnesses *)
Definition wide_lines : list string := ["msgid """""; "msgstr ""Plural-Forms: nplurals=4294967296; plural=0;"""; "msgid ""a"""; "msgstr ""b"""]%string.
Definition release64 : platform := Platform 64 false.
Theorem reading_refuted : exists evs, (exists c u, read_catalogue demo_lib release64 evs = Ok c /\ c_items c = [UOk u])
  /\ exists x, read_catalogue demo_lib release32 evs = Err x.
Proof. exists (lf_stream wide_lines). split; [do 2 eexists; split; vm_compute; reflexivity|]. eexists. vm_compute. reflexivity. Qed.
Definition large_lines : list string := ["msgid """""; "msgstr ""Plural-Forms: nplurals=2; plural=n+4294967296;"""; "msgid ""a"""; "msgid_plural ""b"""; "msgstr[0] ""x"""; "msgstr[1] ""y"""]%string.
Theorem lookup_refuted : exists evs c u t, read_catalogue demo_lib release32 evs = Ok c /\ read_catalogue demo_lib release64 evs = Ok c /\ c_items c = [UOk u]
  /\ msg_get_plural_text release32 (u_message u) 1 = Some (Some t) /\ msg_get_plural_text release64 (u_message u) 1 = Some None.
Proof. exists (lf_stream large_lines). do 3 eexists. split; [vm_compute; reflexivity|]. split; [vm_compute; reflexivity|]. split; [vm_compute; reflexivity|]. split; vm_compute; reflexivity. Qed.
Definition least_lines : list string := ["msgid """""; "msgstr ""Plural-Forms: nplurals=2; plural=0*-(0-9223372036854775807-n);"""; "msgid ""a"""; "msgid_plural ""b"""; "msgstr[0] ""x"""; "msgstr[1] ""y"""]%string.
Theorem checks_refuted : exists evs c u t, read_catalogue demo_lib debug64 evs = Ok c /\ read_catalogue demo_lib release64 evs = Ok c /\ c_items c = [UOk u]
  /\ msg_get_plural_text debug64 (u_message u) 1 = None /\ msg_get_plural_text release64 (u_message u) 1 = Some (Some t).
Proof. exists (lf_stream least_lines). do 3 eexists. split; [vm_compute; reflexivity|]. split; [vm_compute; reflexivity|]. split; [vm_compute; reflexivity|]. split; vm_compute; reflexivity. Qed.
