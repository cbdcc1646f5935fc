(** Header properties and plural forms. *)
From Coq Require Import String Arith NArith ZArith Bool List Lia.
From Verif Require Import ModelBase ModelRegex ModelLine ModelFormula ModelData ModelSource ModelReader
  SpecLine SpecFormula SpecBlock SpecHeader BaseFacts LineFacts FormulaFacts FormulaThms DecFacts ReaderFacts ReadsFacts CommentFacts MapFacts.
Import ListNotations.
Local Open Scope N_scope.

(** * Numbers *)
Theorem parse_unsigned_iff pf s v : parse_unsigned (usize_max pf) s = inl v <-> unsigned pf s v.
Proof.
  assert (forall ds, ds <> [] -> (parse_digits (usize_max pf) 0 ds = inl v <-> (forall c, In c ds -> 48 <= c <= 57) /\ Z.of_N v = digits_value ds /\ v < 2 ^ usize_bits pf)) as K.
  { intros ds NE. rewrite parse_digits_ok. unfold usize_max. assert (0 < 2 ^ usize_bits pf) by (apply N.neq_0_lt_0, N.pow_nonzero; discriminate).
    split; intros (A & B & C); pose proof (digits_value_nonneg ds A); (split; [exact A|]); split; lia. }
  unfold parse_unsigned, unsigned. split.
  - destruct s as [|c s]; [discriminate|]. destruct (N.eqb_spec c 43) as [->|D].
    + destruct s as [|d s]; [discriminate|]. intros H. apply K in H; [|discriminate]. exists (d :: s). split; [right; reflexivity|]. split; [discriminate|exact H].
    + intros H. apply K in H; [|discriminate]. exists (c :: s). split; [left; reflexivity|]. split; [discriminate|exact H].
  - intros (ds & [->| ->] & NE & H).
    + destruct ds as [|c ds]; [contradiction|]. destruct (N.eqb_spec c 43) as [->|D].
      * exfalso. destruct H as [H _]. specialize (H 43 (or_introl eq_refl)). lia.
      * apply K; assumption.
    + destruct ds as [|c ds]; [contradiction|]. apply K; assumption.
Qed.

(** * Plural forms *)
Theorem forms_parse_iff pf def f : one_line def -> (plural_forms_parse pf def = Ok f <-> forms_of pf def f).
Proof.
  intros OL. unfold plural_forms_parse, forms_of. pose proof (parse_map_spec def OL) as M. destruct (parse_map def) as [m|].
  - destruct M as [D (bs & B & G)]. rewrite !G. split.
    + destruct (formula_parse _) as [e|] eqn:F; [|discriminate]. apply formula_parse_iff in F.
      intros H. exists bs. destruct (last_value (lit "nplurals") bs) as [s|] eqn:L.
      * destruct (parse_unsigned _ s) as [v|er] eqn:P; [|discriminate]. injection H as <-. cbn. apply parse_unsigned_iff in P. repeat split; auto.
      * injection H as <-. cbn. repeat split; auto.
    + intros (bs' & _ & B' & E1 & E2 & F & C). rewrite <- (bindings_det _ _ _ OL B B') in *.
      replace (unwrap_or_default (last_value (lit "plural") bs)) with (pf_source f) by (rewrite E2; destruct (last_value (lit "plural") bs); reflexivity).
      apply formula_parse_iff in F. rewrite F. destruct f as [fm n d src]. cbn [pf_source pf_count pf_definition pf_formula] in *.
      destruct (last_value (lit "nplurals") bs) as [s|]; cbn in C.
      * apply parse_unsigned_iff in C. rewrite C. congruence.
      * congruence.
  - split; [discriminate|]. intros (bs & D & _). contradiction.
Qed.

(** * Properties *)
Lemma find_pairs l k v : find_char 58 l = Some (k, v) <-> l = k ++ 58 :: v /\ ~ In 58 k.
Proof. apply find_char_some. Qed.
Definition line_pairs (l : str) : list (str * str) :=
  match find_char 58 l with None => [] | Some (k, v) => [(trim k, trim v)] end.
Lemma pairs_iff ls0 : forall ps, pairs ls0 ps <-> ps = flat_map line_pairs ls0.
Proof.
  assert (forall ls ps, pairs ls ps -> ps = flat_map line_pairs ls) as S.
  { induction 1 as [|l ls ps N H IH|k v k' v' ls ps N K V H IH]; cbn [flat_map]; [reflexivity| |]; unfold line_pairs at 1.
    - apply find_char_none in N. rewrite N. exact IH.
    - rewrite (proj2 (find_char_some 58 _ k v)) by auto. apply trims_to_iff in K, V. subst. reflexivity. }
  intros ps. split; [apply S|]. intros ->. induction ls0 as [|l ls IH]; cbn [flat_map]; [constructor|].
  unfold line_pairs at 1. destruct (find_char 58 l) as [[k v]|] eqn:F.
  - apply find_char_some in F as [-> F]. cbn [app]. constructor; auto; apply trims_to_iff; reflexivity.
  - apply find_char_none in F. constructor; auto.
Qed.
Lemma header_pairs_iff text ps : header_pairs text ps <-> ps = flat_map line_pairs (split_on (N.eqb 10) text).
Proof.
  unfold header_pairs. split.
  - intros (ls & NE & -> & OL & P). rewrite split_separated by assumption. apply pairs_iff, P.
  - intros ->. exists (split_on (N.eqb 10) text). destruct (separated_split 10 text) as [E OL]. repeat split.
    + apply split_on_nonempty.
    + symmetry; exact E.
    + exact OL.
    + apply pairs_iff. reflexivity.
Qed.
Lemma header_pairs_total text : exists ps, header_pairs text ps.
Proof. eexists. apply header_pairs_iff. reflexivity. Qed.
Lemma header_pairs_det text ps ps' : header_pairs text ps -> header_pairs text ps' -> ps = ps'.
Proof. rewrite !header_pairs_iff. congruence. Qed.
Lemma values_of_app k a b : values_of k (a ++ b) = values_of k a ++ values_of k b.
Proof. unfold values_of. rewrite filter_app, map_app. reflexivity. Qed.
Definition listed (m : smap (list str)) (k : str) : list str := match sm_get k m with Some l => l | None => [] end.
Lemma header_line_listed m l k : listed (header_line m l) k = listed m k ++ values_of k (line_pairs l).
Proof.
  unfold header_line, line_pairs. destruct (find_char 58 l) as [[a b]|]; [|symmetry; apply app_nil_r].
  unfold listed. rewrite sm_get_insert. unfold values_of; cbn [filter fst]. destruct (str_eqb_spec k (trim a)) as [->|D]; [reflexivity|symmetry; apply app_nil_r].
Qed.
Definition nonempty_lists (m : smap (list str)) : Prop := forall k, sm_get k m <> Some [].
Lemma header_line_nonempty m l : nonempty_lists m -> nonempty_lists (header_line m l).
Proof.
  intros H k. unfold header_line. destruct (find_char 58 l) as [[a b]|]; [|apply H]. rewrite sm_get_insert. destruct (str_eqb k (trim a)); [|apply H].
  intros [= E]. apply app_eq_nil in E as [_ E]. discriminate.
Qed.
Lemma fold_header ls : forall m k, listed (fold_left header_line ls m) k = listed m k ++ values_of k (flat_map line_pairs ls).
Proof.
  induction ls as [|l ls IH]; intros m k; cbn [fold_left flat_map]; [symmetry; apply app_nil_r|].
  rewrite IH, header_line_listed, values_of_app, app_assoc. reflexivity.
Qed.
Lemma fold_header_nonempty ls : forall m, nonempty_lists m -> nonempty_lists (fold_left header_line ls m).
Proof. induction ls as [|l ls IH]; intros m H; cbn [fold_left]; [exact H|]. apply IH, header_line_nonempty, H. Qed.
(** Keys occur once. *)
Lemma insert_keys {V} k (v : V) m : forall x, In x (map fst (sm_insert k v m)) <-> x = k \/ In x (map fst m).
Proof.
  induction m as [|[k' v'] m IH]; intros x; cbn [sm_insert map fst In].
  - intuition.
  - destruct (str_eqb_spec k k') as [->|D]; cbn [map fst In]; [intuition|]. rewrite IH. intuition.
Qed.
Lemma insert_nodup {V} k (v : V) m : NoDup (map fst m) -> NoDup (map fst (sm_insert k v m)).
Proof.
  induction m as [|[k' v'] m IH]; intros H; cbn [sm_insert map fst] in *.
  - constructor; [intros []|constructor].
  - inversion H as [|? ? N H']; subst. destruct (str_eqb_spec k k') as [->|D]; cbn [map fst]; [constructor; assumption|].
    constructor; [|apply IH, H']. rewrite insert_keys. intros [->|I]; [exact (D eq_refl)|contradiction].
Qed.
Lemma header_map_nodup text : NoDup (map fst (header_map text)).
Proof.
  unfold header_map. assert (forall ls m, NoDup (map fst m) -> NoDup (map fst (fold_left header_line ls m))) as K.
  { induction ls as [|l ls IH]; intros m H; cbn [fold_left]; [exact H|]. apply IH. unfold header_line. destruct (find_char 58 l) as [[a b]|]; [|exact H].
    apply insert_nodup, H. }
  apply K. constructor.
Qed.
Lemma sm_get_in {V} k (m : smap V) : sm_get k m = None <-> ~ In k (map fst m).
Proof.
  induction m as [|[k' v'] m IH]; cbn [sm_get map fst In]; [tauto|]. destruct (str_eqb_spec k k') as [->|D].
  - split; [discriminate|]. intros H. destruct H. left; reflexivity.
  - rewrite IH. intuition.
Qed.
Lemma extend_get m : NoDup (map fst m) -> forall props k,
  sm_get k (extend_properties props m) = match sm_get k m with Some vs => Some (join [32] vs) | None => sm_get k props end.
Proof.
  unfold extend_properties. induction m as [|[k' v'] m IH]; intros ND props k; cbn [fold_left sm_get fst snd map] in *; [reflexivity|].
  inversion ND as [|? ? N ND']; subst. rewrite IH by exact ND'. rewrite sm_get_insert. destruct (str_eqb_spec k k') as [->|D]; [|reflexivity].
  rewrite (proj2 (sm_get_in k' m)) by exact N. reflexivity.
Qed.
Lemma join_separated c vs : join [c] vs = separated c vs.
Proof. induction vs as [|v [|v' vs] IH]; [reflexivity|reflexivity|]. cbn [join separated app] in *. rewrite IH. reflexivity. Qed.
Theorem header_props_spec u ps k : header_pairs (msg_get_text (u_message u)) ps -> sm_get k (header_props u) = property ps k.
Proof.
  intros H. apply header_pairs_iff in H. unfold header_props. rewrite extend_get by apply header_map_nodup.
  unfold header_map. pose proof (fold_header (split_on (N.eqb 10) (msg_get_text (u_message u))) [] k) as L. rewrite <- H in L. cbn [listed sm_get app] in L.
  pose proof (fold_header_nonempty (split_on (N.eqb 10) (msg_get_text (u_message u))) [] ltac:(discriminate) k) as NE.
  unfold property. unfold listed in L at 1. destruct (sm_get k (fold_left _ _ _)) as [vs|].
  - subst vs. destruct (values_of k ps) as [|v vs]; [contradiction NE; reflexivity|]. rewrite join_separated. reflexivity.
  - rewrite <- L. reflexivity.
Qed.
Lemma separated_one_line vs : Forall one_line vs -> one_line (separated 32 vs).
Proof.
  induction 1 as [|v [|v' vs] H F IH]; cbn [separated]; [intros []|exact H|]. apply one_line_app. split; [exact H|].
  apply one_line_cons. split; [discriminate|exact IH].
Qed.
Lemma trim_one_line s : one_line s -> one_line (trim s).
Proof. destruct (trim_decomp s) as (w1 & w2 & E & _). intros H. rewrite E in H. apply one_line_app in H as [_ H]. apply one_line_app in H. apply H. Qed.
Lemma property_one_line text ps k v : header_pairs text ps -> property ps k = Some v -> one_line v.
Proof.
  intros (ls & _ & _ & OL & P) E. assert (Forall (fun p => one_line (snd p)) ps) as F.
  { clear E. induction P as [|l ls ps N H IH|a b a' b' ls ps N Ta Tb H IH]; [constructor|apply IH; intros x I; apply OL; right; exact I|].
    constructor; [|apply IH; intros x I; apply OL; right; exact I]. cbn [snd]. specialize (OL _ (or_introl eq_refl)).
    apply one_line_app in OL as [_ OL]. apply one_line_cons in OL as [_ OL]. apply trims_to_iff in Tb. subst. apply trim_one_line, OL. }
  assert (Forall one_line (values_of k ps)) as G.
  { unfold values_of. apply Forall_map. apply Forall_forall. intros p I. apply filter_In in I as [I _]. rewrite Forall_forall in F. apply F, I. }
  unfold property in E. destruct (values_of k ps); [discriminate|]. injection E as <-. exact (separated_one_line _ G).
Qed.
Theorem header_forms_iff pf u ps forms : header_pairs (msg_get_text (u_message u)) ps ->
  (header_forms pf (header_props u) = Ok forms <-> header_forms_of pf ps forms).
Proof.
  intros H. unfold header_forms. rewrite (header_props_spec u ps) by exact H.
  destruct (property ps (lit "Plural-Forms")) as [def|] eqn:E.
  - destruct def as [|c def]; cbn [is_empty].
    + split; [intros [= <-]; apply hf_empty, E|]. intros [|E'|def' f E' NE]; congruence.
    + pose proof (property_one_line _ _ _ _ H E) as OL. split.
      * destruct (plural_forms_parse pf (c :: def)) as [f|e|] eqn:P; [|discriminate|discriminate]. intros [= <-].
        apply forms_parse_iff in P; [|exact OL]. eapply hf_some; [exact E|discriminate|exact P].
      * intros [E'|E'|def' f E' NE F]; try congruence. rewrite E in E'. injection E' as <-. apply forms_parse_iff in F; [|exact OL]. rewrite F. reflexivity.
  - split; [intros [= <-]; apply hf_absent, E|]. intros [|E'|def' f E' NE]; congruence.
Qed.
Theorem header_language_iff lib u ps l : header_pairs (msg_get_text (u_message u)) ps ->
  (header_language lib (lang_invariant lib) (header_props u) = l <-> language_of lib ps l).
Proof.
  intros H. unfold header_language, language_of. rewrite (header_props_spec u ps) by exact H.
  destruct (property ps (lit "Language")) as [t|]; [|intuition congruence].
  destruct (lang_new lib t) as [x|]; [intuition congruence|]. destruct (lang_from_unix lib t) as [x|]; intuition congruence.
Qed.
