(** The texts have no influence on the shape of the catalogue. *)
From Coq Require Import String Arith NArith ZArith Bool List Lia.
From Verif Require Import ModelBase ModelUtf8 ModelLine ModelFormula ModelData ModelSource ModelReader
  SpecLine SpecSource SpecReader SpecBlock SpecHeader SpecFile SpecAny SpecShape BaseFacts ReaderFacts ReadsFacts BlockFacts FileFacts PieceFacts AnyFacts AnyErrors.
Import ListNotations.
Local Open Scope N_scope.

Notation llines := (Forall2 like_answer).
Inductive like_outcome {A} (R : A -> A -> Prop) : outcome A -> outcome A -> Prop :=
| lc_ok a b : R a b -> like_outcome R (Ok a) (Ok b)
| lc_err e : like_outcome R (Err e) (Err e)
| lc_panic : like_outcome R Panic Panic.
Definition like_res {A} (R : A -> A -> Prop) (m n : res A) : Prop := like_outcome R (fst m) (fst n) /\ llines (snd m) (snd n).
Lemma like_ok {A} (R : A -> A -> Prop) a b ls ms : R a b -> llines ls ms -> like_res R (Ok a, ls) (Ok b, ms).
Proof. intros H L. split; [constructor; exact H|exact L]. Qed.
Lemma like_err {A} (R : A -> A -> Prop) e ls ms : llines ls ms -> like_res R (Err e, ls) (Err e, ms).
Proof. intros L. split; [constructor|exact L]. Qed.
Lemma like_bind {A B} (R : A -> A -> Prop) (S : B -> B -> Prop) m n f g : like_res R m n ->
  (forall a b ls ms, R a b -> llines ls ms -> like_res S (f a ls) (g b ms)) -> like_res S (bind m f) (bind n g).
Proof.
  destruct m as [a ls], n as [b ms]. intros [H L] K. cbn [fst snd] in *. destruct H as [a b H|e|]; cbn [bind]; [exact (K a b ls ms H L)| |]; split; try constructor; exact L.
Qed.
Lemma like_text_refl s : like_text s s. Proof. split; auto. Qed.
Lemma like_text_app s t x y : like_text s t -> like_text x y -> like_text (s ++ x) (t ++ y).
Proof.
  unfold like_text. intros H K. destruct s, t; cbn [app]; [exact K| | |split; discriminate].
  - discriminate (proj1 H eq_refl).
  - discriminate (proj2 H eq_refl).
Qed.
Lemma like_empty s t : like_text s t -> is_empty s = is_empty t.
Proof.
  unfold like_text. intros H. destruct s, t; cbn [is_empty]; try reflexivity.
  - discriminate (proj1 H eq_refl).
  - discriminate (proj2 H eq_refl).
Qed.
Lemma like_conts p ls ms : llines ls ms -> forall s t, like_text s t -> like_res like_option (append_conts p s ls) (append_conts p t ms).
Proof.
  intros L. pose proof L as L0. revert L0. induction L as [|x y ls ms H L IH]; intros L0 s t T; [apply like_ok; [constructor; exact T|constructor]|].
  destruct H as [l m H|e|]; cbn [append_conts].
  - destruct H as [|n s0|n k s0 t0 D|n q kw s0 t0 D|n q s0 t0 D]; try (apply like_ok; [constructor; exact T|exact L0]).
    destruct (str_eqb q p); [apply IH; [exact L|apply like_text_app; assumption]|apply like_ok; [constructor; exact T|exact L0]].
  - apply like_err, L.
  - apply like_ok; [constructor; exact T|exact L].
Qed.
Lemma like_parse obs tag ls ms : llines ls ms -> like_res like_option (parse_msg obs tag ls) (parse_msg obs tag ms).
Proof.
  intros L. rewrite !parse_msg_eq. pose proof L as L0. destruct L as [|x y ls ms H L]; [apply like_ok; constructor|].
  destruct H as [l m H|e|].
  - destruct H as [|n s|n k s t D|n q kw s t D|n q s t D]; try (apply like_ok; [constructor|exact L0]).
    destruct (_ && _); [apply like_conts; assumption|apply like_ok; [constructor|exact L0]].
  - apply like_err, L.
  - apply like_ok; [constructor|exact L].
Qed.
Lemma like_expected w ls ms : llines ls ms -> like_res eq (expected w ls) (expected w ms).
Proof.
  intros L. pose proof L as L0. unfold expected, peek, next. destruct L as [|x y ls ms H L]; cbn [hd tl]; [apply like_ok; [reflexivity|exact L0]|].
  destruct H as [l m H|e|]; cbn [hd tl].
  - destruct H; try (apply like_err, L0). apply like_ok; [reflexivity|exact L0].
  - apply like_err, L.
  - apply like_ok; [reflexivity|exact L0].
Qed.
Lemma like_values obs k : forall i vs ws ls ms, Forall2 like_text vs ws -> llines ls ms -> like_res (Forall2 like_text) (parse_values obs k i vs ls) (parse_values obs k i ws ms).
Proof.
  induction k as [|k IH]; intros i vs ws ls ms V L; cbn [parse_values]; [apply like_ok; assumption|].
  eapply like_bind; [apply like_parse, L|]. intros a b ls' ms' H L'. apply IH; [|exact L']. destruct H as [|s t H]; [exact V|]. apply Forall2_app; [exact V|]. repeat constructor; apply H.
Qed.
Inductive like_opt_message : option message -> option message -> Prop :=
| lom_none : like_opt_message None None
| lom_some m n : like_message m n -> like_opt_message (Some m) (Some n).
Lemma like_default : like_message message_default message_default.
Proof. constructor; [apply like_text_refl|constructor]. Qed.
Lemma like_new_message forms obs i j p q ls ms : like_option i j -> like_option p q -> llines ls ms ->
  like_res like_opt_message (new_message forms obs i p ls) (new_message forms obs j q ms).
Proof.
  intros I P L. unfold new_message. destruct I as [|s t I]; [apply like_ok; [constructor; apply like_default|exact L]|]. destruct P as [|p q P].
  - eapply like_bind; [apply like_parse, L|]. intros a b ls' ms' H L'. destruct H as [|x y H].
    + eapply like_bind; [apply like_expected, L'|]. intros. apply like_ok; [constructor|assumption].
    + apply like_ok; [|exact L']. constructor. constructor; [exact I|]. rewrite (like_empty _ _ H). destruct (is_empty y); constructor; exact H.
  - eapply like_bind; [apply like_values; [constructor|exact L]|]. intros a b ls' ms' H L'. destruct H as [|x y vs ws H V]; cbn [is_empty].
    + eapply like_bind; [apply like_expected, L'|]. intros. apply like_ok; [constructor|assumption].
    + apply like_ok; [|exact L']. constructor. constructor; [exact I|exact P|]. constructor; assumption.
Qed.
Lemma like_previous forms i j p q : like_option i j -> like_option p q -> like_message (new_previous forms i p) (new_previous forms j q).
Proof.
  intros I P. unfold new_previous. destruct I as [|s t I]; [apply like_default|]. destruct P as [|p q P]; constructor; try assumption; constructor.
Qed.
Inductive like_opt_unit : option unit_ -> option unit_ -> Prop :=
| lou_none : like_opt_unit None None
| lou_some u v : like_unit u v -> like_opt_unit (Some u) (Some v).
Lemma like_set u v pc pd pm pn c d m n : like_unit u v -> like_option pc pd -> like_message pm pn -> like_option c d -> like_message m n ->
  like_unit (set_message u pc pm c m) (set_message v pd pn d n).
Proof. intros []; intros; constructor; cbn; assumption. Qed.
Lemma like_fields forms first u v ls ms : like_unit u v -> llines ls ms -> like_res like_opt_unit (parse_message_fields forms first u ls) (parse_message_fields forms first v ms).
Proof.
  intros U L. unfold parse_message_fields. rewrite <- (lu_obsolete _ _ U).
  eapply like_bind; [apply like_parse, L|]. intros pc pd l1 m1 H1 L1.
  eapply like_bind; [apply like_parse, L1|]. intros pi pj l2 m2 H2 L2.
  eapply like_bind with (R := like_option).
  { destruct H2; [apply like_ok; [constructor|exact L2]|apply like_parse, L2]. }
  intros pp pq l3 m3 H3 L3.
  eapply like_bind; [apply like_parse, L3|]. intros c d l4 m4 H4 L4.
  eapply like_bind; [apply like_parse, L4|]. intros i j l5 m5 H5 L5.
  replace (match j with Some _ => false | None => true end) with (match i with Some _ => false | None => true end) by (destruct H5; reflexivity).
  destruct (negb first && _).
  - eapply like_bind; [apply like_expected, L5|]. intros. apply like_ok; [constructor|assumption].
  - eapply like_bind; [apply like_parse, L5|]. intros p q l6 m6 H6 L6.
    eapply like_bind; [apply like_new_message; [exact H5|exact H6|exact L6]|]. intros a b l7 m7 H7 L7. destruct H7 as [|m n H7]; (apply like_ok; [|exact L7]); constructor.
    apply like_set; try assumption. apply like_previous; assumption.
Qed.
Lemma like_flag u v f : like_unit u v -> like_unit (add_flag u f) (add_flag v f).
Proof. intros []; constructor; cbn; try assumption; [congruence|]. destruct (str_eqb _ _); [reflexivity|assumption]. Qed.
Lemma like_flag_list fs : forall u v, like_unit u v -> like_unit (fold_left add_flag fs u) (fold_left add_flag fs v).
Proof. induction fs as [|f fs IH]; intros u v U; cbn [fold_left]; [exact U|]. apply IH, like_flag, U. Qed.
Lemma like_comment u v k s t : k <> 44 -> like_unit u v -> like_unit (apply_comment u k s) (apply_comment v k t).
Proof.
  intros D []. unfold apply_comment. destruct (N.eqb_spec k 44); [contradiction|]. destruct (N.eqb k 58); [|destruct (N.eqb k 46); [|destruct (N.eqb k 32)]];
    constructor; cbn; rewrite ?map_app; cbn [map note_origin com_kind]; congruence || assumption.
Qed.
Lemma like_comments ls ms : llines ls ms -> forall u v, like_unit u v -> like_res like_unit (parse_comments u ls) (parse_comments v ms).
Proof.
  intros L. pose proof L as L0. revert L0. induction L as [|x y ls ms H L IH]; intros L0 u v U; cbn [parse_comments]; [apply like_ok; assumption|].
  destruct H as [l m H|e|].
  - destruct H as [|n s|n k s t D|n q kw s t D|n q s t D]; try (apply like_ok; assumption).
    + apply IH; [exact L|]. unfold apply_comment. cbn [N.eqb Pos.eqb]. apply like_flag_list, U.
    + apply IH; [exact L|]. apply like_comment; assumption.
  - apply like_err, L.
  - apply like_ok; assumption.
Qed.
Lemma like_message_empty m n : like_message m n -> msg_is_empty m = msg_is_empty n.
Proof. intros []; [apply like_empty; assumption|reflexivity]. Qed.
Lemma like_message_blank m n : like_message m n -> msg_is_blank m = msg_is_blank n.
Proof.
  intros [s t x y _ O|f s t p q vs ws _ _ V]; cbn [msg_is_blank].
  - destruct O; [reflexivity|apply like_empty; assumption].
  - unfold plural_is_blank. cbn [pl_values]. induction V as [|v w vs ws H V IH]; cbn [forallb]; [reflexivity|]. rewrite IH, (like_empty _ _ H). reflexivity.
Qed.
Lemma like_finalize u v : like_unit u v -> like_unit (finalize_state u) (finalize_state v).
Proof.
  intros U. unfold finalize_state. rewrite <- (lu_state _ _ U), <- (like_message_blank _ _ (lu_message _ _ U)).
  destruct (u_state u) eqn:E; try exact U. destruct (msg_is_blank (u_message u)); [exact U|]. destruct U; constructor; cbn; try assumption. reflexivity.
Qed.
Lemma like_line_no l m : like_line l m -> po_line_no l = po_line_no m. Proof. intros []; reflexivity. Qed.
Lemma like_line_obsolete l m : like_line l m -> line_obsolete l = line_obsolete m. Proof. intros []; reflexivity. Qed.
Theorem like_runit forms first ls ms : llines ls ms -> like_res like_opt_unit (runit forms first ls) (runit forms first ms).
Proof.
  intros L. unfold runit. eapply like_bind; [apply like_comments; [exact L|]|].
  { constructor; try reflexivity; try constructor; try constructor; try apply like_text_refl. }
  intros u v l1 m1 U L1. pose proof L1 as L2. destruct L1 as [|x y l1 m1 H L1]; cbn [peek hd]; [apply like_ok; [constructor|exact L2]|].
  destruct H as [l m H|e|]; cbn [peek hd]; try (apply like_ok; [constructor|exact L2]).
  rewrite (like_line_no _ _ H), (like_line_obsolete _ _ H). eapply like_bind; [apply like_fields; [|exact L2]|].
  { destruct U; constructor; cbn; try assumption. reflexivity. }
  intros a b l3 m3 O L3. destruct O as [|a b O]; cbn [finish_unit]; [apply like_ok; [constructor|exact L3]|].
  rewrite (like_message_empty _ _ (lu_message _ _ O)). destruct (negb first && _); [apply like_err, L3|]. apply like_ok; [|exact L3]. constructor. apply like_finalize, O.
Qed.
Theorem like_reads forms ls l : reads forms ls l -> forall ms, llines ls ms -> exists m, reads forms ms m /\ Forall2 like_item l m.
Proof.
  induction 1 as [ls ls' E|ls e ls' E|ls u ls' l E H IH]; intros ms L; pose proof (like_runit forms false _ _ L) as K; rewrite E in K;
    destruct (runit forms false ms) as [o ms'] eqn:E'; destruct K as [K K']; cbn [fst snd] in K, K'.
  - inversion K as [a b O| |]; subst. inversion O; subst. exists []. split; [eapply reads_end; eassumption|constructor].
  - inversion K; subst. exists [UErr e]. split; [eapply reads_err; eassumption|repeat constructor].
  - inversion K as [a b O| |]; subst. inversion O as [|u' v U]; subst. destruct (IH _ K') as (m & R & F). exists (UOk v :: m). split; [eapply reads_unit; eassumption|]. constructor; [constructor; exact U|exact F].
Qed.

Lemma header_forms_same pf p q : sm_get (lit "Plural-Forms") p = sm_get (lit "Plural-Forms") q -> header_forms pf p = header_forms pf q.
Proof. intros E. unfold header_forms. rewrite E. reflexivity. Qed.
Lemma header_forms_error pf p e : header_forms pf p = Err e -> ~ iteration_error e.
Proof.
  unfold header_forms. destruct (sm_get _ _) as [def|]; [|discriminate]. destruct (is_empty def); [discriminate|]. destruct (plural_forms_parse pf def) as [f|x|] eqn:E; try discriminate.
  intros [= <-] I. unfold plural_forms_parse in E. destruct (parse_map def); [|injection E as <-; inversion I; lia]. destruct (formula_parse _); [|injection E as <-; inversion I].
  destruct (sm_get _ _); [|discriminate]. destruct (parse_unsigned _ _); [discriminate|]. injection E as <-. inversion I.
Qed.

Definition like_results (o : outcome catalogue) (o' : outcome catalogue) : Prop :=
  match o with
  | Ok c => (exists d, o' = Ok d /\ like_catalogue c d) \/ (exists x, o' = Err x /\ ~ iteration_error x)
  | Err x => iteration_error x -> o' = Err x
  | Panic => False
  end.
Theorem shape_lines lib pf ls ms o o' : llines ls ms -> catalogue_of lib pf ls o -> catalogue_of lib pf ms o' -> like_results o o'.
Proof.
  intros L C C'. assert (forall p, catalogue_of lib pf ms p -> o' = p) as K by (intros p H; exact (catalogue_of_det _ _ _ _ _ C' H)).
  pose proof (like_runit None true _ _ L) as U. destruct (runit None true ms) as [a ms'] eqn:E'.
  destruct C as [e ls' E|ls' E|u ls' l E M C|u ls' e E M HF|u ls' forms l E M HF C]; rewrite E in U; destruct U as [U U']; cbn [fst snd like_results] in U, U' |- *.
  - intros _. inversion U; subst. apply K. eapply co_err; eassumption.
  - inversion U as [? b O| |]; subst. inversion O; subst. left. eexists. split; [apply K; eapply co_empty; eassumption|]. repeat split. constructor.
  - inversion U as [? b O| |]; subst. inversion O as [|u' v V]; subst. destruct (like_reads _ _ _ C _ U') as (m & R' & F).
    left. eexists. split; [apply K; eapply co_plain; [eassumption| |exact R']; rewrite <- (like_message_empty _ _ (lu_message _ _ V)); exact M|]. repeat split. intros _. cbn [c_items]. constructor; [constructor; exact V|exact F].
  - intros I. exfalso. exact (header_forms_error _ _ _ HF I).
  - inversion U as [? b O| |]; subst. inversion O as [|u' v V]; subst. rewrite (like_message_empty _ _ (lu_message _ _ V)) in M.
    destruct (header_forms pf (header_props v)) as [forms'|x|] eqn:HF'; [| |exfalso; exact (header_forms_no_panic _ _ HF')].
    + left. destruct (reads_total forms' ms') as (m & R' & _). eexists. split; [apply K; eapply co_header; eassumption|]. split; [exact (lu_notes _ _ V)|]. split; [exact (lu_comments _ _ V)|].
      cbn [c_properties c_items]. intros Es. rewrite (header_forms_same pf _ _ Es), HF' in HF. injection HF as ->. destruct (like_reads _ _ _ C _ U') as (m' & R2 & F). rewrite (reads_det _ _ _ _ R' R2). exact F.
    + right. exists x. split; [apply K; eapply co_bad_header; eassumption|]. exact (header_forms_error _ _ _ HF').
Qed.
Lemma any_results lib pf evs bs f rs evs' bs' f' rs' : pieces evs bs f -> answers 1 bs f rs -> pieces evs' bs' f' -> answers 1 bs' f' rs' -> llines rs rs' ->
  like_results (read_catalogue lib pf evs) (read_catalogue lib pf evs').
Proof. intros P A P' A' L. eapply shape_lines; [exact L|apply (any_catalogue lib pf _ _ _ _ _ P A)|apply (any_catalogue lib pf _ _ _ _ _ P' A')]; reflexivity. Qed.
Lemma file_results lib pf evs ls e pl evs' ls' e' pl' tl : file evs ls e pl tl -> file evs' ls' e' pl' tl -> Forall2 like_line pl pl' ->
  like_results (read_catalogue lib pf evs) (read_catalogue lib pf evs').
Proof.
  intros (bs & f & D & C & P) (bs' & f' & D' & C' & P') L.
  apply (shape_lines lib pf (listing pl tl) (listing pl' tl)); [|apply (file_catalogue lib pf evs bs f ls e pl tl _ D C P); reflexivity|apply (file_catalogue lib pf evs' bs' f' ls' e' pl' tl _ D' C' P'); reflexivity].
  unfold listing. apply Forall2_app; [|destruct tl; repeat constructor]. clear - L. induction L; constructor; [constructor; assumption|assumption].
Qed.
Theorem shape_ok lib pf evs bs f rs evs' bs' f' rs' c : pieces evs bs f -> answers 1 bs f rs -> pieces evs' bs' f' -> answers 1 bs' f' rs' -> llines rs rs' ->
  read_catalogue lib pf evs = Ok c ->
  (exists d, read_catalogue lib pf evs' = Ok d /\ like_catalogue c d) \/ (exists x, read_catalogue lib pf evs' = Err x /\ ~ iteration_error x).
Proof. intros P A P' A' L R. pose proof (any_results lib pf _ _ _ _ _ _ _ _ P A P' A' L) as H. rewrite R in H. exact H. Qed.
Theorem shape_error lib pf evs bs f rs evs' bs' f' rs' x : pieces evs bs f -> answers 1 bs f rs -> pieces evs' bs' f' -> answers 1 bs' f' rs' -> llines rs rs' ->
  iteration_error x -> (read_catalogue lib pf evs = Err x <-> read_catalogue lib pf evs' = Err x).
Proof.
  intros P A P' A' L I. assert (llines rs' rs) as L'.
  { clear - L. induction L as [|x y l m H L IH]; constructor; [|exact IH]. destruct H as [a b H|e|]; constructor. destruct H; constructor; try assumption; apply iff_sym; assumption. }
  split; intros R.
  - pose proof (any_results lib pf _ _ _ _ _ _ _ _ P A P' A' L) as H. rewrite R in H. exact (H I).
  - pose proof (any_results lib pf _ _ _ _ _ _ _ _ P' A' P A L') as H. rewrite R in H. exact (H I).
Qed.
Theorem shape_file lib pf evs ls e pl evs' ls' e' pl' tl c : file evs ls e pl tl -> file evs' ls' e' pl' tl -> Forall2 like_line pl pl' -> read_catalogue lib pf evs = Ok c ->
  (exists d, read_catalogue lib pf evs' = Ok d /\ like_catalogue c d) \/ (exists x, read_catalogue lib pf evs' = Err x /\ ~ iteration_error x).
Proof. intros F F' L R. pose proof (file_results lib pf _ _ _ _ _ _ _ _ _ F F' L) as H. rewrite R in H. exact H. Qed.
(** Units of the same shape are translated or not, and have texts for the same counts. *)
Theorem like_translated u v : like_unit u v -> unit_is_translated u = unit_is_translated v.
Proof. intros U. unfold unit_is_translated. rewrite (lu_state _ _ U). reflexivity. Qed.
Theorem like_lookup pf u v n : like_unit u v ->
  match msg_get_plural_text pf (u_message u) n, msg_get_plural_text pf (u_message v) n with
  | None, None => True
  | Some x, Some y => like_option x y
  | _, _ => False
  end.
Proof.
  intros U. destruct (lu_message _ _ U) as [s t x y _ O|f s t p q vs ws _ _ V]; cbn [msg_get_plural_text]; [exact O|].
  unfold plural_get. cbn [pl_forms pl_values]. destruct f as [f|]; [|constructor]. destruct (forms_get_value pf f n) as [[i|]|]; [|constructor|exact Logic.I].
  revert V. generalize (N.to_nat i). intros k V. revert k. induction V as [|v0 w0 vs ws H V IH]; intros [|k]; cbn [nth_error]; try constructor; [exact H|apply IH].
Qed.
