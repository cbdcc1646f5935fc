(** Entries give the same unit exactly if they have the same content. *)
From Coq Require Import String Arith NArith ZArith Bool List Lia.
From Verif Require Import ModelBase ModelUtf8 ModelLine ModelFormula ModelData ModelSource ModelReader
  SpecLine SpecFormula SpecSource SpecReader SpecBlock SpecHeader SpecFile SpecAny SpecContent BaseFacts LineFacts CommentFacts
  BlockFacts UnitFacts BlocksFacts FileFacts BlockThms EntryThms JoinFacts SectionsFacts AnyFacts AnyParts.
Import ListNotations.
Local Open Scope N_scope.

(** * Strings *)
(** Nothing, or a keyword line first. *)
Definition led (r : list po_line) : Prop := match r with [] | PMessage _ _ _ _ :: _ => True | _ => False end.
Lemma strings_text p a t : strings p a t -> forall r, led r -> continued_text p (a ++ r) = t /\ entry_fields (a ++ r) = entry_fields r.
Proof.
  induction 1 as [|n s a t S IH]; intros r L; cbn [app].
  - split; [|reflexivity]. destruct r as [|[]]; try contradiction; reflexivity.
  - destruct (IH r L) as [E1 E2]. cbn [continued_text entry_fields]. rewrite str_eqb_refl, E1. auto.
Qed.
Lemma field_fields p kw a s r : field p kw a s -> led r -> entry_fields (a ++ r) = (p, reported_tag p kw, s) :: entry_fields r /\ led (a ++ r).
Proof.
  intros [n x ls t S] L. destruct (strings_text _ _ _ S r L) as [E1 E2]. cbn [app entry_fields led]. rewrite E1, E2. auto.
Qed.
Definition told (fs : list (str * str * str)) : list (str * str * str) := map (fun f => let '(p, t, s) := f in (p, numberless t, s)) (filter telling fs).
Lemma told_app a b : told (a ++ b) = told a ++ told b.
Proof. unfold told. rewrite filter_app, map_app. reflexivity. Qed.
Definition opt_strings (p t : str) (o : option str) : list (str * str * str) := match o with Some s => [(p, t, s)] | None => [] end.
Lemma opt_field_fields p kw a o r : opt_field p kw a o -> led r -> entry_fields (a ++ r) = opt_strings p (reported_tag p kw) o ++ entry_fields r /\ led (a ++ r).
Proof. intros [|ls s F] L; [auto|]. apply field_fields; assumption. Qed.
Lemma form_tag obs kw i : msgstr_kw i kw -> numberless (reported_tag (own obs) kw) = lit "msgstr[" /\ str_eqb (reported_tag (own obs) kw) (lit "|msgid") = false.
Proof. intros (ds & _ & ->). destruct obs; split; reflexivity. Qed.
Lemma values_fields obs count i a vs r : values (own obs) count i a vs -> led r ->
  told (entry_fields (a ++ r)) = map (fun v => (own obs, lit "msgstr[", v)) vs ++ told (entry_fields r) /\ led (a ++ r).
Proof.
  intros V L. induction V as [i|i k kw ls s ls' vs I K M F V [IH IL]]; [auto|]. rewrite <- app_assoc.
  destruct (field_fields _ _ _ _ _ F IL) as [E E']. split; [|exact E']. rewrite E. destruct (form_tag obs _ _ M) as [T1 T2].
  unfold told in *. cbn [filter telling]. rewrite T2. cbn [andb negb map app]. rewrite T1, IH. reflexivity.
Qed.
(** The strings of a unit. *)
Definition message_strings (o : str) (m : message) : list (str * str * str) :=
  match m with
  | MSimple id t => [(o, lit "msgid", id); (o, lit "msgstr", opt_str t)]
  | MPlural q => (o, lit "msgid", pl_singular q) :: (o, lit "msgid_plural", pl_plural q) :: map (fun v => (o, lit "msgstr[", v)) (pl_values q)
  end.
Definition previous_strings (p : str) (m : message) : list (str * str * str) :=
  match m with
  | MSimple id _ => match id with [] => [] | _ => [(p, lit "|msgid", id)] end
  | MPlural q => match pl_singular q with [] => [] | s => [(p, lit "|msgid", s)] end ++ [(p, lit "|msgid_plural", pl_plural q)]
  end.
Definition unit_strings (u : unit_) : list (str * str * str) :=
  opt_strings (prev (u_obsolete u)) (lit "|msgctxt") (u_prev_context u) ++ previous_strings (prev (u_obsolete u)) (u_prev_message u)
  ++ opt_strings (own (u_obsolete u)) (lit "msgctxt") (u_context u) ++ message_strings (own (u_obsolete u)) (u_message u).
Lemma opt_some_text t : opt_str (some_text t) = t.
Proof. destruct t; reflexivity. Qed.
Lemma body_strings forms obs a m : body forms obs a m -> told (entry_fields a) = message_strings (own obs) m /\ led a.
Proof.
  intros [l1 id l2 t F1 F2|l1 id l2 pl l3 vs F1 F2 V NE].
  - destruct (field_fields _ _ _ _ [] F2 Logic.I) as [E2 L2]. rewrite app_nil_r in E2, L2. destruct (field_fields _ _ _ _ _ F1 L2) as [E1 L1]. rewrite E1, E2.
    split; [|exact L1]. cbn [message_strings]. rewrite opt_some_text. destruct obs; reflexivity.
  - destruct (values_fields _ _ _ _ _ [] V Logic.I) as [E3 L3]. rewrite app_nil_r in E3, L3. destruct (field_fields _ _ _ _ _ F2 L3) as [E2 L2].
    destruct (field_fields _ _ _ _ _ F1 L2) as [E1 L1]. split; [|exact L1]. rewrite E1, E2.
    change (told ([(own obs, reported_tag (own obs) (lit "msgid"), id); (own obs, reported_tag (own obs) (lit "msgid_plural"), pl)] ++ entry_fields l3) = message_strings (own obs) (MPlural (Plural forms id pl vs))).
    rewrite told_app, E3. cbn [message_strings pl_singular pl_plural pl_values app]. change (told (entry_fields [])) with (@nil (str * str * str)). rewrite app_nil_r. destruct obs; reflexivity.
Qed.
Lemma previous_told forms obs a m r : previous forms obs a m -> led r -> told (entry_fields (a ++ r)) = previous_strings (prev obs) m ++ told (entry_fields r) /\ led (a ++ r).
Proof.
  intros [|l id F|l1 id l2 pl F1 F2] L.
  - auto.
  - destruct (field_fields _ _ _ _ _ F L) as [E E']. split; [|exact E']. rewrite E. destruct obs, id; reflexivity.
  - rewrite <- app_assoc. destruct (field_fields _ _ _ _ _ F2 L) as [E2 L2]. destruct (field_fields _ _ _ _ _ F1 L2) as [E1 L1]. split; [|exact L1]. rewrite E1, E2.
    destruct obs, id; reflexivity.
Qed.
Lemma comments_fields cs F N L C r : block_comments cs F N L C -> entry_fields (cs ++ r) = entry_fields r.
Proof. induction 1; cbn [app entry_fields]; auto. Qed.
Theorem entry_told forms b u : entry forms b u -> entry_strings b = unit_strings u.
Proof.
  intros [cs F N L C obs ks pc pm c m st B K St]. change (entry_strings (cs ++ ks)) with (told (entry_fields (cs ++ ks))). rewrite (comments_fields _ _ _ _ _ _ B).
  destruct K as [l1 pc l2 pm l3 c l4 m K1 K2 K3 K4]. destruct (body_strings _ _ _ _ K4) as [E4 L4].
  destruct (opt_field_fields _ _ _ _ _ K3 L4) as [E3 L3]. destruct (previous_told _ _ _ _ _ K2 L3) as [E2 L2]. destruct (opt_field_fields _ _ _ _ _ K1 L2) as [E1 L1].
  rewrite E1, told_app, E2, E3, told_app, E4. unfold unit_strings. cbn [u_obsolete u_prev_context u_prev_message u_context u_message].
  f_equal; [destruct pc, obs; reflexivity|]. f_equal. f_equal. destruct c, obs; reflexivity.
Qed.

(** ** The strings determine the unit *)
Definition tagged (t : str) (f : str * str * str) : bool := str_eqb t (snd (fst f)).
Definition picked (t : str) (fs : list (str * str * str)) : list str := map snd (filter (tagged t) fs).
Lemma picked_app t a b : picked t (a ++ b) = picked t a ++ picked t b.
Proof. unfold picked. rewrite filter_app, map_app. reflexivity. Qed.
Lemma picked_forms t o vs : picked t (map (fun v => (o, lit "msgstr[", v)) vs) = if str_eqb t (lit "msgstr[") then vs else [].
Proof.
  induction vs as [|v vs IH]; [destruct (str_eqb t (lit "msgstr[")); reflexivity|].
  change (map (fun v => (o, lit "msgstr[", v)) (v :: vs)) with ([(o, lit "msgstr[", v)] ++ map (fun v => (o, lit "msgstr[", v)) vs).
  rewrite picked_app. rewrite IH. unfold picked, tagged. cbn [filter fst snd]. destruct (str_eqb t (lit "msgstr[")); reflexivity.
Qed.
Lemma picked_opt t p t' o : picked t (opt_strings p t' o) = if str_eqb t t' then match o with Some s => [s] | None => [] end else [].
Proof. destruct o; unfold picked; cbn; unfold tagged; cbn [fst snd]; destruct (str_eqb t t'); reflexivity. Qed.
Lemma picked_message t o m : picked t (message_strings o m) =
  match m with
  | MSimple id tx => (if str_eqb t (lit "msgid") then [id] else []) ++ (if str_eqb t (lit "msgstr") then [opt_str tx] else [])
  | MPlural q => (if str_eqb t (lit "msgid") then [pl_singular q] else []) ++ (if str_eqb t (lit "msgid_plural") then [pl_plural q] else [])
                 ++ (if str_eqb t (lit "msgstr[") then pl_values q else [])
  end.
Proof.
  destruct m as [id tx|q]; cbn [message_strings].
  - unfold picked, tagged. cbn [filter fst snd]. destruct (str_eqb t (lit "msgid")), (str_eqb t (lit "msgstr")); reflexivity.
  - change (picked t ([(o, lit "msgid", pl_singular q)] ++ [(o, lit "msgid_plural", pl_plural q)] ++ map (fun v => (o, lit "msgstr[", v)) (pl_values q)) = 
      (if str_eqb t (lit "msgid") then [pl_singular q] else []) ++ (if str_eqb t (lit "msgid_plural") then [pl_plural q] else []) ++ (if str_eqb t (lit "msgstr[") then pl_values q else [])).
    rewrite !picked_app, picked_forms. f_equal; [unfold picked, tagged; cbn [filter fst snd]; destruct (str_eqb t (lit "msgid")); reflexivity|].
    f_equal. unfold picked, tagged; cbn [filter fst snd]; destruct (str_eqb t (lit "msgid_plural")); reflexivity.
Qed.
Definition nonempty_one (s : str) : list str := match s with [] => [] | _ => [s] end.
Lemma picked_previous t p m : picked t (previous_strings p m) =
  match m with
  | MSimple id _ => if str_eqb t (lit "|msgid") then nonempty_one id else []
  | MPlural q => (if str_eqb t (lit "|msgid") then nonempty_one (pl_singular q) else []) ++ (if str_eqb t (lit "|msgid_plural") then [pl_plural q] else [])
  end.
Proof.
  destruct m as [[|x id] tx|q]; cbn [previous_strings].
  - destruct (str_eqb _ _); reflexivity.
  - unfold picked, tagged. cbn [filter fst snd]. destruct (str_eqb t (lit "|msgid")); reflexivity.
  - rewrite picked_app. f_equal; [destruct (pl_singular q); unfold picked, tagged; cbn [filter fst snd]; destruct (str_eqb t (lit "|msgid")); reflexivity|].
    unfold picked, tagged; cbn [filter fst snd]; destruct (str_eqb t (lit "|msgid_plural")); reflexivity.
Qed.
Lemma nonempty_one_inj a b : nonempty_one a = nonempty_one b -> a = b.
Proof. destruct a, b; cbn; congruence. Qed.
Lemma picked_unit t u : picked t (unit_strings u) = picked t (opt_strings (prev (u_obsolete u)) (lit "|msgctxt") (u_prev_context u))
  ++ picked t (previous_strings (prev (u_obsolete u)) (u_prev_message u)) ++ picked t (opt_strings (own (u_obsolete u)) (lit "msgctxt") (u_context u))
  ++ picked t (message_strings (own (u_obsolete u)) (u_message u)).
Proof. unfold unit_strings. rewrite !picked_app. reflexivity. Qed.
(** The messages that entries have. *)
Definition own_shape (forms : option plural_forms) (m : message) : Prop :=
  (exists id t, m = MSimple id (some_text t)) \/ (exists id pl vs, vs <> [] /\ m = MPlural (Plural forms id pl vs)).
Definition prev_shape (forms : option plural_forms) (m : message) : Prop :=
  (exists id, m = MSimple id None) \/ (exists id pl, m = MPlural (Plural forms id pl [])).
Lemma entry_shapes forms b u : entry forms b u -> own_shape forms (u_message u) /\ prev_shape forms (u_prev_message u).
Proof.
  intros [cs F N L C obs ks pc pm c m st B K St]. destruct K as [l1 pc l2 pm l3 c l4 m K1 K2 K3 K4]. cbn [u_message u_prev_message]. split.
  - destruct K4; [left|right]; eauto 10.
  - destruct K2; [left|left|right]; eauto.
Qed.
Lemma last_marker o m : exists t s fs, message_strings o m = fs ++ [(o, t, s)].
Proof.
  destruct m as [id tx|q]; cbn [message_strings].
  - exists (lit "msgstr"), (opt_str tx), [(o, lit "msgid", id)]. reflexivity.
  - destruct (pl_values q) as [|v vs] using rev_ind.
    + exists (lit "msgid_plural"), (pl_plural q), [(o, lit "msgid", pl_singular q)]. reflexivity.
    + rewrite map_app. exists (lit "msgstr["), v, ((o, lit "msgid", pl_singular q) :: (o, lit "msgid_plural", pl_plural q) :: map (fun v => (o, lit "msgstr[", v)) vs). reflexivity.
Qed.
Theorem strings_unit forms u u' : own_shape forms (u_message u) -> prev_shape forms (u_prev_message u) -> own_shape forms (u_message u') -> prev_shape forms (u_prev_message u') ->
  unit_strings u = unit_strings u' ->
  u_context u = u_context u' /\ u_message u = u_message u' /\ u_prev_context u = u_prev_context u' /\ u_prev_message u = u_prev_message u' /\ u_obsolete u = u_obsolete u'.
Proof.
  intros O P O' P' E.
  assert (forall t, picked t (unit_strings u) = picked t (unit_strings u')) as K by (intros t; rewrite E; reflexivity).
  split; [|split; [|split; [|split]]].
  - specialize (K (lit "msgctxt")). rewrite !picked_unit, !picked_opt, !picked_previous, !picked_message in K.
    destruct (u_context u), (u_context u'), (u_prev_message u), (u_prev_message u'), (u_message u), (u_message u'); cbn in K; try reflexivity; try discriminate; injection K as ->; reflexivity.
  - pose proof (K (lit "msgid")) as K1. pose proof (K (lit "msgid_plural")) as K2. pose proof (K (lit "msgstr")) as K3. pose proof (K (lit "msgstr[")) as K4.
    rewrite !picked_unit, !picked_opt, !picked_previous, !picked_message in K1, K2, K3, K4.
    destruct O as [(id & tx & M)|(id & pl & vs & NE & M)], O' as [(id' & tx' & M')|(id' & pl' & vs' & NE' & M')]; rewrite M, M' in *;
      destruct (u_prev_message u), (u_prev_message u'); cbn in K1, K2, K3, K4; try discriminate.
    all: try (injection K1 as ->; injection K3 as K3; rewrite !opt_some_text in K3; rewrite K3; reflexivity).
    all: injection K1 as ->; injection K2 as ->; rewrite K4; reflexivity.
  - specialize (K (lit "|msgctxt")). rewrite !picked_unit, !picked_opt, !picked_previous, !picked_message in K.
    destruct (u_prev_context u), (u_prev_context u'), (u_prev_message u), (u_prev_message u'), (u_message u), (u_message u'); cbn in K; try reflexivity; try discriminate; injection K as ->; reflexivity.
  - pose proof (K (lit "|msgid")) as K1. pose proof (K (lit "|msgid_plural")) as K2. rewrite !picked_unit, !picked_opt, !picked_previous, !picked_message in K1, K2.
    destruct P as [(id & M)|(id & pl & M)], P' as [(id' & M')|(id' & pl' & M')]; rewrite M, M' in *; destruct (u_message u), (u_message u'); cbn in K1, K2; try discriminate.
    all: rewrite ?app_nil_r in K1; apply nonempty_one_inj in K1; subst; try reflexivity; injection K2 as ->; reflexivity.
  - destruct (last_marker (own (u_obsolete u)) (u_message u)) as (t & s & fs & L). destruct (last_marker (own (u_obsolete u')) (u_message u')) as (t' & s' & fs' & L').
    unfold unit_strings in E. rewrite L, L', !app_assoc in E. apply app_inj_tail in E as [_ E]. injection E as E _ _. destruct (u_obsolete u), (u_obsolete u'); try reflexivity; discriminate.
Qed.

(** * Comments *)
Definition note_pair (n : note) : N * str := match n with Note Developer s => (46, s) | Note Translator s => (32, s) end.
Lemma note_pair_inj a b : map note_pair a = map note_pair b -> a = b.
Proof.
  revert b. induction a as [|[[] s] a IH]; intros [|[[] s'] b] H; try discriminate; try reflexivity; cbn in H; injection H as -> H; f_equal; apply IH, H.
Qed.
Definition comment_pair (c : comment) : N * str := (com_kind c, com_content c).
Lemma comment_pair_inj a b : map comment_pair a = map comment_pair b -> a = b.
Proof. revert b. induction a as [|[k s] a IH]; intros [|[k' s'] b] H; try discriminate; try reflexivity. cbn in H. injection H as -> -> H. f_equal. apply IH, H. Qed.
Lemma other_kind_iff k : other_kind k = true <-> ~ In k [44; 58; 46; 32].
Proof.
  unfold other_kind, note_kind. rewrite negb_true_iff, !orb_false_iff, !N.eqb_neq. cbn. intuition congruence.
Qed.
Lemma texts_cons f n k s ls : texts_of f (PComment n k s :: ls) = (if f k then [(k, s)] else []) ++ texts_of f ls.
Proof. reflexivity. Qed.
Lemma comments_content cs F N L C : block_comments cs F N L C ->
  texts_of note_kind cs = map note_pair N /\ texts_of other_kind cs = map comment_pair C /\ all_words cs L /\ all_flags cs F.
Proof.
  induction 1 as [|n s fs ls F N L C Hf B (I1 & I2 & (wss & W & ->) & (fss & G & ->))|n s ws ls F N L C Hw B (I1 & I2 & (wss & W & ->) & (fss & G & ->))
    |n s ls F N L C B (I1 & I2 & (wss & W & ->) & (fss & G & ->))|n s ls F N L C B (I1 & I2 & (wss & W & ->) & (fss & G & ->))
    |n k s ls F N L C Hk B (I1 & I2 & (wss & W & ->) & (fss & G & ->))].
  - split; [reflexivity|]. split; [reflexivity|]. split; exists []; split; constructor.
  - unfold all_words, all_flags. rewrite !texts_cons, I1, I2. split; [reflexivity|]. split; [reflexivity|]. split; [exists wss; auto|exists (fs :: fss); split; [constructor; assumption|reflexivity]].
  - unfold all_words, all_flags. rewrite !texts_cons, I1, I2. split; [reflexivity|]. split; [reflexivity|]. split; [exists (ws :: wss); split; [constructor; assumption|reflexivity]|exists fss; auto].
  - unfold all_words, all_flags. rewrite !texts_cons, I1, I2. split; [reflexivity|]. split; [reflexivity|]. split; [exists wss; auto|exists fss; auto].
  - unfold all_words, all_flags. rewrite !texts_cons, I1, I2. split; [reflexivity|]. split; [reflexivity|]. split; [exists wss; auto|exists fss; auto].
  - assert (Ho := proj2 (other_kind_iff k) Hk). unfold all_words, all_flags. rewrite !texts_cons, I1, I2, Ho.
    assert (note_kind k = false) as Hn by (unfold note_kind; apply orb_false_iff; rewrite !N.eqb_neq; cbn in Hk; intuition congruence).
    assert (58 =? k = false) as H58 by (apply N.eqb_neq; cbn in Hk; intuition congruence). assert (44 =? k = false) as H44 by (apply N.eqb_neq; cbn in Hk; intuition congruence).
    rewrite Hn, H58, H44. split; [reflexivity|]. split; [reflexivity|]. split; [exists wss; auto|exists fss; auto].
Qed.
Lemma texts_app f a b : texts_of f (a ++ b) = texts_of f a ++ texts_of f b.
Proof. apply flat_map_app. Qed.
Lemma strings_texts f p a t : strings p a t -> texts_of f a = [].
Proof. induction 1; [reflexivity|assumption]. Qed.
Lemma field_texts f p kw a t : field p kw a t -> texts_of f a = [].
Proof. intros [n s ls x S]. exact (strings_texts f _ _ _ S). Qed.
Lemma opt_texts f p kw a o : opt_field p kw a o -> texts_of f a = [].
Proof. intros [|ls s F]; [reflexivity|]. exact (field_texts f _ _ _ _ F). Qed.
Lemma values_texts f p count i a vs : values p count i a vs -> texts_of f a = [].
Proof. induction 1 as [|i k kw ls s ls' vs I K M F V IH]; [reflexivity|]. rewrite texts_app, (field_texts f _ _ _ _ F). exact IH. Qed.
Lemma keywords_texts f forms obs ks pc pm c m : keywords forms obs ks pc pm c m -> texts_of f ks = [].
Proof.
  intros [l1 pc' l2 pm' l3 c' l4 m' K1 K2 K3 K4]. rewrite !texts_app, (opt_texts f _ _ _ _ K1), (opt_texts f _ _ _ _ K3). cbn [app].
  assert (texts_of f l2 = []) as ->.
  { destruct K2 as [|l id F|a id b pl F1 F2]; [reflexivity|exact (field_texts f _ _ _ _ F)|]. rewrite texts_app, (field_texts f _ _ _ _ F1). exact (field_texts f _ _ _ _ F2). }
  destruct K4 as [a id b t F1 F2|a id b pl d vs F1 F2 V NE]; rewrite !texts_app, (field_texts f _ _ _ _ F1), (field_texts f _ _ _ _ F2); [reflexivity|exact (values_texts f _ _ _ _ _ V)].
Qed.
Lemma all_words_det b ws ws' : all_words b ws -> all_words b ws' -> ws = ws'.
Proof.
  intros (a & A & ->) (a' & A' & ->). f_equal. revert a' A'. induction A as [|x y l l' H A IH]; intros a' A'; inversion A'; subst; [reflexivity|].
  f_equal; [apply words_iff in H; match goal with X : words x _ |- _ => apply words_iff in X end; congruence|apply IH; assumption].
Qed.
Lemma all_flags_det b ws ws' : all_flags b ws -> all_flags b ws' -> ws = ws'.
Proof.
  intros (a & A & ->) (a' & A' & ->). f_equal. revert a' A'. induction A as [|x y l l' H A IH]; intros a' A'; inversion A'; subst; [reflexivity|].
  f_equal; [apply flag_list_iff in H; match goal with X : flag_list x _ |- _ => apply flag_list_iff in X end; congruence|apply IH; assumption].
Qed.

(** * Units *)
Lemma entry_content forms b u : entry forms b u -> exists F, texts_of note_kind b = map note_pair (u_notes u) /\ texts_of other_kind b = map comment_pair (u_comments u)
  /\ all_words b (u_locations u) /\ all_flags b F /\ u_flags u = distinct F /\ state_of F (u_message u) (u_state u).
Proof.
  intros [cs F N L C obs ks pc pm c m st B K St]. destruct (comments_content _ _ _ _ _ B) as (I1 & I2 & W & G). exists F. cbn [u_notes u_comments u_locations u_flags u_message u_state].
  unfold all_words, all_flags in *. rewrite !texts_app, !(keywords_texts _ _ _ _ _ _ _ _ K), !app_nil_r. auto 10.
Qed.
Lemma equal_strings u u' : equal_units u u' -> unit_strings u = unit_strings u'.
Proof. intros (Ec & Em & Epc & Epm & _ & _ & _ & _ & _ & Eo). unfold unit_strings. rewrite Ec, Em, Epc, Epm, Eo. reflexivity. Qed.
Theorem same_unit_content forms forms' b b' u u' : entry forms b u -> entry forms' b' u' -> equal_units u u' -> same_content b b'.
Proof.
  intros E E' Q. destruct (entry_content _ _ _ E) as (F & I1 & I2 & W & G & Ef & _). destruct (entry_content _ _ _ E') as (F' & I1' & I2' & W' & G' & Ef' & _).
  split; [rewrite (entry_told _ _ _ E), (entry_told _ _ _ E'); apply equal_strings, Q|].
  destruct Q as (_ & _ & _ & _ & Qf & Qn & Ql & Qc & _). split; [congruence|]. split; [congruence|]. split; [exists (u_locations u); split; [exact W|rewrite Ql; exact W']|].
  exists F, F'. split; [exact G|]. split; [exact G'|]. intros f0. rewrite <- (distinct_in f0 F), <- (distinct_in f0 F'), <- Ef, <- Ef'. apply Qf.
Qed.
Theorem content_same_unit forms b b' u u' : entry forms b u -> entry forms b' u' -> same_content b b' -> equal_units u u'.
Proof.
  intros E E' (S & T1 & T2 & (ws & W1 & W2) & (fs & fs' & G1 & G2 & D)).
  destruct (entry_content _ _ _ E) as (F & I1 & I2 & W & G & Ef & St). destruct (entry_content _ _ _ E') as (F' & I1' & I2' & W' & G' & Ef' & St').
  destruct (entry_shapes _ _ _ E) as [O P]. destruct (entry_shapes _ _ _ E') as [O' P'].
  rewrite (entry_told _ _ _ E), (entry_told _ _ _ E') in S. destruct (strings_unit forms u u' O P O' P' S) as (Ec & Em & Epc & Epm & Eo).
  assert (EF : forall f, In f F <-> In f F') by (intros f0; rewrite (all_flags_det _ _ _ G G1), (all_flags_det _ _ _ G' G2); apply D).
  split; [exact Ec|]. split; [exact Em|]. split; [exact Epc|]. split; [exact Epm|]. split; [intros f0; rewrite Ef, Ef', !distinct_in; apply EF|].
  split; [apply note_pair_inj; congruence|]. split; [rewrite (all_words_det _ _ _ W W1), (all_words_det _ _ _ W' W2); reflexivity|]. split; [apply comment_pair_inj; congruence|].
  split; [|exact Eo]. apply state_of_iff in St'. rewrite St'. apply state_of_iff. rewrite <- Em. eapply state_flags; [|exact St]. apply EF.
Qed.
Theorem units_content lib pf evs bs f rs c k u evs' bs' f' rs' c' k' u' :
  pieces evs bs f -> answers 1 bs f rs -> read_catalogue lib pf evs = Ok c -> nth_error (c_items c) k = Some (UOk u) ->
  pieces evs' bs' f' -> answers 1 bs' f' rs' -> read_catalogue lib pf evs' = Ok c' -> nth_error (c_items c') k' = Some (UOk u') ->
  exists forms b forms' b', stream_unit lib pf (kept rs) c k forms b u /\ stream_unit lib pf (kept rs') c' k' forms' b' u'
    /\ (equal_units u u' -> same_content b b') /\ (forms = forms' -> same_content b b' -> equal_units u u').
Proof.
  intros P A R I P' A' R' I'. destruct (any_unit _ _ _ _ _ _ _ _ _ P A R I) as (forms & b & U). destruct (any_unit _ _ _ _ _ _ _ _ _ P' A' R' I') as (forms' & b' & U').
  pose proof (stream_unit_entry _ _ _ _ _ _ _ _ U) as E. pose proof (stream_unit_entry _ _ _ _ _ _ _ _ U') as E'.
  exists forms, b, forms', b'. split; [exact U|]. split; [exact U'|]. split; [exact (same_unit_content _ _ _ _ _ _ E E')|]. intros <-. apply content_same_unit with (forms := forms); assumption.
Qed.
Lemma contents_units forms forms' bls us : Forall2 (unit_entry forms) bls us -> forall bls' us', Forall2 (unit_entry forms') bls' us' ->
  (Forall2 equal_units us us' -> Forall2 same_content bls bls') /\ (forms = forms' -> Forall2 same_content bls bls' -> Forall2 equal_units us us').
Proof.
  induction 1 as [|b u bls us [E _] F IH]; intros bls' us' F'.
  - split; [intros H; inversion H; subst; inversion F'; subst; constructor|intros _ H; inversion H; subst; inversion F'; subst; constructor].
  - split.
    + intros H. inversion H as [|? u' ? us'' Q Qs]; subst. inversion F' as [|b' ? bls'' ? [E' _] F'']; subst.
      constructor; [exact (same_unit_content _ _ _ _ _ _ E E' Q)|exact (proj1 (IH _ _ F'') Qs)].
    + intros X H. inversion H as [|? b' ? bls'' Q Qs]; subst. inversion F' as [|? u' ? us'' [E' _] F'']; subst.
      constructor; [exact (content_same_unit _ _ _ _ _ E E' Q)|exact (proj2 (IH _ _ F'') eq_refl Qs)].
Qed.
Theorem catalogues_content lib pf evs bs f rs c evs' bs' f' rs' c' :
  pieces evs bs f -> answers 1 bs f rs -> read_catalogue lib pf evs = Ok c -> pieces evs' bs' f' -> answers 1 bs' f' rs' -> read_catalogue lib pf evs' = Ok c' ->
  exists forms bls forms' bls', stream_blocks lib pf (kept rs) c forms bls /\ stream_blocks lib pf (kept rs') c' forms' bls'
    /\ (Forall2 equal_units (units (c_items c)) (units (c_items c')) -> Forall2 same_content bls bls')
    /\ (forms = forms' -> Forall2 same_content bls bls' -> Forall2 equal_units (units (c_items c)) (units (c_items c'))).
Proof.
  intros P A R P' A' R'. destruct (any_stream _ _ _ _ _ _ _ P A R) as (h & forms & bls & rest & E & H & F). destruct (any_stream _ _ _ _ _ _ _ P' A' R') as (h' & forms' & bls' & rest' & E' & H' & F').
  exists forms, bls, forms', bls'. split; [exists h, rest; auto|]. split; [exists h', rest'; auto|]. exact (contents_units _ _ _ _ F _ _ F').
Qed.
