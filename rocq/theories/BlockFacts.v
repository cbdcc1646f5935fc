(** The reader's functions on the lines of an entry. *)
From Coq Require Import String Arith NArith ZArith Bool List Lia.
From Verif Require Import ModelBase ModelUtf8 ModelLine ModelFormula ModelData ModelSource ModelReader
  SpecLine SpecSource SpecReader SpecBlock BaseFacts LineFacts DecFacts ReaderFacts ReadsFacts LocalFacts.
Import ListNotations.
Local Open Scope N_scope.

(** Markers and keywords as written. *)
Definition written (l : po_line) : Prop :=
  match l with
  | PBlank => False
  | PComment _ _ _ => True
  | PMessage _ p t _ => In p [[]; lit "~"; lit "|"; lit "~|"] /\ exists kw, keyword kw /\ t = reported_tag p kw
  | PCont _ p _ => In p [[]; lit "~"; lit "|"; lit "~|"]
  end.
(** Lines, then the end of the file or a failure. *)
Definition ending (tl : option error) : lines := match tl with Some e => [Some (IFail e)] | None => [] end.
Definition listing (pl : list po_line) (tl : option error) : lines := map (fun l => Some (ILine l)) pl ++ ending tl.
Lemma listing_app a b tl : listing (a ++ b) tl = map (fun l => Some (ILine l)) a ++ listing b tl.
Proof. unfold listing. rewrite map_app, app_assoc. reflexivity. Qed.
Lemma listing_cons l pl tl : listing (l :: pl) tl = Some (ILine l) :: listing pl tl.
Proof. reflexivity. Qed.
Lemma listing_nil_inv pl tl : listing pl tl = [] -> pl = [] /\ tl = None.
Proof. destruct pl, tl; try discriminate. auto. Qed.
Lemma listing_inj a tl b tl' : listing a tl = listing b tl' -> a = b /\ tl = tl'.
Proof.
  revert b; induction a as [|x a IH]; intros [|y b]; cbn; destruct tl, tl'; cbn; try discriminate; auto.
  1: intros [= <-]; auto.
  all: intros [= <- E]; apply IH in E as [<- E]; split; congruence.
Qed.

(** * Fields *)
(** [r] does not continue a field with marker [p]; a failure does not follow. *)
Definition stop (p : str) (r : list po_line) (tl : option error) : Prop :=
  match r with [] => tl = None | PCont _ q _ :: _ => q <> p | _ => True end.

Lemma append_conts_stop p conts t : strings p conts t -> forall s r tl, stop p r tl ->
  append_conts p s (listing (conts ++ r) tl) = (Ok (Some (s ++ t)), listing r tl).
Proof.
  induction 1 as [|n s' ls t H IH]; intros s r tl St.
  - rewrite app_nil_r. cbn [app]. destruct r as [|l r]; cbn [stop] in St.
    + subst. reflexivity.
    + rewrite listing_cons. cbn [append_conts]. destruct l; try reflexivity.
      destruct (str_eqb flags p) eqn:E; [apply str_eqb_eq in E; contradiction|reflexivity].
  - cbn [app]. rewrite listing_cons. cbn [append_conts]. rewrite (proj2 (str_eqb_eq p p) eq_refl), IH by exact St.
    rewrite <- app_assoc. reflexivity.
Qed.
(** The continuation lines in front. *)
Lemma strings_split p pl : exists conts t r, pl = conts ++ r /\ strings p conts t /\ forall n s r', r <> PCont n p s :: r'.
Proof.
  induction pl as [|l pl (conts & t & r & -> & St & N)].
  - exists [], [], []. repeat split; [constructor|discriminate].
  - assert ((exists n s, l = PCont n p s) \/ forall n s, l <> PCont n p s) as [(n & s & ->)|D].
    { destruct l as [| | |n q s]; try (right; discriminate). destruct (list_eq_dec N.eq_dec q p) as [->|D]; [left; eauto|right; congruence]. }
    + exists (PCont n p s :: conts), (s ++ t), r. repeat split; [constructor; exact St|exact N].
    + exists [], [], (l :: conts ++ r). repeat split; [constructor|]. intros n s r' [= -> _]. exact (D n s eq_refl).
Qed.

(** Outcome of [parse_msg] on lines. *)
Inductive msg_result (obs : bool) (tag : str) (pl : list po_line) (tl : option error) : res (option str) -> Prop :=
| mr_hit n p s conts t r : pl = PMessage n p tag s :: conts ++ r -> starts_with 126 p = obs -> strings p conts t ->
    stop p r tl -> msg_result obs tag pl tl (Ok (Some (s ++ t)), listing r tl)
| mr_hit_fail n p s conts t e : pl = PMessage n p tag s :: conts -> starts_with 126 p = obs -> strings p conts t ->
    tl = Some e -> msg_result obs tag pl tl (Err e, [])
| mr_fail e : pl = [] -> tl = Some e -> msg_result obs tag pl tl (Err e, [])
| mr_miss : (pl = [] -> tl = None) ->
    (forall n p s r, pl = PMessage n p tag s :: r -> starts_with 126 p <> obs) ->
    msg_result obs tag pl tl (Ok None, listing pl tl).
Lemma parse_msg_result obs tag pl tl : msg_result obs tag pl tl (parse_msg obs tag (listing pl tl)).
Proof.
  rewrite parse_msg_eq. destruct pl as [|l pl].
  - destruct tl as [e|]; cbn.
    + apply mr_fail; reflexivity.
    + apply (mr_miss _ _ [] None); [auto|discriminate].
  - rewrite listing_cons. destruct l as [|n k s|n p t s|n p s].
    1,2,4: apply (mr_miss _ _ (_ :: _) tl); discriminate.
    destruct (str_eqb t tag && Bool.eqb (starts_with 126 p) obs) eqn:E.
    + apply andb_prop in E as [E1 E2]. apply str_eqb_eq in E1. apply eqb_prop in E2. subst t.
      destruct (strings_split p pl) as (conts & u & r & -> & St & N).
      destruct r as [|l r].
      * destruct tl as [e|].
        -- rewrite listing_app. cbn [listing map ending app].
           assert (forall s, append_conts p s (map (fun l => Some (ILine l)) conts ++ [Some (IFail e)]) = (Err e, [])) as K.
           { clear N E2. induction St as [|m s' ls u St IH]; intros s0; [reflexivity|]. cbn [map app append_conts].
             rewrite (proj2 (str_eqb_eq p p) eq_refl). apply IH. }
           rewrite K. eapply mr_hit_fail; [rewrite app_nil_r; reflexivity|exact E2|exact St|reflexivity].
        -- rewrite (append_conts_stop p conts u St s [] None eq_refl). eapply mr_hit; [reflexivity|exact E2|exact St|reflexivity].
      * assert (stop p (l :: r) tl) as Sp. { destruct l; cbn; auto. intros ->. exact (N _ _ _ eq_refl). }
        rewrite (append_conts_stop p conts u St s _ tl Sp). eapply mr_hit; [reflexivity|exact E2|exact St|exact Sp].
    + apply (mr_miss _ _ (_ :: _) tl); [discriminate|]. intros n' p' s' r [= <- <- -> <- <-] E'.
      apply andb_false_iff in E as [E|E].
      * rewrite (proj2 (str_eqb_eq tag tag) eq_refl) in E. discriminate.
      * rewrite E', eqb_reflx in E. discriminate.
Qed.
Lemma parse_msg_field obs tag p kw f t r tl : field p kw f t -> tag = reported_tag p kw -> starts_with 126 p = obs -> stop p r tl ->
  parse_msg obs tag (listing (f ++ r) tl) = (Ok (Some t), listing r tl).
Proof.
  intros [n s ls u St] -> O Sp. cbn [app]. rewrite listing_cons, parse_msg_eq.
  rewrite (proj2 (str_eqb_eq _ _) eq_refl), O, eqb_reflx. cbn [andb]. exact (append_conts_stop p ls u St s r tl Sp).
Qed.
Definition miss (obs : bool) (tag : str) (r : list po_line) (tl : option error) : Prop :=
  (r = [] -> tl = None) /\ forall n p s r', r = PMessage n p tag s :: r' -> starts_with 126 p <> obs.
Lemma parse_msg_miss obs tag r tl : miss obs tag r tl -> parse_msg obs tag (listing r tl) = (Ok None, listing r tl).
Proof.
  intros [H1 H2]. rewrite parse_msg_eq. destruct r as [|l r].
  - rewrite (H1 eq_refl). reflexivity.
  - rewrite listing_cons. destruct l as [|n k s|n p t s|n p s]; try reflexivity.
    destruct (str_eqb t tag && Bool.eqb (starts_with 126 p) obs) eqn:E; [|reflexivity].
    apply andb_prop in E as [E1 E2]. apply str_eqb_eq in E1 as ->. apply eqb_prop in E2. exfalso. exact (H2 _ _ _ _ eq_refl E2).
Qed.

(** * Markers *)
Lemma own_obs obs : starts_with 126 (own obs) = obs.
Proof. destruct obs; reflexivity. Qed.
Lemma prev_obs obs : starts_with 126 (prev obs) = obs.
Proof. destruct obs; reflexivity. Qed.
Lemma own_tag obs kw : reported_tag (own obs) kw = kw.
Proof. destruct obs; reflexivity. Qed.
Lemma prev_tag obs kw : reported_tag (prev obs) kw = 124 :: kw.
Proof. destruct obs; reflexivity. Qed.
Lemma keyword_first kw : keyword kw -> exists r, kw = 109 :: r.
Proof. intros []; eexists; reflexivity. Qed.
Lemma written_own n p t s obs : written (PMessage n p t s) -> starts_with 126 p = obs -> (forall r, t <> 124 :: r) -> p = own obs.
Proof.
  cbn [written]. intros (I & kw & K & ->) <- T. destruct (keyword_first kw K) as (r & ->).
  destruct I as [<-|[<-|[<-|[<-|[]]]]]; try reflexivity; exfalso; exact (T _ eq_refl).
Qed.
Lemma written_prev n p t s obs : written (PMessage n p (124 :: t) s) -> starts_with 126 p = obs -> p = prev obs.
Proof.
  cbn [written]. intros (I & kw & K & E) <-. destruct (keyword_first kw K) as (r & ->).
  destruct I as [<-|[<-|[<-|[<-|[]]]]]; try reflexivity; discriminate.
Qed.
Lemma strings_app p a t b u : strings p a t -> strings p b u -> strings p (a ++ b) (t ++ u).
Proof. induction 1 as [|n s ls t H IH]; intros H'; [exact H'|]. cbn [app]. rewrite <- app_assoc. constructor. apply IH, H'. Qed.
Lemma field_cont p kw f t n s : field p kw f t -> field p kw (f ++ [PCont n p s]) (t ++ s).
Proof.
  intros [m s' ls u H]. cbn [app]. rewrite <- app_assoc. constructor. apply strings_app; [exact H|].
  pose proof (st_cons p n s [] [] (st_nil p)) as K. rewrite app_nil_r in K. exact K.
Qed.
Lemma field_nonempty p kw f t : field p kw f t -> f <> [].
Proof. intros []; discriminate. Qed.
(** Keyword lines. *)
Definition headed (obs : bool) (tags : list str) (r : list po_line) : Prop :=
  exists n p tag s r', r = PMessage n p tag s :: r' /\ In tag tags.
Lemma field_headed p kw f t r obs : field p kw f t -> headed obs [reported_tag p kw] (f ++ r).
Proof. intros [n s ls u H]. repeat eexists. left; reflexivity. Qed.
Lemma headed_weaken obs tags tags' r : headed obs tags r -> incl tags tags' -> headed obs tags' r.
Proof. intros (n & p & tag & s & r' & -> & I) W. repeat eexists. apply W, I. Qed.
Lemma headed_miss obs tags r tl tag : headed obs tags r -> ~ In tag tags -> miss obs tag r tl.
Proof. intros (n & p & t & s & r' & -> & I) N. split; [discriminate|]. intros ? ? ? ? [= <- <- -> <- <-]. contradiction. Qed.
Lemma headed_stop obs tags r tl p : headed obs tags r -> stop p r tl.
Proof. intros (n & q & t & s & r' & -> & _). exact Logic.I. Qed.

(** * Entries are read *)
Lemma values_headed p count i ls vs r obs : values p count i ls vs -> ls <> [] -> exists k kw, i <= k /\ k < count /\ msgstr_kw k kw /\ headed obs [reported_tag p kw] (ls ++ r).
Proof.
  intros [j|j k kw ls1 s ls2 vs2 L1 L2 K F V] N; [contradiction|]. exists k, kw. rewrite <- app_assoc. eauto using field_headed.
Qed.
Lemma values_weaken p count i j ls vs : values p count i ls vs -> j <= i -> values p count j ls vs.
Proof. intros [i'|i' k kw l1 s l2 vs' L1 L2 K F V] L; [constructor|]. apply vs_cons with (k := k) (kw := kw); auto. lia. Qed.
Lemma parse_values_complete obs count k : forall i vs0 ls vs r tl, values (own obs) count i ls vs -> i + N.of_nat k = count ->
  stop (own obs) r tl ->
  (forall j, (forall n s, values (own obs) count i (ls ++ [PMessage n (own obs) (msgstr_tag j) s]) (vs ++ [s])) -> miss obs (msgstr_tag j) r tl) ->
  parse_values obs k i vs0 (listing (ls ++ r) tl) = (Ok (vs0 ++ vs), listing r tl).
Proof.
  induction k as [|k IH]; intros i vs0 ls vs r tl V E Sp Q.
  - cbn [parse_values]. destruct V as [i|i j kw ls s ls' vs L1 L2 K F V]; [rewrite app_nil_r; reflexivity|lia].
  - cbn [parse_values]. destruct V as [i|i j kw ls s ls' vs L1 L2 K F V].
    + cbn [app]. rewrite parse_msg_miss.
      2: { apply Q. intros n s. cbn [app]. apply vs_cons with (k := i) (kw := msgstr_tag i) (ls := [_]) (ls' := []); [lia|lia|apply msgstr_kw_iff; reflexivity| |constructor].
           pose proof (fl_intro (own obs) (msgstr_tag i) n s [] [] (st_nil _)) as X. rewrite app_nil_r, own_tag in X. exact X. }
      cbn [bind]. apply (IH (i + 1) vs0 [] []); [constructor|lia|exact Sp|].
      intros j H. apply Q. intros n s. apply (values_weaken _ _ (i + 1)); [apply H|lia].
    + rewrite <- app_assoc. destruct (N.eq_dec i j) as [<-|D].
      * apply msgstr_kw_iff in K as ->. rewrite (parse_msg_field obs _ (own obs) (msgstr_tag i) _ _ _ _ F).
        -- cbn [bind]. rewrite (IH (i + 1) (vs0 ++ [s]) ls' vs); [rewrite <- app_assoc; reflexivity|exact V|lia|exact Sp|].
           intros j H. apply Q. intros n t. rewrite <- app_assoc. cbn [app]. econstructor; [exact L1|exact L2|apply msgstr_kw_iff; reflexivity|exact F|apply H].
        -- symmetry; apply own_tag.
        -- apply own_obs.
        -- destruct ls' as [|l ls']; [exact Sp|]. destruct (values_headed _ _ _ _ _ r obs V) as (? & ? & _ & _ & _ & H); [discriminate|].
           exact (headed_stop _ _ _ _ _ H).
      * rewrite parse_msg_miss.
        -- cbn [bind]. rewrite app_assoc. apply (IH (i + 1) vs0 (ls ++ ls') (s :: vs)); [econstructor; [|exact L2|exact K|exact F|exact V]; lia|lia|exact Sp|].
           intros j' H. apply Q. intros n t. apply (values_weaken _ _ (i + 1)); [apply H|lia].
        -- eapply headed_miss; [exact (field_headed _ _ _ _ _ obs F)|]. rewrite own_tag. apply msgstr_kw_iff in K as ->.
           intros [X|[]]. apply msgstr_tag_inj in X. congruence.
Qed.

(** What follows the keyword lines of an entry does not belong to it. *)
Definition follow (forms : option plural_forms) (obs : bool) (ks r : list po_line) (tl : option error) : Prop :=
  stop (own obs) r tl /\
  forall j, (forall n s, exists pc pm c m, keywords forms obs (ks ++ [PMessage n (own obs) (msgstr_tag j) s]) pc pm c m) ->
            miss obs (msgstr_tag j) r tl.

Lemma body_headed forms obs ls m r : body forms obs ls m -> headed obs [lit "msgid"] (ls ++ r).
Proof.
  assert (forall f t r', field (own obs) (lit "msgid") f t -> headed obs [lit "msgid"] (f ++ r')) as K.
  { intros f t r' F. pose proof (field_headed _ _ _ _ r' obs F) as H. rewrite own_tag in H. exact H. }
  intros [l1 id l2 text F1 F2|l1 id l2 pl l3 vs F1 F2 V NE]; rewrite <- app_assoc; eapply K; exact F1.
Qed.
Ltac notin := let H := fresh in intros H; cbn in H; repeat (destruct H as [H|H]; [discriminate H|]); exact H.

Lemma new_message_complete forms obs u ls m r tl : u_obsolete u = obs -> body forms obs ls m ->
  stop (own obs) r tl ->
  (forall j, (forall n s, exists m', body forms obs (ls ++ [PMessage n (own obs) (msgstr_tag j) s]) m') -> miss obs (msgstr_tag j) r tl) ->
  (do msgid, l <- parse_msg obs (lit "msgid") (listing (ls ++ r) tl);
   do msgid_pl, l <- parse_msg obs (lit "msgid_plural") l;
   new_message forms obs msgid msgid_pl l) = (Ok (Some m), listing r tl)
  /\ exists id l, parse_msg obs (lit "msgid") (listing (ls ++ r) tl) = (Ok (Some id), l).
Proof.
  intros O B Sp Q. destruct B as [l1 id l2 text F1 F2|l1 id l2 pl l3 vs F1 F2 V NE].
  - pose proof (field_headed _ _ _ _ r obs F2) as H2. rewrite own_tag in H2.
    assert (parse_msg obs (lit "msgid") (listing ((l1 ++ l2) ++ r) tl) = (Ok (Some id), listing (l2 ++ r) tl)) as E1.
    { rewrite <- app_assoc. apply (parse_msg_field obs _ (own obs) (lit "msgid") _ _ _ _ F1); [symmetry; apply own_tag|apply own_obs|exact (headed_stop _ _ _ _ _ H2)]. }
    split; [|eauto]. rewrite E1. cbn [bind].
    rewrite (parse_msg_miss obs (lit "msgid_plural")) by (eapply headed_miss; [exact H2|notin]). cbn [bind new_message].
    rewrite (parse_msg_field obs (lit "msgstr") (own obs) (lit "msgstr") _ _ _ _ F2); [|symmetry; apply own_tag|apply own_obs|exact Sp].
    cbn [bind]. destruct text; reflexivity.
  - pose proof (field_headed _ _ _ _ (l3 ++ r) obs F2) as H2. rewrite own_tag in H2.
    assert (parse_msg obs (lit "msgid") (listing ((l1 ++ l2 ++ l3) ++ r) tl) = (Ok (Some id), listing (l2 ++ l3 ++ r) tl)) as E1.
    { rewrite <- !app_assoc. apply (parse_msg_field obs _ (own obs) (lit "msgid") _ _ _ _ F1); [symmetry; apply own_tag|apply own_obs|exact (headed_stop _ _ _ _ _ H2)]. }
    split; [|eauto]. rewrite E1. cbn [bind].
    destruct (values_headed _ _ _ _ _ r obs V) as (k & kw & _ & _ & Hk & H3).
    { intros ->. inversion V as [|? ? ? ? ? ? ? ? ? ? F]; subst; [apply NE; reflexivity|]. destruct F. discriminate. }
    rewrite (parse_msg_field obs (lit "msgid_plural") (own obs) (lit "msgid_plural") _ _ _ _ F2); [|symmetry; apply own_tag|apply own_obs|exact (headed_stop _ _ _ _ _ H3)].
    cbn [bind new_message]. change (forms_count forms) with (nforms forms).
    rewrite (parse_values_complete obs (nforms forms) (N.to_nat (nforms forms)) 0 [] l3 vs r tl V); [|lia|exact Sp|].
    + cbn [bind app]. destruct vs; [contradiction|]. reflexivity.
    + intros j H. apply Q. intros n s. rewrite <- !app_assoc. eexists. eapply bd_plural; [exact F1|exact F2|apply H|]. destruct vs; discriminate.
Qed.
Lemma opt_parse obs tag p kw f t r tl tags : opt_field p kw f t -> tag = reported_tag p kw -> starts_with 126 p = obs ->
  headed obs tags r -> ~ In tag tags -> parse_msg obs tag (listing (f ++ r) tl) = (Ok t, listing r tl).
Proof.
  intros [|f' t' F] -> O H N.
  - apply parse_msg_miss. eapply headed_miss; eauto.
  - eapply parse_msg_field; eauto. eapply headed_stop; eauto.
Qed.
Lemma opt_headed obs p kw f t r tags : opt_field p kw f t -> headed obs tags r -> headed obs (reported_tag p kw :: tags) (f ++ r).
Proof.
  intros [|f' t' F] H.
  - eapply headed_weaken; [exact H|]. intros x I; right; exact I.
  - eapply headed_weaken; [exact (field_headed _ _ _ _ _ obs F)|]. intros x [<-|[]]. left; reflexivity.
Qed.
Theorem fields_complete forms first u obs ks pc pm c m r tl : u_obsolete u = obs -> keywords forms obs ks pc pm c m -> follow forms obs ks r tl ->
  parse_message_fields forms first u (listing (ks ++ r) tl) = (Ok (Some (set_message u pc pm c m)), listing r tl).
Proof.
  intros O [l1 pc' l2 pm' l3 c' l4 m' F1 F2 F3 B] [Sp Q]. unfold parse_message_fields. rewrite O.
  pose proof (body_headed _ _ _ _ r B) as H4.
  pose proof (opt_headed _ _ _ _ _ _ _ F3 H4) as H3. rewrite own_tag in H3.
  assert (exists tags, headed obs tags (l2 ++ l3 ++ l4 ++ r) /\ incl tags [lit "|msgid"; lit "msgctxt"; lit "msgid"]) as (tags & H2 & I2).
  { destruct F2 as [|l id F|l1' id l2' pl F F'].
    - exists [lit "msgctxt"; lit "msgid"]. split; [exact H3|]. intros x I; right; exact I.
    - eexists. split; [exact (field_headed _ _ _ _ _ obs F)|]. rewrite prev_tag. intros x [<-|[]]. left; reflexivity.
    - eexists. rewrite <- app_assoc. split; [exact (field_headed _ _ _ _ _ obs F)|]. rewrite prev_tag. intros x [<-|[]]. left; reflexivity. }
  apply (fun H => headed_weaken _ _ _ _ H I2) in H2.
  rewrite <- !app_assoc.
  rewrite (opt_parse obs (lit "|msgctxt") _ _ _ _ _ tl [lit "|msgid"; lit "msgctxt"; lit "msgid"] F1); [|symmetry; apply prev_tag|apply prev_obs|exact H2|notin]. cbn [bind].
  assert ((do prev_msgid, ls <- parse_msg obs (lit "|msgid") (listing (l2 ++ l3 ++ l4 ++ r) tl);
           do prev_msgid_pl, ls <- match prev_msgid with Some _ => parse_msg obs (lit "|msgid_plural") ls | None => (Ok None, ls) end;
           (Ok (new_previous forms prev_msgid prev_msgid_pl), ls)) = (Ok pm', listing (l3 ++ l4 ++ r) tl)) as EP.
  { destruct F2 as [|l id F|l1' id l2' pl F F'].
    - cbn [app]. rewrite parse_msg_miss by (eapply headed_miss; [exact H3|notin]). reflexivity.
    - rewrite (parse_msg_field obs (lit "|msgid") (prev obs) (lit "msgid") _ _ _ _ F); [|symmetry; apply prev_tag|apply prev_obs|exact (headed_stop _ _ _ _ _ H3)].
      cbn [bind]. rewrite parse_msg_miss by (eapply headed_miss; [exact H3|notin]). reflexivity.
    - rewrite <- app_assoc. pose proof (field_headed _ _ _ _ (l3 ++ l4 ++ r) obs F') as H2'.
      rewrite (parse_msg_field obs (lit "|msgid") (prev obs) (lit "msgid") _ _ _ _ F); [|symmetry; apply prev_tag|apply prev_obs|exact (headed_stop _ _ _ _ _ H2')].
      cbn [bind].
      rewrite (parse_msg_field obs (lit "|msgid_plural") (prev obs) (lit "msgid_plural") _ _ _ _ F'); [|symmetry; apply prev_tag|apply prev_obs|exact (headed_stop _ _ _ _ _ H3)].
      reflexivity. }
  destruct (parse_msg obs (lit "|msgid") (listing (l2 ++ l3 ++ l4 ++ r) tl)) as [[pi|e|] ls1]; cbn [bind] in EP |- *; try discriminate.
  destruct (match pi with Some _ => parse_msg obs (lit "|msgid_plural") ls1 | None => (Ok None, ls1) end) as [[pp|e|] ls2]; cbn [bind] in EP |- *; try discriminate.
  injection EP as EP ->. rewrite EP.
  rewrite (opt_parse obs (lit "msgctxt") _ _ _ _ _ tl [lit "msgid"] F3); [|symmetry; apply own_tag|apply own_obs|exact H4|notin]. cbn [bind].
  destruct (new_message_complete forms obs u l4 m' r tl O B Sp) as [EM (id & ls3 & EI)].
  { intros j H. apply Q. intros n s. destruct (H n s) as (m'' & B'). rewrite <- !app_assoc. do 4 eexists. constructor; eauto. }
  rewrite EI in EM |- *. cbn [bind] in EM |- *. rewrite andb_false_r.
  destruct (parse_msg obs (lit "msgid_plural") ls3) as [[pl|e|] ls4]; cbn [bind] in EM |- *; try discriminate.
  rewrite EM. reflexivity.
Qed.
