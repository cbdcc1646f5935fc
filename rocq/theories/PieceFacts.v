(** Streams that go on after a report of their end. *)
From Coq Require Import String Arith NArith ZArith Bool List Lia.
From Verif Require Import ModelBase ModelUtf8 ModelRegex ModelLine ModelFormula ModelData ModelSource ModelReader
  SpecLine SpecFormula SpecSource SpecReader SpecBlock SpecHeader SpecFile BaseFacts LineFacts LineThms DecFacts SourceFacts IterFacts ReaderFacts ReadsFacts CatalogueFacts LocalFacts CutFacts StreamFacts
  BlockFacts CommentFacts UnitFacts SoundFacts BlocksFacts FirstFacts FileFacts CallFacts.
Import ListNotations.
Local Open Scope N_scope.

(** * Pieces *)
Theorem pieces_total evs : exists b bs f, pieces evs (b :: bs) f.
Proof.
  induction evs as [|[[|x d]| |code] evs (b & bs & f & IH)].
  - exists [], [], None. constructor.
  - exists [], (b :: bs), f. constructor. exact IH.
  - exists ((x :: d) ++ b), bs, f. constructor; [discriminate|exact IH].
  - exists b, bs, f. constructor. exact IH.
  - exists [], [], (Some code). constructor.
Qed.
Theorem pieces_det evs bs f : pieces evs bs f -> forall bs' f', pieces evs bs' f' -> bs' = bs /\ f' = f.
Proof.
  induction 1 as [|code evs|evs bs f H IH|d evs b bs f Hd H IH|evs bs f H IH]; intros bs' f' P; inversion P; subst; auto; try contradiction.
  - match goal with P : pieces _ (_ :: _) _ |- _ => destruct (IH _ _ P) as [E ->]; injection E as -> -> end. auto.
  - match goal with P : pieces _ _ _ |- _ => destruct (IH _ _ P) as [-> ->] end. auto.
Qed.
Lemma pieces_one evs b f : pieces evs [b] f -> delivers evs b f.
Proof.
  remember [b] as l eqn:E. intros P. revert b E.
  induction P as [|code evs|evs bs f H IH|d evs b bs f Hd H IH|evs bs f H IH]; intros b0 E.
  - injection E as <-. constructor.
  - injection E as <-. constructor.
  - constructor. auto.
  - injection E as <- ->. constructor; auto.
  - injection E as _ ->. destruct (pieces_total evs) as (b & bs & f' & P). destruct (pieces_det _ _ _ H _ _ P). discriminate.
Qed.
Lemma pieces_nonempty evs bs f : pieces evs bs f -> bs <> [].
Proof. intros P ->. destruct (pieces_total evs) as (b & bs & f' & P'). destruct (pieces_det _ _ _ P _ _ P'). discriminate. Qed.

(** The source will deliver these pieces. *)
Definition keeps (s : source) (bs : list (list byte)) (f : option N) : Prop :=
  exists b bs', pieces (s_events s) (b :: bs') f /\ bs = (s_buf s ++ b) :: bs'.
Lemma keeps_events evs bs f : pieces evs bs f -> keeps (Source [] evs) bs f.
Proof. intros P. destruct bs as [|b bs]; [destruct (pieces_nonempty _ _ _ P eq_refl)|]. exists b, bs. auto. Qed.

Lemma read_until_events_pieces evs bs f : pieces evs bs f -> forall b b1 bs', bs = b :: b1 :: bs' -> forall acc, ~ In 10 acc ->
  match split_lf b with
  | Some (l, r) => exists s', read_until_events acc evs = (inl (acc ++ l), s') /\ keeps s' (r :: b1 :: bs') f
  | None => exists s', read_until_events acc evs = (inl (acc ++ b), s') /\ keeps s' (b1 :: bs') f
  end.
Proof.
  induction 1 as [|code evs|evs bs f H IH|d evs b0 bs f Hd H IH|evs bs f H IH]; intros b b1 bs' E acc Ha; try discriminate.
  - cbn [read_until_events]. exact (IH _ _ _ E acc Ha).
  - injection E as <- ->. destruct d as [|x d]; [contradiction|]. set (dd := x :: d) in *.
    assert (read_until_events acc (RdData dd :: evs) =
            match split_lf dd with
            | Some (l, r) => (inl (acc ++ l), Source r evs)
            | None => read_until_events (acc ++ dd) evs
            end) as -> by reflexivity.
    destruct (split_lf dd) as [[l r]|] eqn:F.
    + apply split_lf_some in F as (l' & El & Hn & Ed).
      assert (split_lf (dd ++ b0) = Some (l, r ++ b0)) as ->.
      { apply split_lf_some. exists l'. repeat split; try assumption. rewrite Ed, <- app_assoc. reflexivity. }
      eexists; split; [reflexivity|]. exists b0, (b1 :: bs'). split; [exact H|reflexivity].
    + apply split_lf_none in F. rewrite split_lf_app by exact F.
      assert (~ In 10 (acc ++ dd)) as Hn by (rewrite in_app_iff; tauto).
      specialize (IH _ _ _ eq_refl _ Hn). destruct (split_lf b0) as [[l r]|];
        destruct IH as (s' & -> & Hs); exists s'; rewrite <- app_assoc; auto.
  - injection E as <- ->. cbn. rewrite app_nil_r. eexists; split; [reflexivity|]. apply keeps_events. exact H.
Qed.
Lemma read_until_pieces s b b1 bs f : keeps s (b :: b1 :: bs) f ->
  match split_lf b with
  | Some (l, r) => exists s', read_until s = (inl l, s') /\ keeps s' (r :: b1 :: bs) f
  | None => exists s', read_until s = (inl b, s') /\ keeps s' (b1 :: bs) f
  end.
Proof.
  intros (b0 & bs0 & P & E). destruct s as [buf evs]. cbn [s_buf s_events] in *. injection E as -> <-.
  unfold read_until. cbn [s_buf s_events]. destruct (split_lf buf) as [[l r]|] eqn:F.
  - apply split_lf_some in F as (l' & El & Hn & Ed).
    assert (split_lf (buf ++ b0) = Some (l, r ++ b0)) as ->.
    { apply split_lf_some. exists l'. repeat split; try assumption. rewrite Ed, <- app_assoc. reflexivity. }
    eexists; split; [reflexivity|]. exists b0, (b1 :: bs). split; [exact P|reflexivity].
  - apply split_lf_none in F. rewrite split_lf_app by exact F.
    pose proof (read_until_events_pieces _ _ _ P _ _ _ eq_refl buf F) as R.
    destruct (split_lf b0) as [[l r]|]; exact R.
Qed.
(** The same as for a source with the first piece only. *)
Lemma lines_next_read s s0 x s' s0' : read_until s = (x, s') -> read_until s0 = (x, s0') ->
  fst (lines_next s) = fst (lines_next s0) /\ snd (lines_next s) = s' /\ snd (lines_next s0) = s0'.
Proof. intros E E0. unfold lines_next. rewrite E, E0. destruct x as [[|y l]|code]; [auto| |auto]. destruct (utf8_decode _); auto. Qed.
Lemma terminated_rest b l r : split_lf b = Some (l, r) -> (terminated b <-> terminated r).
Proof.
  intros H. apply split_lf_some in H as (l' & -> & N & ->). unfold terminated. split.
  - intros [H|(b' & H)]; [destruct l'; discriminate|]. destruct r as [|y r] using rev_ind; [left; reflexivity|]. right.
    rewrite app_comm_cons, app_assoc in H. apply app_inj_tail in H as [_ ->]. eauto.
  - intros [->|(b' & ->)]; right; [exists l'; reflexivity|]. exists ((l' ++ [10]) ++ b'). rewrite <- !app_assoc. reflexivity.
Qed.
Lemma terminated_split b : terminated b -> b <> [] -> split_lf b <> None.
Proof. intros [H|(b' & ->)] N; [contradiction|]. intros E. apply split_lf_none in E. apply E, in_or_app. right; left; reflexivity. Qed.
Lemma lines_next_pieces s b b1 bs f ls e : keeps s (b :: b1 :: bs) f -> contents b None ls e ->
  match ls with
  | l :: ls' => exists s', lines_next s = (Some (inl l), s') /\
      ((exists b', contents b' None ls' e /\ keeps s' (b' :: b1 :: bs) f /\ (terminated b <-> terminated b'))
       \/ (ls' = [] /\ e = None /\ ~ terminated b /\ keeps s' (b1 :: bs) f))
  | [] => match e with
          | None => terminated b /\ exists s', lines_next s = (None, s') /\ keeps s' (b1 :: bs) f
          | Some e => exists s', lines_next s = (Some (inr e), s')
          end
  end.
Proof.
  intros K C. assert (holds (Source b []) b None) as H0.
  { exists []. split; [constructor|]. cbn. rewrite app_nil_r. reflexivity. }
  pose proof (read_until_pieces _ _ _ _ _ K) as R. pose proof (read_until_spec _ _ _ H0) as R0. pose proof (lines_next_spec _ _ _ _ _ C H0) as L0.
  destruct (split_lf b) as [[l r]|] eqn:F.
  - destruct R as (s' & R & Hs'), R0 as (s0' & R0 & Hs0').
    destruct (lines_next_read _ _ _ _ _ R R0) as (E1 & E2 & E3). destruct (lines_next s) as [x s1]. cbn [fst snd] in *. subst s1.
    destruct ls as [|l0 ls'].
    + destruct e as [e|].
      * destruct L0 as (s1 & L0). rewrite L0 in E1. cbn in E1. subst x. eauto.
      * exfalso. destruct b; [discriminate|]. inversion C; try discriminate; try (destruct (utf8 s0); discriminate).
    + destruct L0 as (s1 & bs' & L0 & C' & Hs1). rewrite L0 in E1, E3. cbn in E1, E3. subst x s1. exists s'. split; [reflexivity|]. left. exists r.
      split; [|split; [exact Hs'|exact (terminated_rest _ _ _ F)]].
      assert (bs' = r) as ->; [|exact C'].
      destruct Hs0' as (a1 & D1 & ->), Hs1 as (a2 & D2 & ->). f_equal. clear - D1 D2. revert a2 D2. induction D1; intros a2 D2; inversion D2; subst; auto; try contradiction. f_equal; auto.
  - destruct R as (s' & R & Hs'), R0 as (s0' & R0 & Hs0').
    destruct (lines_next_read _ _ _ _ _ R R0) as (E1 & E2 & E3). destruct (lines_next s) as [x s1]. cbn [fst snd] in *. subst s1.
    destruct ls as [|l0 ls'].
    + destruct e as [e|].
      * destruct L0 as (s1 & L0). rewrite L0 in E1. cbn in E1. subst x. eauto.
      * destruct L0 as (s1 & L0 & _). rewrite L0 in E1. cbn in E1. subst x. split; [|eauto].
        inversion C; [left; reflexivity|..]; try discriminate.
    + destruct L0 as (s1 & bs' & L0 & C' & Hs1). rewrite L0 in E1, E3. cbn in E1, E3. subst x s1. exists s'. split; [reflexivity|]. right.
      assert (bs' = []) as ->.
      { destruct Hs0' as (a1 & D1 & E1), Hs1 as (a2 & D2 & ->). symmetry in E1. apply app_eq_nil in E1 as [-> ->]. cbn [app]. clear - D1 D2.
        revert D1 a2 D2. generalize (@None N). intros f D1. remember [] as a1 eqn:Q. induction D1; intros a2 D2; inversion D2; subst; auto; try contradiction. destruct d; [contradiction|discriminate]. }
      pose proof (contents_nil_lines _ _ _ C') as ->. split; [reflexivity|]. split.
      * inversion C'; try reflexivity; try (destruct l; discriminate). subst. exfalso. match goal with H : not_utf8 [] |- _ => exact (H [] ltac:(intros ? []) eq_refl) end.
      * split; [|exact Hs']. intros T. destruct b as [|y b]; [apply contents_nil_lines in C; discriminate|].
        exact (terminated_split _ T ltac:(discriminate) F).
Qed.

(** * The line iterator *)
Lemma li_next_parsed n ls e pl tl : parsed n ls e pl tl -> forall b s b1 bs f, contents b None ls e -> keeps s (b :: b1 :: bs) f ->
  match pl with
  | l :: pl' => exists s' n', li_next (LineIter n (Some s)) = (Some (ILine l), LineIter n' (Some s')) /\
      ((exists b' ls', contents b' None ls' e /\ parsed n' ls' e pl' tl /\ keeps s' (b' :: b1 :: bs) f /\ (terminated b <-> terminated b')
                       /\ n' + N.of_nat (length ls') = n + N.of_nat (length ls))
       \/ (pl' = [] /\ tl = None /\ ~ terminated b /\ keeps s' (b1 :: bs) f /\ n' = n + N.of_nat (length ls)))
  | [] =>
      match tl with
      | Some x => exists n', li_next (LineIter n (Some s)) = (Some (IFail x), LineIter n' None)
      | None => exists s', keeps s' (b1 :: bs) f /\
          ((terminated b /\ li_next (LineIter n (Some s)) = (None, LineIter (n + N.of_nat (length ls)) (Some s')))
           \/ (~ terminated b /\ li_next (LineIter n (Some s)) = li_next (LineIter (n + N.of_nat (length ls)) (Some s'))))
      end
  end.
Proof.
  induction 1 as [n|n e|n s ls e O E|n s ls e pl tl O E H IH|n s l ls e pl tl O E NB H IH]; intros b src b1 bs f C K;
    pose proof (lines_next_pieces _ _ _ _ _ _ _ K C) as L; rewrite li_next_step; cbn [li_inner li_n].
  - destruct L as (T & s' & L & K'). rewrite L. exists s'. split; [exact K'|]. left. split; [exact T|]. cbn [length]. rewrite N.add_0_r. reflexivity.
  - destruct L as (s' & L). rewrite L. eauto.
  - destruct L as (s' & L & _). rewrite L. apply line_of_none in E; [|exact O]. rewrite E. eauto.
  - destruct L as (s' & L & R). rewrite L. apply line_of_iff in E; [|exact O]. rewrite E.
    destruct R as [(b' & C' & K' & T)|(-> & -> & T & K')].
    + specialize (IH b' s' b1 bs f C' K').
      assert (forall m, n + 1 + N.of_nat (length ls) = m -> n + N.of_nat (length (s :: ls)) = m) as AR by (cbn [length]; lia).
      rewrite (AR _ eq_refl). destruct pl as [|l pl].
      * destruct tl as [x|]; [exact IH|]. destruct IH as (s2 & K2 & IH). exists s2. split; [exact K2|]. tauto.
      * destruct IH as (s2 & n2 & E2 & R2). exists s2, n2. split; [exact E2|]. destruct R2 as [(b2 & ls2 & R2)|R2]; [left; exists b2, ls2; tauto|right; tauto].
    + inversion H; subst. exists s'. split; [exact K'|]. right. split; [exact T|]. cbn [length]. reflexivity.
  - destruct L as (s' & L & R). rewrite L. apply line_of_iff in E; [|exact O]. rewrite E. exists s', (n + 1). split; [destruct l; [contradiction|reflexivity..]|].
    destruct R as [(b' & C' & K' & T)|(-> & -> & T & K')].
    + left. exists b', ls. split; [exact C'|]. split; [exact H|]. split; [exact K'|]. split; [exact T|]. cbn [length]. lia.
    + right. inversion H; subst. split; [reflexivity|]. split; [reflexivity|]. split; [exact T|]. split; [exact K'|]. cbn [length]. lia.
Qed.

Definition will (it : line_iter) (rs : lines) : Prop :=
  represents it rs \/ exists s bs f, li_inner it = Some s /\ keeps s bs f /\ answers (li_n it) bs f rs.
Lemma answers_next n bs f rs : answers n bs f rs -> forall s, keeps s bs f ->
  exists it', li_next (LineIter n (Some s)) = (hd None rs, it') /\ will it' (tl rs).
Proof.
  induction 1 as [n b f ls e pl tl C P|n b b' bs f ls e pl x C P|n b bs f ls pl rs C P T A IH|n b bs f ls pl rs C P T A IH]; intros s K.
  - destruct K as (b0 & bs0 & P0 & E). injection E as -> <-. apply pieces_one in P0.
    assert (represents (LineIter n (Some s)) (listing pl tl)) as R.
    { cbn [represents li_inner li_n]. exists (s_buf s ++ b0), f, ls, e. split; [exact C|]. split; [exists b0; auto|symmetry; apply parsed_items; exact P]. }
    apply li_next_represents in R. change (map (fun l => Some (ILine l)) pl ++ match tl with Some e0 => [Some (IFail e0)] | None => [] end) with (listing pl tl).
    destruct (listing pl tl) as [|x rs]; destruct R as (it' & E & R); exists it'; (split; [exact E|left; exact R]).
  - pose proof (li_next_parsed _ _ _ _ _ P _ _ _ _ _ C K) as L. destruct pl as [|l pl]; cbn [map app hd tl].
    + destruct L as (n' & L). rewrite L. eexists; split; [reflexivity|]. left. reflexivity.
    + destruct L as (s' & n' & L & R). rewrite L. eexists; split; [reflexivity|]. destruct R as [(b2 & ls2 & C2 & P2 & K2 & _)|(_ & R & _)]; [|discriminate].
      right. exists s', (b2 :: b' :: bs), f. split; [reflexivity|]. split; [exact K2|]. eapply an_stop; eassumption.
  - destruct bs as [|b1 bs]; [inversion A|]. pose proof (li_next_parsed _ _ _ _ _ P _ _ _ _ _ C K) as L. destruct pl as [|l pl]; cbn [map app hd tl].
    + destruct L as (s' & K' & [[_ L]|[N _]]); [|contradiction]. rewrite L. eexists; split; [reflexivity|]. right. exists s', (b1 :: bs), f. auto.
    + destruct L as (s' & n' & L & R). rewrite L. eexists; split; [reflexivity|]. destruct R as [(b2 & ls2 & C2 & P2 & K2 & T2 & N2)|(_ & _ & R & _)]; [|contradiction].
      right. exists s', (b2 :: b1 :: bs), f. split; [reflexivity|]. split; [exact K2|]. eapply an_report; [exact C2|exact P2|tauto|]. cbn [li_n]; rewrite N2. exact A.
  - destruct bs as [|b1 bs]; [inversion A|]. pose proof (li_next_parsed _ _ _ _ _ P _ _ _ _ _ C K) as L. destruct pl as [|l pl]; cbn [map app hd tl].
    + destruct L as (s' & K' & [[N _]|[_ L]]); [contradiction|]. rewrite L. exact (IH s' K').
    + destruct L as (s' & n' & L & R). rewrite L. eexists; split; [reflexivity|]. destruct R as [(b2 & ls2 & C2 & P2 & K2 & T2 & N2)|(-> & _ & _ & K2 & ->)].
      * right. exists s', (b2 :: b1 :: bs), f. split; [reflexivity|]. split; [exact K2|]. eapply an_go_on; [exact C2|exact P2|tauto|]. cbn [li_n]; rewrite N2. exact A.
      * right. exists s', (b1 :: bs), f. split; [reflexivity|]. split; [exact K2|]. exact A.
Qed.
Lemma poll_will k : forall it rs, will it rs -> poll k it = nth k rs None.
Proof.
  induction k as [|k IH]; intros it rs W.
  - destruct W as [R|(s & bs & f & I & K & A)].
    + exact (poll_represents 0 it rs R).
    + destruct it as [n inner]. cbn in I, A. subst inner. destruct (answers_next _ _ _ _ A s K) as (it' & E & _). cbn [poll]. rewrite E. destruct rs; reflexivity.
  - destruct W as [R|(s & bs & f & I & K & A)].
    + exact (poll_represents (S k) it rs R).
    + destruct it as [n inner]. cbn in I, A. subst inner. destruct (answers_next _ _ _ _ A s K) as (it' & E & W). cbn [poll]. rewrite E. cbn [snd].
      rewrite (IH _ _ W). destruct rs; [destruct k; reflexivity|reflexivity].
Qed.
(** Call k of the line iterator, for every stream. *)
Theorem any_calls evs bs f rs k : pieces evs bs f -> answers 1 bs f rs -> poll k (li_new evs) = nth k rs None.
Proof.
  intros P A. apply poll_will. right. exists (Source [] evs), bs, f. split; [reflexivity|]. split; [apply keeps_events; exact P|exact A].
Qed.
Lemma terminated_dec b : terminated b \/ ~ terminated b.
Proof.
  destruct b as [|x b] using rev_ind; [left; left; reflexivity|]. destruct (N.eq_dec x 10) as [->|N]; [left; right; eauto|].
  right. intros [H|(b' & H)]; [destruct b; discriminate|]. apply app_inj_tail in H as [_ H]. contradiction.
Qed.
Theorem answers_total bs : forall f n, bs <> [] -> exists rs, answers n bs f rs.
Proof.
  induction bs as [|b bs IH]; intros f n NE; [contradiction|]. destruct bs as [|b1 bs].
  - destruct (contents_total b f) as (ls & e & C). destruct (parsed_total ls e (contents_one_line _ _ _ _ C) n) as (pl & tl & P). eexists; eapply an_last; eassumption.
  - destruct (contents_total b None) as (ls & e & C). destruct (parsed_total ls e (contents_one_line _ _ _ _ C) n) as (pl & tl & P).
    destruct tl as [x|]; [eexists; eapply an_stop; eassumption|].
    destruct (IH f (n + N.of_nat (length ls)) ltac:(discriminate)) as (rs & A).
    assert (e = None) as -> by (clear - P; remember None as t eqn:Q; induction P; try discriminate; auto).
    destruct (terminated_dec b) as [T|T]; eexists; [eapply an_report|eapply an_go_on]; eassumption.
Qed.

(** * Catalogues *)
Lemma answers_clean n bs f rs : answers n bs f rs -> clean rs.
Proof.
  assert (forall n ls e pl tl, parsed n ls e pl tl -> clean (map (fun l => Some (ILine l)) pl)) as K.
  { intros n0 ls e pl tl P I. apply parsed_items in P. pose proof (items_clean ls e n0) as CL. apply CL. rewrite P. unfold listing. apply in_or_app; left; exact I. }
  assert (forall a b, clean a -> clean b -> clean (a ++ b)) as KA by (intros a b Ha Hb I; apply in_app_or in I as [I|I]; auto).
  induction 1 as [n b f ls e pl tl C P|n b b' bs f ls e pl x C P|n b bs f ls pl rs C P T A IH|n b bs f ls pl rs C P T A IH]; apply KA; eauto.
  - destruct tl; intros I; cbn in I; intuition discriminate.
  - intros I; cbn in I; intuition discriminate.
  - intros [I|I]; [discriminate|exact (IH I)].
Qed.
Theorem any_catalogue lib pf evs bs f rs o : pieces evs bs f -> answers 1 bs f rs ->
  (read_catalogue lib pf evs = o <-> catalogue_of lib pf rs o).
Proof.
  intros P A. rewrite read_catalogue_of.
  assert (lsim eq eq rs (responses (li_new evs))) as L.
  { apply same_lsim; [exact (answers_clean _ _ _ _ A)|]. intros k. rewrite responses_exact. symmetry. exact (any_calls _ _ _ _ _ P A). }
  assert (forall o o', catalogue_of lib pf rs o -> catalogue_of lib pf (responses (li_new evs)) o' -> o = o') as K.
  { intros o1 o2 H1 H2. apply catalogue_sim_eq. exact (catalogue_of_sim eq eq (@eq_refl _) _ _ _ _ _ _ L H1 H2). }
  assert (forall x, exists o, catalogue_of lib pf x o) as T.
  { intros x. pose proof (reader_new_cases lib pf x) as R. destruct (reader_new lib pf x); [|eauto|contradiction].
    destruct R as (l & _ & _ & R). eauto. }
  split; intros H.
  - destruct (T rs) as (o' & H'). rewrite <- (K _ _ H' H). exact H'.
  - destruct (T (responses (li_new evs))) as (o' & H'). rewrite (K _ _ H H'). exact H'.
Qed.

(** ** A report of the end after a comment *)
Section Leaves.
  Variables (n : N) (kind : char) (text : str).
  Notation cm := (Some (ILine (PComment n kind text))).
  Definition leaves {A} (f : lines -> res A) : Prop := forall c, snd (f (c ++ [cm])) <> [].
  Lemma bind_leaves {A B} (f : lines -> res A) (g : A -> lines -> res B) :
    leaves f -> (forall ls, suffix (snd (f ls)) ls) -> (forall a, leaves (g a)) -> leaves (fun ls => bind (f ls) g).
  Proof.
    intros Lf Sf Lg c. specialize (Lf c). specialize (Sf (c ++ [cm])). destruct (f (c ++ [cm])) as [[a|e|] r]; cbn [bind snd] in *; [|exact Lf..].
    apply suffix_snoc in Sf as [->|(c2 & -> & _)]; [contradiction|]. apply Lg.
  Qed.
  Lemma ret_leaves {A} (o : outcome A) : leaves (fun ls => (o, ls)).
  Proof. intros c. cbn. destruct c; discriminate. Qed.
  Lemma append_conts_leaves p s : leaves (append_conts p s).
  Proof.
    intros c; revert s; induction c as [|j c IH]; intros s; cbn [app append_conts]; [discriminate|].
    destruct j as [[[|m k t|m q tag t|m q t]|e]|]; try discriminate; try (cbn [snd]; destruct c; discriminate).
    destruct (str_eqb q p); [apply IH|discriminate].
  Qed.
  Lemma parse_msg_leaves o t : leaves (parse_msg o t).
  Proof.
    intros c. rewrite parse_msg_eq. destruct c as [|j c]; cbn [app]; [discriminate|].
    destruct j as [[[|m k s|m q tag s|m q s]|e]|]; try discriminate; try (cbn [snd]; destruct c; discriminate).
    destruct (_ && _); [apply append_conts_leaves|discriminate].
  Qed.
  Lemma expected_leaves z : leaves (expected z).
  Proof.
    intros c. unfold expected, peek, next. destruct c as [|j c]; cbn [app hd tl]; [discriminate|].
    destruct j as [[[|m k s|m q tag s|m q s]|e]|]; try discriminate. cbn [snd]. destruct c; discriminate.
  Qed.
  Lemma parse_values_leaves o k : forall i vs, leaves (parse_values o k i vs).
  Proof.
    induction k as [|k IH]; intros i vs; cbn [parse_values]; [apply ret_leaves|].
    apply bind_leaves; [apply parse_msg_leaves|apply parse_msg_suffix|intros; apply IH].
  Qed.
  Lemma expected_none_leaves {A} z (o : outcome A) : leaves (fun ls => bind (expected z ls) (fun _ l => (o, l))).
  Proof. apply bind_leaves; [apply expected_leaves|apply expected_suffix|intros; apply ret_leaves]. Qed.
  Lemma new_message_leaves forms o id pl : leaves (new_message forms o id pl).
  Proof.
    unfold new_message. destruct id as [id|]; [|apply ret_leaves]. destruct pl as [pl|].
    - apply bind_leaves; [apply parse_values_leaves|apply parse_values_suffix|]. intros vs. destruct (is_empty vs); [apply expected_none_leaves|apply ret_leaves].
    - apply bind_leaves; [apply parse_msg_leaves|apply parse_msg_suffix|]. intros [t|]; [apply ret_leaves|apply expected_none_leaves].
  Qed.
  Lemma parse_message_fields_leaves forms first u : leaves (parse_message_fields forms first u).
  Proof.
    unfold parse_message_fields.
    apply bind_leaves; [apply parse_msg_leaves|apply parse_msg_suffix|]. intros pc.
    apply bind_leaves; [apply parse_msg_leaves|apply parse_msg_suffix|]. intros pi.
    apply bind_leaves; [destruct pi; [apply parse_msg_leaves|apply ret_leaves]|destruct pi; intros; [apply parse_msg_suffix|cbn; auto]|]. intros pp.
    apply bind_leaves; [apply parse_msg_leaves|apply parse_msg_suffix|]. intros c.
    apply bind_leaves; [apply parse_msg_leaves|apply parse_msg_suffix|]. intros i.
    destruct (_ && _); [apply expected_none_leaves|].
    apply bind_leaves; [apply parse_msg_leaves|apply parse_msg_suffix|]. intros pl.
    apply bind_leaves; [apply new_message_leaves|apply new_message_suffix|]. intros [m|]; apply ret_leaves.
  Qed.
End Leaves.
Lemma parse_comments_all c : forall u v, parse_comments u c = (Ok v, []) -> forall x, parse_comments u (c ++ None :: x) = (Ok v, None :: x).
Proof.
  induction c as [|i c IH]; intros u v H x; cbn [app parse_comments] in *; [injection H as ->; reflexivity|].
  destruct i as [[[|m k t|m q tag t|m q t]|e]|]; try discriminate. exact (IH _ _ H x).
Qed.
Lemma parse_comments_err_leaves n k s c : forall u e r, parse_comments u (c ++ [Some (ILine (PComment n k s))]) = (Err e, r) -> r <> [].
Proof.
  induction c as [|i c IH]; intros u e r H; cbn [app parse_comments] in *; [discriminate|].
  destruct i as [[[|m k0 t|m q tag t|m q t]|e0]|]; try discriminate; [exact (IH _ _ _ H)|]. injection H as _ <-. destruct c; discriminate.
Qed.
(** Lines that end with a comment, or no lines. *)
Definition commentary (c : lines) : Prop := c = [] \/ exists c' n k s, c = c' ++ [Some (ILine (PComment n k s))].
Lemma commentary_suffix r c : suffix r c -> commentary c -> commentary r.
Proof.
  intros S [->|(c' & n & k & s & ->)].
  - left. destruct S as (p & E). symmetry in E. apply app_eq_nil in E as [_ ->]. reflexivity.
  - apply suffix_snoc in S as [->|(c2 & -> & _)]; [left; reflexivity|]. right. eauto.
Qed.
Lemma runit_commentary forms first c o r x : commentary c -> runit forms first c = (o, r) ->
  (r <> [] /\ runit forms first (c ++ None :: x) = (o, r ++ None :: x))
  \/ (r = [] /\ o = Ok None /\ runit forms first (c ++ None :: x) = (Ok None, None :: x)).
Proof.
  intros K H. destruct r as [|y r].
  - right. split; [reflexivity|]. unfold runit in *.
    pose proof (parse_comments_suffix c unit_default) as S. destruct (parse_comments unit_default c) as [[u|e|] l1] eqn:E; cbn [bind snd] in *.
    + destruct l1 as [|i l1].
      * rewrite (parse_comments_all _ _ _ E x). cbn [bind peek hd] in *. injection H as <-. auto.
      * exfalso. destruct K as [->|(c' & n & k & s & ->)]; [destruct S as (p & S); destruct p; discriminate|].
        apply suffix_snoc in S as [S|(c2 & S & _)]; [discriminate|].
        destruct (peek (i :: l1)) as [[l|e]|] eqn:P; try discriminate.
        pose proof (parse_message_fields_leaves n k s forms first (set_obsolete u (line_obsolete l)) c2) as L. rewrite <- S in L.
        destruct (parse_message_fields forms first (set_obsolete u (line_obsolete l)) (i :: l1)) as [[v|e|] l2]; cbn [bind snd] in *.
        -- apply (f_equal snd) in H. rewrite finish_unit_lines in H. cbn in H. contradiction.
        -- injection H as _ ->. contradiction.
        -- injection H as _ ->. contradiction.
    + exfalso. injection H as _ ->. destruct K as [->|(c' & n & k & s & ->)]; [discriminate|]. exact (parse_comments_err_leaves _ _ _ _ _ _ _ E eq_refl).
    + pose proof (parse_comments_no_panic c unit_default) as NP. unfold no_panic in NP. rewrite E in NP. contradiction.
  - left. split; [discriminate|]. apply (runit_local forms first c [] o (y :: r) ltac:(discriminate)). rewrite !app_nil_r. exact H.
Qed.
Lemma reads_commentary forms c l : reads forms c l -> commentary c -> forall x, reads forms (c ++ None :: x) l.
Proof.
  induction 1 as [ls r E|ls e r E|ls u r l E H IH]; intros K x; destruct (runit_commentary _ _ _ _ _ x K E) as [[N E']|(-> & Q & E')]; try discriminate.
  - eapply reads_end; exact E'.
  - eapply reads_end; exact E'.
  - eapply reads_err; exact E'.
  - eapply reads_unit; [exact E'|]. apply IH. eapply commentary_suffix; [|exact K]. pose proof (runit_suffix forms false ls) as S. rewrite E in S. exact S.
Qed.
Theorem catalogue_commentary lib pf c o x : commentary c -> catalogue_of lib pf c o -> catalogue_of lib pf (c ++ None :: x) o.
Proof.
  intros K H. assert (forall a r, runit None true c = (a, r) -> commentary r) as KR.
  { intros a r E. eapply commentary_suffix; [|exact K]. pose proof (runit_suffix None true c) as S. rewrite E in S. exact S. }
  destruct H as [e r E|r E|u r l E M R|u r e E M F|u r forms l E M F R]; destruct (runit_commentary _ _ _ _ _ x K E) as [[N E']|(-> & Q & E')]; try discriminate.
  - eapply co_err; exact E'.
  - eapply co_empty; exact E'.
  - eapply co_empty; exact E'.
  - eapply co_plain; [exact E'|exact M|]. apply reads_commentary; [exact R|exact (KR _ _ E)].
  - eapply co_bad_header; [exact E'|exact M|exact F].
  - eapply co_header; [exact E'|exact M|exact F|]. apply reads_commentary; [exact R|exact (KR _ _ E)].
Qed.
Lemma listing_commentary pl : (pl = [] \/ exists pl' n k s, pl = pl' ++ [PComment n k s]) -> commentary (listing pl None).
Proof.
  intros [->|(pl' & n & k & s & ->)]; [left; reflexivity|]. right. unfold listing. rewrite app_nil_r, map_app. cbn [map]. eauto.
Qed.
Theorem end_after_comment lib pf evs evs0 b b1 bs f ls e pl tl : pieces evs (b :: b1 :: bs) f -> delivers evs0 b None -> contents b None ls e -> parsed 1 ls e pl tl ->
  tl <> None \/ (terminated b /\ (pl = [] \/ exists pl' n k s, pl = pl' ++ [PComment n k s])) ->
  read_catalogue lib pf evs = read_catalogue lib pf evs0.
Proof.
  intros P D C PS H. destruct tl as [x|].
  - apply (any_catalogue lib pf _ _ _ _ _ P (an_stop _ _ _ _ _ _ _ _ _ C PS)).
    exact (proj1 (proj1 (file_catalogue lib pf _ _ _ _ _ _ _ (read_catalogue lib pf evs0) D C PS)) eq_refl).
  - destruct H as [H|[T K]]; [contradiction|].
    assert (e = None) as -> by (clear - PS; remember None as t eqn:Q; induction PS; try discriminate; auto).
    destruct (answers_total (b1 :: bs) f (1 + N.of_nat (length ls)) ltac:(discriminate)) as (rs & A).
    apply (any_catalogue lib pf _ _ _ _ _ P (an_report _ _ _ _ _ _ _ C PS T A)).
    pose proof (proj1 (catalogue_contents lib pf _ _ _ _ _ _ D C) eq_refl) as H0. rewrite (parsed_items _ _ _ _ _ PS) in H0.
    pose proof (catalogue_commentary lib pf _ _ rs (listing_commentary _ K) H0) as H1. unfold listing in H1. rewrite app_nil_r in H1. exact H1.
Qed.
(** In any case everything but the last item is there. *)
Theorem end_cut lib pf evs evs0 b b1 bs f l0 z : pieces evs (b :: b1 :: bs) f -> delivers evs0 b None ->
  delivered (read_catalogue lib pf evs0) = l0 ++ [z] -> exists rest, delivered (read_catalogue lib pf evs) = l0 ++ rest.
Proof.
  intros P D HD. destruct (contents_total b None) as (ls & e & C). destruct (parsed_total ls e (contents_one_line _ _ _ _ C) 1) as (pl & tl & PS).
  pose proof (proj1 (catalogue_contents lib pf _ _ _ _ _ _ D C) eq_refl) as H0. rewrite (parsed_items _ _ _ _ _ PS) in H0.
  destruct tl as [x|].
  - exists [z]. rewrite <- HD. f_equal. apply (any_catalogue lib pf _ _ _ _ _ P (an_stop _ _ _ _ _ _ _ _ _ C PS)). exact H0.
  - assert (e = None) as -> by (clear - PS; remember None as t eqn:Q; induction PS; try discriminate; auto).
    destruct (answers_total (b1 :: bs) f (1 + N.of_nat (length ls)) ltac:(discriminate)) as (rs & A).
    assert (exists x, catalogue_of lib pf (listing pl None ++ x) (read_catalogue lib pf evs)) as (x & H1).
    { unfold listing. rewrite app_nil_r. destruct (terminated_dec b) as [T|T].
      - eexists. exact (proj1 (any_catalogue lib pf _ _ _ _ _ P (an_report _ _ _ _ _ _ _ C PS T A)) eq_refl).
      - eexists. exact (proj1 (any_catalogue lib pf _ _ _ _ _ P (an_go_on _ _ _ _ _ _ _ C PS T A)) eq_refl). }
    eapply delivered_cut; [exact H0|exact H1| |exact HD].
    intros a b0 p t Eo N. rewrite Eo in H0. exact (catalogue_cut lib pf _ _ _ _ _ _ _ H0 N x).
Qed.
Theorem all_calls evs : exists bs f rs, pieces evs bs f /\ answers 1 bs f rs /\ forall k, poll k (li_new evs) = nth k rs None.
Proof.
  destruct (pieces_total evs) as (b & bs & f & P). destruct (answers_total (b :: bs) f 1 ltac:(discriminate)) as (rs & A).
  exists (b :: bs), f, rs. split; [exact P|]. split; [exact A|]. intros k. exact (any_calls _ _ _ _ k P A).
Qed.

(** * Witnesses *)
Theorem end_passed : exists b1 b2 x y,
  delivered (read_catalogue demo_lib demo_pf [RdData b1]) = [UOk x]
  /\ delivered (read_catalogue demo_lib demo_pf [RdData b1; RdData []; RdData b2]) = [UOk x; UOk y].
Proof.
  exists (utf8 (lit "msgid ""a""") ++ [10] ++ utf8 (lit "msgstr ""b""") ++ [10]), (utf8 (lit "msgid ""c""") ++ [10] ++ utf8 (lit "msgstr ""d""")).
  do 2 eexists. split; vm_compute; reflexivity.
Qed.
Theorem end_inside_entry : exists b1 b2 x,
  delivered (read_catalogue demo_lib demo_pf [RdData b1]) = []
  /\ read_catalogue demo_lib demo_pf [RdData b1; RdData []; RdData b2] = read_catalogue demo_lib demo_pf [RdData (b1 ++ b2)]
  /\ delivered (read_catalogue demo_lib demo_pf [RdData b1; RdData []; RdData b2]) = [UOk x].
Proof.
  exists (utf8 (lit "msgid ""a""") ++ [10]), (utf8 (lit "msgstr ""b""")). eexists. repeat split; vm_compute; reflexivity.
Qed.
Lemma end_example : pieces [RdData (utf8 (lit "# a") ++ [10; 10] ++ utf8 (lit "# b")); RdData []; RdData (utf8 (lit "# c") ++ [10]); RdData []; RdData []; RdData (utf8 (lit "# d"))]
  [utf8 (lit "# a") ++ [10; 10] ++ utf8 (lit "# b"); utf8 (lit "# c") ++ [10]; []; utf8 (lit "# d")] None.
Proof.
  pose proof (pc_data (utf8 (lit "# d")) _ _ _ _ ltac:(discriminate) pc_end) as P.
  pose proof (pc_data (utf8 (lit "# c") ++ [10]) _ _ _ _ ltac:(discriminate) (pc_report _ _ _ (pc_report _ _ _ P))) as P1.
  exact (pc_data (utf8 (lit "# a") ++ [10; 10] ++ utf8 (lit "# b")) _ _ _ _ ltac:(discriminate) (pc_report _ _ _ P1)).
Qed.
