(** How strings are cut into continuation lines is irrelevant. *)
From Coq Require Import String Arith NArith ZArith Bool List Lia.
From Verif Require Import ModelBase ModelUtf8 ModelLine ModelFormula ModelData ModelSource ModelReader
  SpecLine SpecSource SpecReader SpecBlock SpecHeader SpecFile BaseFacts LineFacts DecFacts SourceFacts IterFacts ReaderFacts ReadsFacts CatalogueFacts LocalFacts
  BlockFacts BlocksFacts FileFacts.
Import ListNotations.

Section Split.
  Variable Rn : N -> N -> Prop.
  Definition lsplit (a b : lines) : Prop :=
    exists pl pl' tl tl', a = listing pl tl /\ b = listing pl' tl' /\ resplit Rn pl pl' /\ same_end Rn tl tl'.
  Definition rsplit {A} (m m' : res A) : Prop :=
    lsplit (snd m) (snd m') /\
    match fst m, fst m' with
    | Ok x, Ok y => x = y
    | Err e, Err e' => error_sim Rn eq e e'
    | Panic, Panic => True
    | _, _ => False
    end.
  Lemma bind_split {A B} (m m' : res A) (f f' : A -> lines -> res B) :
    rsplit m m' -> (forall a l l', lsplit l l' -> rsplit (f a l) (f' a l')) -> rsplit (bind m f) (bind m' f').
  Proof.
    destruct m as [[a|e|] l], m' as [[a'|e'|] l']; intros [Hl H] Hf; cbn in *; try contradiction; try (split; assumption).
    subst. apply Hf, Hl.
  Qed.
  Lemma ret_split {A} (x : A) a b : lsplit a b -> rsplit (Ok x, a) (Ok x, b).
  Proof. intros H; split; [exact H|reflexivity]. Qed.
  Lemma lsplit_intro pl pl' tl tl' : resplit Rn pl pl' -> same_end Rn tl tl' -> lsplit (listing pl tl) (listing pl' tl').
  Proof. intros R E. exists pl, pl', tl, tl'. auto. Qed.
  Lemma lsplit_end : lsplit [] [].
  Proof. exact (lsplit_intro [] [] None None (rs_nil _) (se_end _)). Qed.

  (** A field takes all its continuation lines. *)
  Lemma append_strings p cs x a tl : strings p cs x -> not_continued p a -> forall s,
    append_conts p s (listing (cs ++ a) tl) =
    match a, tl with [], Some e => (Err e, []) | _, _ => (Ok (Some (s ++ x)), listing a tl) end.
  Proof.
    intros St NC. induction St as [|n t cs x St IH]; intros s; cbn [app].
    - rewrite app_nil_r. destruct a as [|[|n k t|n q t u|n q t] a]; [destruct tl; reflexivity|reflexivity|reflexivity|reflexivity|].
      cbn [listing map app append_conts]. destruct (str_eqb_spec q p) as [->|D]; [destruct (NC _ _ _ eq_refl)|reflexivity].
    - rewrite listing_cons. cbn [append_conts]. destruct (str_eqb_spec p p) as [_|D]; [|congruence]. rewrite IH, app_assoc. reflexivity.
  Qed.
  Lemma parse_msg_split o t a b : lsplit a b -> rsplit (parse_msg o t a) (parse_msg o t b).
  Proof.
    intros (pl & pl' & tl & tl' & -> & -> & R & E). pose proof (lsplit_intro _ _ _ _ R E) as L0. rewrite !parse_msg_eq.
    destruct R as [|n n' k s a b Hn R|n n' p tg s s' cs cs' x x' a b Hn S S' Ex NC NC' R|n n' p s a b Hn R].
    - destruct E as [|e e' He]; cbn; [apply ret_split, lsplit_end|]. split; [exact lsplit_end|exact He].
    - rewrite !listing_cons in *. apply ret_split, L0.
    - rewrite !listing_cons in *. destruct (_ && _); [|apply ret_split, L0].
      rewrite (append_strings p cs x a tl S NC), (append_strings p cs' x' b tl' S' NC'), Ex. pose proof (lsplit_intro _ _ _ _ R E) as L1.
      destruct R; destruct E as [|e e' He]; try (apply ret_split, L1). split; [exact lsplit_end|exact He].
    - rewrite !listing_cons in *. apply ret_split, L0.
  Qed.
  Lemma expected_split x a b : lsplit a b -> rsplit (expected x a) (expected x b).
  Proof.
    intros (pl & pl' & tl & tl' & -> & -> & R & E). pose proof (lsplit_intro _ _ _ _ R E) as L0.
    destruct R as [|n n' k s a b Hn R|n n' p tg s s' cs cs' y y' a b Hn S S' Ex NC NC' R|n n' p s a b Hn R].
    - destruct E as [|e e' He]; cbn; [apply ret_split, lsplit_end|]. split; [exact lsplit_end|exact He].
    - split; [exact L0|]. cbn. constructor; [exact Hn|reflexivity].
    - split; [exact L0|]. cbn. constructor; [exact Hn|reflexivity].
    - split; [exact L0|]. cbn. constructor; [exact Hn|reflexivity].
  Qed.
  Lemma parse_values_split o k : forall i vs a b, lsplit a b -> rsplit (parse_values o k i vs a) (parse_values o k i vs b).
  Proof.
    induction k as [|k IH]; intros i vs a b H; cbn [parse_values]; [apply ret_split, H|].
    apply bind_split; [apply parse_msg_split, H|]. intros v l l' Hl. apply IH, Hl.
  Qed.
  Lemma new_message_split forms o id pl a b : lsplit a b -> rsplit (new_message forms o id pl a) (new_message forms o id pl b).
  Proof.
    intros H. unfold new_message. destruct id as [id|]; [|apply ret_split, H]. destruct pl as [pl|].
    - apply bind_split; [apply parse_values_split, H|]. intros vs l l' Hl. destruct (is_empty vs); [|apply ret_split, Hl].
      apply bind_split; [apply expected_split, Hl|]. intros; apply ret_split; assumption.
    - apply bind_split; [apply parse_msg_split, H|]. intros [t|] l l' Hl; [apply ret_split, Hl|].
      apply bind_split; [apply expected_split, Hl|]. intros; apply ret_split; assumption.
  Qed.
  Lemma parse_message_fields_split forms first u a b : lsplit a b ->
    rsplit (parse_message_fields forms first u a) (parse_message_fields forms first u b).
  Proof.
    intros H. unfold parse_message_fields.
    apply bind_split; [apply parse_msg_split, H|]. clear a b H; intros pc a b H.
    apply bind_split; [apply parse_msg_split, H|]. clear a b H; intros pi a b H.
    apply bind_split; [destruct pi; [apply parse_msg_split, H|apply ret_split, H]|]. clear a b H; intros pp a b H.
    apply bind_split; [apply parse_msg_split, H|]. clear a b H; intros c a b H.
    apply bind_split; [apply parse_msg_split, H|]. clear a b H; intros i a b H.
    destruct (negb first && _).
    - apply bind_split; [apply expected_split, H|]. intros; apply ret_split; assumption.
    - apply bind_split; [apply parse_msg_split, H|]. clear a b H; intros pl a b H.
      apply bind_split; [apply new_message_split, H|]. intros [m|] ? ? ?; apply ret_split; assumption.
  Qed.
  Lemma parse_comments_split a b : lsplit a b -> forall u, rsplit (parse_comments u a) (parse_comments u b).
  Proof.
    intros (pl & pl' & tl & tl' & -> & -> & R & E). induction R as [|n n' k s a b Hn R IH|n n' p tg s s' cs cs' y y' a b Hn S S' Ex NC NC' R IH|n n' p s a b Hn R IH]; intros u.
    - destruct E as [|e e' He]; cbn; [apply ret_split, lsplit_end|]. split; [exact lsplit_end|exact He].
    - rewrite !listing_cons. cbn [parse_comments]. apply IH.
    - refine (ret_split u (listing (PMessage n p tg s :: cs ++ a) tl) (listing (PMessage n' p tg s' :: cs' ++ b) tl') _).
      apply lsplit_intro; [|exact E]. eapply rs_field; eassumption.
    - refine (ret_split u (listing (PCont n p s :: a) tl) (listing (PCont n' p s :: b) tl') _).
      apply lsplit_intro; [|exact E]. apply rs_stray; assumption.
  Qed.
  Theorem runit_split forms first a b : lsplit a b -> rsplit (runit forms first a) (runit forms first b).
  Proof.
    intros H. unfold runit. apply bind_split; [apply parse_comments_split, H|]. clear a b H; intros u a b H.
    pose proof H as L0. destruct H as (pl & pl' & tl & tl' & -> & -> & R & E).
    assert (forall l l' r r', listing pl tl = Some (ILine l) :: r -> listing pl' tl' = Some (ILine l') :: r' ->
      line_obsolete l = line_obsolete l' -> Rn (po_line_no l) (po_line_no l') ->
      rsplit (do o, ls <- parse_message_fields forms first (set_obsolete u (line_obsolete l)) (listing pl tl); finish_unit first (po_line_no l) o ls)
             (do o, ls <- parse_message_fields forms first (set_obsolete u (line_obsolete l')) (listing pl' tl'); finish_unit first (po_line_no l') o ls)) as K.
    { intros l l' r r' _ _ -> Hn. apply bind_split; [apply parse_message_fields_split, L0|]. intros [v|] a' b' H'; cbn [finish_unit]; [|apply ret_split, H'].
      destruct (negb first && _); [|apply ret_split, H']. split; [exact H'|]. cbn. constructor; exact Hn. }
    destruct R as [|n n' k s a b Hn R|n n' p tg s s' cs cs' y y' a b Hn S S' Ex NC NC' R|n n' p s a b Hn R].
    - destruct E; apply ret_split, L0.
    - eapply (K (PComment n k s) (PComment n' k s)); try reflexivity; exact Hn.
    - eapply (K (PMessage n p tg s) (PMessage n' p tg s')); try reflexivity; exact Hn.
    - eapply (K (PCont n p s) (PCont n' p s)); try reflexivity; exact Hn.
  Qed.
  Lemma reads_split forms a b l l' : lsplit a b -> reads forms a l -> reads forms b l' -> Forall2 (uitem_sim Rn eq) l l'.
  Proof.
    intros S H; revert b l' S; induction H as [a a' E|a e a' E|a u a' l E H IH]; intros b l' S H';
      destruct (runit_split forms false _ _ S) as [Hl Ho]; rewrite E in Hl, Ho; cbn [fst snd] in Hl, Ho;
      inversion H' as [b0 b' E'|b0 e' b' E'|b0 u' b' l0 E' H0]; subst; rewrite E' in Hl, Ho; cbn [fst snd] in Hl, Ho; try contradiction; try discriminate.
    - constructor.
    - repeat constructor; exact Ho.
    - injection Ho as <-. constructor; [constructor|]. exact (IH _ _ Hl H0).
  Qed.
  Theorem catalogue_of_split lib pf a b o o' : lsplit a b ->
    catalogue_of lib pf a o -> catalogue_of lib pf b o' -> catalogue_sim Rn eq o o'.
  Proof.
    intros S H H'. destruct (runit_split None true _ _ S) as [Hl Ho].
    destruct H as [e a' E|a' E|u a' l E M R|u a' e E M F|u a' forms l E M F R]; rewrite E in Hl, Ho;
      destruct H' as [e0 b' E'|b' E'|u' b' l' E' M' R'|u' b' e' E' M' F'|u' b' forms' l' E' M' F' R']; rewrite E' in Hl, Ho;
      cbn [fst snd] in Hl, Ho; try contradiction; try discriminate; try (injection Ho as <-); try congruence.
    - constructor; exact Ho.
    - constructor; constructor.
    - constructor. constructor; [constructor|]. exact (reads_split _ _ _ _ _ Hl R R').
    - rewrite F in F'. injection F' as <-. constructor. eapply header_forms_err. exact F.
    - assert (forms = forms') as <- by congruence. constructor. exact (reads_split _ _ _ _ _ Hl R R').
  Qed.
End Split.

Theorem split_irrelevant lib pf Rn evs evs' ls ls' e e' pl pl' tl tl' : file evs ls e pl tl -> file evs' ls' e' pl' tl' ->
  resplit Rn pl pl' -> same_end Rn tl tl' -> catalogue_sim Rn eq (read_catalogue lib pf evs) (read_catalogue lib pf evs').
Proof.
  intros (bs & f & D & C & P) (bs' & f' & D' & C' & P') R E. eapply (catalogue_of_split Rn lib pf); [exact (lsplit_intro Rn _ _ _ _ R E)| |].
  - apply (file_catalogue lib pf evs bs f ls e pl tl _ D C P). reflexivity.
  - apply (file_catalogue lib pf evs' bs' f' ls' e' pl' tl' _ D' C' P'). reflexivity.
Qed.
(** The same units, and an error in both or in neither. *)
Corollary split_units lib pf evs evs' ls ls' e e' pl pl' : file evs ls e pl None -> file evs' ls' e' pl' None ->
  resplit (fun _ _ => True) pl pl' -> forall c, read_catalogue lib pf evs = Ok c ->
  exists c', read_catalogue lib pf evs' = Ok c' /\ same_header c c' /\ units (c_items c') = units (c_items c).
Proof.
  intros Fi Fi' R c E. pose proof (split_irrelevant lib pf _ _ _ _ _ _ _ _ _ _ _ Fi Fi' R (se_end _)) as S. rewrite E in S.
  remember (read_catalogue lib pf evs') as o' eqn:E'. inversion S as [a b p d l l' F Ea Eb|]; subst c o'.
  eexists. split; [reflexivity|]. split; [repeat split|]. cbn [c_items]. clear -F. induction F as [|x y l l' Hx F IH]; [reflexivity|].
  destruct Hx; cbn [units flat_map app]; [f_equal|]; exact IH.
Qed.
Theorem field_pieces n p t s cs x rest tl : strings p cs x -> not_continued p rest -> (rest = [] -> tl = None) ->
  parse_msg (starts_with 126%N p) t (listing (PMessage n p t s :: cs ++ rest) tl) = (Ok (Some (s ++ x)), listing rest tl).
Proof.
  intros S NC E. rewrite parse_msg_eq, listing_cons. destruct (str_eqb_spec t t) as [_|D]; [|congruence]. rewrite Bool.eqb_reflx. cbn [andb].
  rewrite (append_strings p cs x rest tl S NC). destruct rest; [rewrite (E eq_refl)|]; reflexivity.
Qed.
