(** Entries are read completely: [runit] on the lines of an entry. *)
From Coq Require Import String Arith NArith ZArith Bool List Lia.
From Verif Require Import ModelBase ModelUtf8 ModelLine ModelFormula ModelData ModelSource ModelReader
  SpecLine SpecSource SpecReader SpecBlock BaseFacts LineFacts DecFacts ReaderFacts ReadsFacts LocalFacts BlockFacts CommentFacts.
Import ListNotations.
Local Open Scope N_scope.

(** * State *)
Lemma msg_is_blank_iff m : msg_is_blank m = true <-> forall t, In t (translations m) -> t = [].
Proof.
  destruct m as [id [t|]|p]; cbn [msg_is_blank translations].
  - split; [intros H x [<-|[]]; destruct t; [reflexivity|discriminate]|]. intros H. rewrite (H t (or_introl eq_refl)). reflexivity.
  - split; [intros _ x []|reflexivity].
  - unfold plural_is_blank. rewrite forallb_forall. split; intros H x I; [specialize (H x I); destruct x; [reflexivity|discriminate]|rewrite (H x I); reflexivity].
Qed.
Definition state_fn (F : list str) (m : message) : state :=
  if fuzzyb F then StNeedsWork else if msg_is_blank m then StEmpty else StFinal.
Lemma not_blank_witness m : msg_is_blank m = false -> exists t, In t (translations m) /\ t <> [].
Proof.
  destruct m as [id [t|]|p]; cbn [msg_is_blank translations]; try discriminate.
  - intros H. exists t. split; [left; reflexivity|]. intros ->. discriminate.
  - unfold plural_is_blank. induction (pl_values p) as [|v vs IH]; cbn [forallb]; [discriminate|].
    destruct v as [|c v]; cbn [is_empty andb]; intros H.
    + destruct (IH H) as (t & I & N). exists t. split; [right; exact I|exact N].
    + exists (c :: v). split; [left; reflexivity|discriminate].
Qed.
Lemma state_of_iff F m st : state_of F m st <-> st = state_fn F m.
Proof.
  unfold state_fn. split.
  - intros [I|t N I NE|N H].
    + apply fuzzyb_iff in I as ->. reflexivity.
    + rewrite <- fuzzyb_iff in N. destruct (fuzzyb F); [contradiction N; reflexivity|].
      destruct (msg_is_blank m) eqn:B; [|reflexivity]. rewrite msg_is_blank_iff in B. contradiction (NE (B t I)).
    + rewrite <- fuzzyb_iff in N. destruct (fuzzyb F); [contradiction N; reflexivity|].
      apply msg_is_blank_iff in H as ->. reflexivity.
  - intros ->. destruct (fuzzyb F) eqn:Z.
    + apply so_fuzzy, fuzzyb_iff, Z.
    + assert (~ In (lit "fuzzy") F) as NF by (rewrite <- fuzzyb_iff, Z; discriminate).
      destruct (msg_is_blank m) eqn:B.
      * apply so_empty; [exact NF|]. apply msg_is_blank_iff, B.
      * apply not_blank_witness in B as (t & I & N). eapply so_final; eauto.
Qed.

(** * Growing an entry *)
Lemma values_cont p count i ls vs n s : values p count i ls vs -> vs <> [] -> exists vs', values p count i (ls ++ [PCont n p s]) vs' /\ vs' <> [].
Proof.
  induction 1 as [|i k kw ls t ls' vs L1 L2 K F V IH]; intros NE; [contradiction|].
  destruct vs as [|v vs].
  - assert (ls' = []) as ->. { remember [] as vs eqn:E in V. destruct V as [|]; [reflexivity|discriminate]. }
    exists [t ++ s]. split; [|discriminate]. rewrite app_nil_r. rewrite <- (app_nil_r (ls ++ _)).
    econstructor; [exact L1|exact L2|exact K|apply field_cont, F|constructor].
  - destruct IH as (vs' & V' & _); [discriminate|]. exists (t :: vs'). split; [|discriminate].
    rewrite <- app_assoc. econstructor; eauto.
Qed.
Lemma body_cont forms obs ls m n s : body forms obs ls m -> exists m', body forms obs (ls ++ [PCont n (own obs) s]) m'.
Proof.
  intros [l1 id l2 text F1 F2|l1 id l2 pl l3 vs F1 F2 V NE].
  - eexists. rewrite <- app_assoc. apply bd_simple; [exact F1|apply field_cont, F2].
  - destruct (values_cont _ _ _ _ _ n s V NE) as (vs' & V' & NE'). eexists. rewrite <- !app_assoc. eapply bd_plural; eauto.
Qed.
Lemma keywords_cont forms obs ks pc pm c m n s : keywords forms obs ks pc pm c m ->
  exists m', keywords forms obs (ks ++ [PCont n (own obs) s]) pc pm c m'.
Proof.
  intros [l1 pc' l2 pm' l3 c' l4 m' F1 F2 F3 B]. destruct (body_cont _ _ _ _ n s B) as (m2 & B2). exists m2.
  rewrite <- !app_assoc. constructor; assumption.
Qed.
Lemma entry_of forms cs F N L C obs ks pc pm c m : block_comments cs F N L C -> keywords forms obs ks pc pm c m ->
  entry forms (cs ++ ks) (Unit c m pc pm (distinct F) N L C (state_fn F m) obs).
Proof. intros B K. econstructor; [exact B|exact K|]. apply state_of_iff. reflexivity. Qed.

(** * What follows an entry *)
(** The end of the file, or a line the entry cannot be extended with. *)
Definition boundary (forms : option plural_forms) (b r : list po_line) (tl : option error) : Prop :=
  match r with [] => tl = None | l :: _ => written l /\ ~ viable forms (b ++ [l]) end.
Lemma boundary_follow forms cs F N L C obs ks pc pm c m r tl : block_comments cs F N L C -> keywords forms obs ks pc pm c m ->
  boundary forms (cs ++ ks) r tl -> follow forms obs ks r tl.
Proof.
  intros B K H. assert (forall l pc pm c m, keywords forms obs (ks ++ [l]) pc pm c m -> viable forms ((cs ++ ks) ++ [l])) as V.
  { intros l pc' pm' c' m' K'. exists []. eexists. rewrite app_nil_r, <- app_assoc. eapply entry_of; eauto. }
  split.
  - destruct r as [|l r]; [exact H|]. destruct H as [W NV]. destruct l as [| | |n q string]; try exact Logic.I. intros ->. apply NV.
    destruct (keywords_cont _ _ _ _ _ _ _ n string K) as (m' & K'). eapply V; exact K'.
  - intros j Hj. split; [intros ->; exact H|]. intros n p s r' ->. intros O. destruct H as [W NV]. apply NV.
    assert (p = own obs) as ->. { eapply written_own; [exact W|exact O|]. intros z; discriminate. }
    destruct (Hj n s) as (pc' & pm' & c' & m' & K'). eapply V; exact K'.
Qed.

(** * The first keyword line *)
Definition first_no (ls : list po_line) : N := match ls with l :: _ => po_line_no l | [] => 0 end.
Definition marked (obs : bool) (ls : list po_line) : Prop := exists n p tag s r, ls = PMessage n p tag s :: r /\ starts_with 126 p = obs.
Lemma field_marked p kw f t r obs : field p kw f t -> starts_with 126 p = obs -> marked obs (f ++ r).
Proof. intros [n s ls u H] O. repeat eexists. exact O. Qed.
Lemma keywords_marked forms obs ks pc pm c m r : keywords forms obs ks pc pm c m -> marked obs (ks ++ r).
Proof.
  intros [l1 pc' l2 pm' l3 c' l4 m' F1 F2 F3 B]. rewrite <- !app_assoc.
  destruct F1 as [|f1 t1 F1]; [|exact (field_marked _ _ _ _ _ _ F1 (prev_obs obs))].
  destruct F2 as [|l id F|f1 id f2 pl F F']; cbn [app]; [|exact (field_marked _ _ _ _ _ _ F (prev_obs obs))|rewrite <- app_assoc; exact (field_marked _ _ _ _ _ _ F (prev_obs obs))].
  destruct F3 as [|f3 t3 F3]; cbn [app]; [|exact (field_marked _ _ _ _ _ _ F3 (own_obs obs))].
  destruct B as [g1 id g2 text G1 G2|g1 id g2 pl g3 vs G1 G2 V NE]; rewrite <- app_assoc; exact (field_marked _ _ _ _ _ _ G1 (own_obs obs)).
Qed.
Lemma marked_no_comment obs r : marked obs r -> no_comment_first r.
Proof. intros (n & p & t & s & r' & -> & _) l r0 [= <- _] (? & ? & ? & ?). discriminate. Qed.

(** * [runit] *)
Lemma finalize_set F m pc pm c N L C obs :
  finalize_state (Unit c m pc pm (distinct F) N L C (if fuzzyb F then StNeedsWork else StEmpty) obs)
  = Unit c m pc pm (distinct F) N L C (state_fn F m) obs.
Proof. unfold finalize_state, state_fn. cbn [u_state u_message]. destruct (fuzzyb F); [reflexivity|]. destruct (msg_is_blank m); reflexivity. Qed.

Theorem runit_keywords forms first cs F N L C obs ks pc pm c m r tl : block_comments cs F N L C -> keywords forms obs ks pc pm c m ->
  boundary forms (cs ++ ks) r tl ->
  runit forms first (listing ((cs ++ ks) ++ r) tl) =
  (if negb first && msg_is_empty m then Err (EUnexpected (first_no ks) (lit "Source should not be empty"))
   else Ok (Some (Unit c m pc pm (distinct F) N L C (state_fn F m) obs)), listing r tl).
Proof.
  intros B K H. pose proof (boundary_follow _ _ _ _ _ _ _ _ _ _ _ _ _ _ B K H) as Fo.
  unfold runit. pose proof (keywords_marked _ _ _ _ _ _ _ r K) as M. rewrite <- app_assoc.
  rewrite (parse_comments_listing cs (block_comments_comment _ _ _ _ _ B) _ _ _ (marked_no_comment _ _ M)).
  pose proof (fields_complete forms first (set_obsolete (fold_left apply_line cs unit_default) obs) obs ks pc pm c m r tl eq_refl K Fo) as E.
  destruct M as (n & p & t & s & r' & Er & O). assert (first_no ks = n) as ->.
  { pose proof (keywords_marked _ _ _ _ _ _ _ [] K) as (n' & p' & t' & s' & r2 & E2 & _). rewrite app_nil_r in E2. rewrite E2 in Er |- *. cbn in *. congruence. }
  rewrite Er in E |- *. destruct tl; cbn [bind]; rewrite listing_cons; unfold peek; cbn [hd line_obsolete po_line_no]; rewrite O, <- listing_cons, E; cbn [bind finish_unit];
    rewrite (comments_unit _ _ _ _ _ B); unfold set_message, set_obsolete; cbn [u_message u_flags u_notes u_locations u_comments u_state u_obsolete];
    rewrite finalize_set; destruct (negb first && msg_is_empty m); reflexivity.
Qed.
Lemma has_source_iff u : has_source u <-> msg_is_empty (u_message u) = false.
Proof.
  unfold has_source. destruct (u_message u) as [[|c id] t|p]; cbn; split; try discriminate; try reflexivity.
  intros H. contradiction (H t eq_refl).
Qed.
Theorem runit_entry forms b u r tl : unit_entry forms b u -> boundary forms b r tl ->
  runit forms false (listing (b ++ r) tl) = (Ok (Some u), listing r tl).
Proof.
  intros [E S] H. apply has_source_iff in S. destruct E as [cs F N L C obs ks pc pm c m st B K St]. apply state_of_iff in St as ->.
  rewrite (runit_keywords _ _ _ _ _ _ _ _ _ _ _ _ _ _ _ B K H). cbn [u_message] in S. rewrite S. reflexivity.
Qed.
Theorem runit_first_entry forms b u r tl : entry forms b u -> boundary forms b r tl ->
  runit forms true (listing (b ++ r) tl) = (Ok (Some u), listing r tl).
Proof.
  intros E H. destruct E as [cs F N L C obs ks pc pm c m st B K St]. apply state_of_iff in St as ->.
  rewrite (runit_keywords _ _ _ _ _ _ _ _ _ _ _ _ _ _ _ B K H). reflexivity.
Qed.
