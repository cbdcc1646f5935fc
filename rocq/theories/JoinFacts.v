(** Files put one after the other. *)
From Coq Require Import String Arith NArith ZArith Bool List Lia.
From Verif Require Import ModelBase ModelUtf8 ModelLine ModelFormula ModelData ModelSource ModelReader
  SpecLine SpecFormula SpecSource SpecReader SpecBlock SpecHeader SpecFile SpecJoin BaseFacts LineFacts LineThms StreamThms SourceFacts StreamFacts
  BlockFacts CommentFacts UnitFacts BlocksFacts FileFacts BlockThms EntryThms WriterFacts IndepFacts.
Import ListNotations.
Local Open Scope N_scope.

Lemma ended_app x bs : ended (x ++ bs) -> ended bs.
Proof.
  intros H. destruct bs as [|c bs]; [left; reflexivity|]. destruct H as [H|(a & H)]; [destruct x; discriminate|].
  destruct (@exists_last _ (c :: bs)) as (b & y & E); [discriminate|]. rewrite E in *. rewrite app_assoc in H. apply app_inj_tail in H as [_ ->]. right. exists b. reflexivity.
Qed.
Lemma contents_joined a la : contents a None la None -> ended a -> forall b f lb e, contents b f lb e -> contents (a ++ b) f (la ++ lb) e.
Proof.
  intros H. remember None as f0 eqn:F0 in H at 1. remember None as e0 eqn:E0 in H at 1. revert F0 E0.
  induction H as [|s Ns Os Ss|l|l code|s t bs f0 ls e0 Os Ss T H IH|l bs f0]; intros F0 E0 En b f lb e C; try discriminate.
  - exact C.
  - exfalso. apply in_lf_utf8 in Os. destruct En as [En|(a & En)]; [apply utf8_nil in En; contradiction|].
    apply Os. rewrite En. apply in_or_app. right. left. reflexivity.
  - rewrite <- !app_assoc. cbn [app]. apply ct_line; try assumption. apply IH; try assumption. rewrite app_assoc in En. exact (ended_app _ _ En).
Qed.

(** * The first keyword line *)
Lemma line_of_anywhere s n m l : one_line s -> line_of s n l -> exists l', line_of s m l' /\ (comment_line l -> comment_line l')
  /\ (l = PBlank -> l' = PBlank) /\ (forall a p t x, l = PMessage a p t x -> l' = PMessage m p t x).
Proof.
  intros O H. apply line_of_iff in H; [|exact O]. pose proof (parse_line_renumber s n m O) as R. rewrite H in R.
  destruct l as [|a k t|a p k t|a p t], (parse_line s m) as [[|a' k' t'|a' p' k' t'|a' p' t']|] eqn:E'; try contradiction.
  all: decompose [and] R; subst; eexists; (split; [apply line_of_iff; [exact O|exact E']|]); (split; [auto|]); (split; [congruence|]); intros; congruence.
Qed.
Lemma keyword_found ls : forall m cs k ks, rd m ls (cs ++ k :: ks) -> Forall is_comment cs -> (exists a p t x, k = PMessage a p t x) ->
  exists i, keyword_at ls i /\ po_line_no k = m + i.
Proof.
  induction ls as [|s ls IH]; intros m cs k ks H Cs K; [inversion H; destruct cs; discriminate|].
  remember (cs ++ k :: ks) as pl eqn:Q. inversion H as [| | |? ? ? ? ? ? O E Ht|? ? l ? ? pl0 ? O E NB Ht]; subst.
  - destruct (IH _ _ _ _ Ht Cs K) as (i & (a & s' & b & -> & -> & A & B) & ->). exists (1 + N.of_nat (length a)). split; [|lia].
    exists (s :: a), s', b. split; [reflexivity|]. split; [cbn [length]; lia|]. split; [|exact B]. intros x [<-|I]; [|exact (A x I)].
    destruct (line_of_anywhere s m 1 _ O E) as (l' & L & _ & Bl & _). exists l'. split; [exact L|]. left. apply Bl; reflexivity.
  - destruct cs as [|c cs]; cbn [app] in *.
    + match goal with X : l :: pl0 = k :: ks |- _ => injection X as -> -> end. destruct K as (a & p & t & x & ->). exists 0. split; [|].
      * exists [], s, ls. split; [reflexivity|]. split; [reflexivity|]. split; [intros y []|]. destruct (line_of_anywhere s m 1 _ O E) as (l' & L & _ & _ & Me).
        rewrite (Me _ _ _ _ eq_refl) in L. eauto.
      * rewrite N.add_0_r. apply line_of_iff in E; [|exact O]. pose proof (parse_line_renumber s m m O) as R. rewrite E in R. destruct R as [-> _]. reflexivity.
    + match goal with X : l :: pl0 = c :: _ |- _ => injection X as -> -> end. inversion Cs as [|? ? Hc Cs']; subst.
      destruct (IH _ _ _ _ Ht Cs' K) as (i & (a & s' & b & -> & -> & A & B) & ->). exists (1 + N.of_nat (length a)). split; [|lia].
      exists (s :: a), s', b. split; [reflexivity|]. split; [cbn [length]; lia|]. split; [|exact B]. intros x [<-|I]; [|exact (A x I)].
      destruct (line_of_anywhere s m 1 _ O E) as (l' & L & Si & _). exists l'. split; [exact L|]. right. apply Si. destruct Hc as (n0 & k0 & s0 & ->). exact Logic.I.
Qed.

(** * A second header *)
Lemma previous_forms forms forms' obs ls m : previous forms obs ls m -> exists m', previous forms' obs ls m'.
Proof. intros [|l id F|l1 id l2 pl F1 F2]; eexists; [apply pv_none|apply pv_simple; eassumption|apply pv_plural; eassumption]. Qed.
Lemma keywords_forms forms forms' obs ks pc pm c id t : keywords forms obs ks pc pm c (MSimple id t) -> exists pm', keywords forms' obs ks pc pm' c (MSimple id t).
Proof.
  intros H. remember (MSimple id t) as m eqn:E. destruct H as [l1 pc l2 pm l3 c l4 m F1 F2 F3 B]. destruct (previous_forms _ forms' _ _ _ F2) as (m' & F2').
  exists m'. constructor; try assumption. subst m. inversion B; subst. constructor; assumption.
Qed.
Lemma keywords_first forms obs ks pc pm c m : keywords forms obs ks pc pm c m -> exists n p t x ks', ks = PMessage n p t x :: ks'.
Proof.
  intros [l1 pc' l2 pm' l3 c' l4 m' F1 F2 F3 B].
  destruct F1 as [|? ? [? ? ? ? _]]; [|cbn [app]; eauto 6]. destruct F2 as [|? ? [? ? ? ? _]|? ? ? ? [? ? ? ? _] _]; [|cbn [app]; eauto 6..].
  destruct F3 as [|? ? [? ? ? ? _]]; [|cbn [app]; eauto 6]. destruct B as [? ? ? ? [? ? ? ? _] _|? ? ? ? ? ? [? ? ? ? _] _ _ _]; cbn [app]; eauto 6.
Qed.
Lemma blocks_then forms bls us r tl o : Forall2 (unit_entry forms) bls us -> blocks forms r tl [] o -> match r with [] => tl = None | l :: _ => starter l end ->
  blocks forms (concat bls ++ r) tl us o.
Proof.
  intros F B S. induction F as [|b u bls us U F IH]; [exact B|]. cbn [concat]. rewrite <- app_assoc. apply bk_entry; [exact U| |exact IH].
  destruct (concat bls ++ r) as [|l r'] eqn:E.
  - destruct r; [exact S|]. destruct (concat bls); discriminate.
  - apply starter_ends with u; [exact (proj1 U)|]. destruct F as [|b' u' bls us [U' _] F]; cbn [concat app] in E; [subst r; exact S|].
    apply entry_starter in U' as (l' & b2 & -> & S'). cbn [app] in E. injection E as -> _. exact S'.
Qed.
Theorem header_again lib pf h1 v1 ps1 forms1 blks1 us1 h2 v2 ps2 forms2 blks2 us2 a b evs :
  heading_text pf h1 v1 ps1 forms1 -> Forall2 (entry_text forms1) blks1 us1 -> contents a None (h1 ++ concat blks1) None -> ended a ->
  heading_text pf h2 v2 ps2 forms2 -> Forall2 (entry_text forms2) blks2 us2 -> contents b None (h2 ++ concat blks2) None ->
  delivers evs (a ++ b) None ->
  exists c i, read_catalogue lib pf evs = Ok c /\ header_shown lib v1 ps1 c /\ keyword_at h2 i
    /\ c_items c = map UOk us1 ++ [UErr (EUnexpected (1 + N.of_nat (length (h1 ++ concat blks1)) + i) (lit "Source should not be empty"))].
Proof.
  intros (p1 & R1 & E1 & H1 & HF1) F1 Ca En (p2 & R2 & E2 & H2 & HF2) F2 Cb D. pose proof (contents_joined _ _ Ca En _ _ _ _ Cb) as Ct.
  pose proof (contents_one_line _ _ _ _ Ct) as P. apply plain_app in P as [Pa Pb]. apply plain_app in Pa as [Ph1 Pu1]. apply plain_app in Pb as [Ph2 Pu2].
  destruct (texts_read _ _ _ F1 Pu1 (1 + N.of_nat (length h1))) as (bls1 & Q1 & G1).
  set (m := 1 + N.of_nat (length (h1 ++ concat blks1))). destruct (parsed_anywhere h2 Ph2 1 p2 R2 m) as (p2' & R2' & A2). apply (entry_alike _ _ _ E2) in A2.
  destruct (texts_read _ _ _ F2 Pu2 (m + N.of_nat (length h2))) as (bls2 & Q2 & G2).
  assert (file evs ((h1 ++ concat blks1) ++ h2 ++ concat blks2) None ((p1 ++ concat bls1) ++ p2' ++ concat bls2) None) as Fi.
  { exists (a ++ b), None. split; [exact D|]. split; [exact Ct|]. apply rd_app; [apply rd_app; assumption|]. apply rd_app; assumption. }
  destruct H2 as (t & Em & _). destruct A2 as [cs F N L C obs ks pc pm c m0 st B K St]. cbn [u_message] in Em. subst m0.
  destruct (keywords_forms _ forms1 _ _ _ _ _ _ _ K) as (pm' & K'). destruct (keywords_first _ _ _ _ _ _ _ K) as (n & q & w & x & ks' & ->).
  destruct (keyword_found h2 m cs (PMessage n q w x) ks' R2' (block_comments_comment _ _ _ _ _ B)) as (i & Ki & Ei); [eauto|].
  assert (exists u, entry forms1 (cs ++ PMessage n q w x :: ks') u) as (u & Eu).
  { eexists. exact (en_intro forms1 cs F N L C obs _ pc pm' c _ st B K' St). }
  pose proof (entries_ends _ _ _ _ _ us2 Eu (entries_only _ _ _ G2)) as Ea2.
  assert (blocks forms1 (concat bls1 ++ (cs ++ PMessage n q w x :: ks') ++ concat bls2) None us1 (Some (EUnexpected (m + i) (lit "Source should not be empty")))) as Bk.
  { apply blocks_then; [exact G1| |].
    - apply bk_close. rewrite <- Ei. exact (cl_empty forms1 cs F N L C obs (PMessage n q w x) ks' pc pm' c t (concat bls2) None B K' Ea2).
    - apply entry_starter in Eu as (l & b' & E & S). rewrite E. exact S. }
  assert (ends_at None p1 (concat bls1 ++ (cs ++ PMessage n q w x :: ks') ++ concat bls2) None) as Ea1.
  { destruct G1 as [|b1 u1 bls1 us1' [U1 _] G1]; cbn [concat app].
    - apply entry_starter in Eu as (l & b' & E & S). rewrite E. cbn [app]. exact (starter_ends _ _ _ _ _ _ E1 S).
    - apply entry_starter in U1 as (l & b' & -> & S). cbn [app]. exact (starter_ends _ _ _ _ _ _ E1 S). }
  destruct (read_header lib pf evs _ _ _ _ p1 v1 ps1 _ forms1 us1 _ Fi (eq_sym (app_assoc _ _ _)) (fe_entry _ _ _ _ E1 Ea1) H1 HF1 Bk) as (cc & Rc & Hs & Ec).
  exists cc, i. auto.
Qed.
Theorem entries_appended lib pf h1 v1 ps1 forms1 blks1 us1 blks2 us2 a b evs :
  heading_text pf h1 v1 ps1 forms1 -> Forall2 (entry_text forms1) blks1 us1 -> contents a None (h1 ++ concat blks1) None -> ended a ->
  Forall2 (entry_text forms1) blks2 us2 -> contents b None (concat blks2) None -> delivers evs (a ++ b) None ->
  exists c, read_catalogue lib pf evs = Ok c /\ header_shown lib v1 ps1 c /\ c_items c = map UOk us1 ++ map UOk us2.
Proof.
  intros H F Ca En F2 Cb D. pose proof (contents_joined _ _ Ca En _ _ _ _ Cb) as Ct. rewrite <- app_assoc, <- concat_app in Ct.
  destruct (entries_independent lib pf h1 v1 ps1 forms1 _ _ _ evs H (Forall2_app F F2) Ct D) as (c & R & Hs & E).
  exists c. rewrite map_app in E. auto.
Qed.
