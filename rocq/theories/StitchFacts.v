(** Proofs for SpecStitch. *)
From Coq Require Import String Arith NArith ZArith Bool List Lia.
From Verif Require Import ModelBase ModelUtf8 ModelLine ModelFormula ModelData ModelSource ModelReader
  SpecLine SpecFormula SpecSource SpecReader SpecBlock SpecHeader SpecFile SpecStitch BaseFacts LineFacts LineThms SourceFacts IterFacts ReaderFacts ReadsFacts
  CatalogueFacts LocalFacts StreamFacts BlockFacts BlocksFacts FileFacts PieceFacts.
Import ListNotations.
Local Open Scope N_scope.

(** * The lines without the reports that are passed over *)
Definition commentary (x : item) : bool := match x with ILine (PComment _ _ _) => true | _ => false end.
(** [c]: nothing but a comment, or nothing at all, comes before. *)
Fixpoint level (c : bool) (rs : lines) : lines :=
  match rs with
  | [] => []
  | None :: r => if c then [] else level false r
  | Some x :: r => Some x :: level (commentary x) r
  end.
Definition empty_lines (ls : lines) : Prop := forall i, In i ls -> i = None.
Definition ready (ls : lines) : Prop := empty_lines ls \/ exists x r, ls = Some x :: r.
Lemma level_empty ls : forall c, empty_lines ls -> level c ls = [].
Proof.
  induction ls as [|[x|] ls IH]; intros c H; [reflexivity| |].
  - discriminate (H (Some x) (or_introl eq_refl)).
  - cbn. destruct c; [reflexivity|]. apply IH. intros i I. apply H. right; exact I.
Qed.
Lemma empty_tail x ls : empty_lines (x :: ls) -> x = None /\ empty_lines ls.
Proof. intros H. split; [apply H; left; reflexivity|]. intros i I. apply H. right; exact I. Qed.
Lemma resumes_tail x ls : resumes_afresh (x :: ls) -> resumes_afresh ls.
Proof. intros H a b E. apply (H (x :: a) b). cbn. rewrite E. reflexivity. Qed.
Lemma resumes_none ls : resumes_afresh (None :: ls) -> empty_lines ls \/ exists l r, ls = Some (ILine l) :: r /\ afresh l.
Proof. intros H. exact (H [] ls eq_refl). Qed.

(** Functions that do not notice the difference. *)
Definition unaware {A} (g : lines -> res A) : Prop := forall ls o r, ready ls -> resumes_afresh ls -> g ls = (o, r) ->
  exists r0, g (level false ls) = (o, r0) /\ match o with Ok _ => ready r /\ resumes_afresh r /\ r0 = level false r | _ => True end.
Lemma unaware_bind {A B} (m : lines -> res A) (f : A -> lines -> res B) : unaware m -> (forall a, unaware (f a)) -> unaware (fun ls => bind (m ls) f).
Proof.
  intros Hm Hf ls o r R G H. destruct (m ls) as [o1 r1] eqn:E. destruct (Hm _ _ _ R G E) as (r0 & E0 & K). rewrite E0. destruct o1 as [a|e|]; cbn [bind] in *.
  - destruct K as (R1 & G1 & ->). exact (Hf a _ _ _ R1 G1 H).
  - injection H as <- <-. eexists; split; [reflexivity|exact Logic.I].
  - injection H as <- <-. eexists; split; [reflexivity|exact Logic.I].
Qed.
Lemma unaware_ret {A} (a : A) : unaware (fun ls => (Ok a, ls)).
Proof. intros ls o r R G [= <- <-]. eexists; split; [reflexivity|auto]. Qed.
Lemma unaware_append p ls : forall s o r, resumes_afresh ls -> append_conts p s ls = (o, r) ->
  exists r0, append_conts p s (level false ls) = (o, r0) /\ match o with Ok _ => ready r /\ resumes_afresh r /\ r0 = level false r | _ => True end.
Proof.
  induction ls as [|i ls IH]; intros s o r G H; cbn [append_conts] in H.
  - injection H as <- <-. cbn. eexists; split; [reflexivity|]. split; [left; intros i []|]. split; [exact G|reflexivity].
  - destruct i as [[[|n k c|n q tag c|n q c]|e]|].
    1-3: injection H as <- <-; cbn; eexists; (split; [reflexivity|]); split; [right; eauto|]; split; [exact G|reflexivity].
    + cbn [level append_conts commentary]. destruct (str_eqb q p).
      * exact (IH _ _ _ (resumes_tail _ _ G) H).
      * injection H as <- <-. eexists; split; [reflexivity|]. split; [right; eauto|]. split; [exact G|reflexivity].
    + injection H as <- <-. cbn. eexists; split; [reflexivity|exact Logic.I].
    + injection H as <- <-. cbn [level]. destruct (resumes_none _ G) as [Em|(l & t & -> & A)].
      * rewrite level_empty by exact Em. eexists; split; [reflexivity|]. split; [left; exact Em|]. split; [exact (resumes_tail _ _ G)|]. first [reflexivity|symmetry; apply level_empty, Em].
      * exists (level false (Some (ILine l) :: t)). split; [|split; [right; eauto|split; [exact (resumes_tail _ _ G)|reflexivity]]].
        cbn [level append_conts]. destruct l; try contradiction; reflexivity.
Qed.
Lemma unaware_msg obs tag : unaware (parse_msg obs tag).
Proof.
  intros ls o r R G H. rewrite parse_msg_eq in H. destruct R as [Em|(x & t & ->)].
  - rewrite level_empty by exact Em. cbn. destruct ls as [|i ls].
    + injection H as <- <-. eexists; split; [reflexivity|]. split; [left; exact Em|]. auto.
    + destruct (empty_tail _ _ Em) as [-> Em']. injection H as <- <-. eexists; split; [reflexivity|]. split; [left; exact Em'|]. split; [exact (resumes_tail _ _ G)|]. first [reflexivity|symmetry; apply level_empty, Em'].
  - rewrite parse_msg_eq. cbn [level]. destruct x as [[|n k c|n q t' c|n q c]|e].
    1,2,4: injection H as <- <-; eexists; (split; [reflexivity|]); split; [right; eauto|]; split; [exact G|reflexivity].
    + destruct (str_eqb t' tag && Bool.eqb (starts_with 126 q) obs).
      * exact (unaware_append _ _ _ _ _ (resumes_tail _ _ G) H).
      * injection H as <- <-; eexists; (split; [reflexivity|]); split; [right; eauto|]; split; [exact G|reflexivity].
    + injection H as <- <-. eexists; split; [reflexivity|exact Logic.I].
Qed.
Lemma unaware_expected exp : unaware (expected exp).
Proof.
  intros ls o r R G H. destruct R as [Em|(x & t & ->)].
  - rewrite level_empty by exact Em. assert (peek ls = None) as P by (destruct ls as [|i ls]; [reflexivity|exact (proj1 (empty_tail _ _ Em))]).
    unfold expected in *. rewrite P in H. injection H as <- <-. cbn. eexists; split; [reflexivity|]. split; [left; exact Em|]. split; [exact G|]. first [reflexivity|symmetry; apply level_empty, Em].
  - unfold expected, peek, next in *. cbn [level hd tl] in *. destruct x as [[|n k c|n q t' c|n q c]|e]; injection H as <- <-; eexists; (split; [reflexivity|]); try exact Logic.I.
    split; [right; eauto|]. split; [exact G|reflexivity].
Qed.
Lemma unaware_values obs k : forall i vs, unaware (parse_values obs k i vs).
Proof.
  induction k as [|k IH]; intros i vs; cbn [parse_values]; [exact (unaware_ret vs)|].
  apply (unaware_bind (parse_msg obs (msgstr_tag i))); [apply unaware_msg|]. intros v. apply IH.
Qed.
Lemma unaware_new forms obs id pl : unaware (new_message forms obs id pl).
Proof.
  unfold new_message. destruct id as [id|]; [|exact (unaware_ret _)]. destruct pl as [pl|].
  - apply (unaware_bind (parse_values _ _ _ _)); [apply unaware_values|]. intros vs. destruct (is_empty vs); [|exact (unaware_ret _)].
    apply (unaware_bind (expected _)); [apply unaware_expected|]. intros _. exact (unaware_ret _).
  - apply (unaware_bind (parse_msg _ _)); [apply unaware_msg|]. intros [t|]; [exact (unaware_ret _)|].
    apply (unaware_bind (expected _)); [apply unaware_expected|]. intros _. exact (unaware_ret _).
Qed.
Lemma unaware_fields forms first u : unaware (parse_message_fields forms first u).
Proof.
  unfold parse_message_fields. cbv zeta.
  apply (unaware_bind (parse_msg _ _)); [apply unaware_msg|]. intros pc.
  apply (unaware_bind (parse_msg _ _)); [apply unaware_msg|]. intros pi.
  apply (unaware_bind (fun l => match pi with Some _ => parse_msg (u_obsolete u) (lit "|msgid_plural") l | None => (Ok None, l) end)).
  { destruct pi; [apply unaware_msg|exact (unaware_ret _)]. }
  intros pp. apply (unaware_bind (parse_msg _ _)); [apply unaware_msg|]. intros c.
  apply (unaware_bind (parse_msg _ _)); [apply unaware_msg|]. intros id.
  destruct (negb first && match id with None => true | Some _ => false end).
  - apply (unaware_bind (expected _)); [apply unaware_expected|]. intros _. exact (unaware_ret _).
  - apply (unaware_bind (parse_msg _ _)); [apply unaware_msg|]. intros pl.
    apply (unaware_bind (new_message _ _ _ _)); [apply unaware_new|]. intros [m|]; exact (unaware_ret _).
Qed.
Lemma level_some c x r : level c (Some x :: r) = level false (Some x :: r).
Proof. reflexivity. Qed.
(** Comments: a report after them, or at the beginning, is the end. *)
Lemma level_comments ls : forall u c o r, resumes_afresh ls -> (c = true \/ ready ls) -> parse_comments u ls = (o, r) ->
  exists r0, parse_comments u (level c ls) = (o, r0) /\
    match o with Ok _ => resumes_afresh r /\ ((peek r = None /\ peek r0 = None) \/ (exists x t, r = Some x :: t) /\ r0 = level false r) | _ => True end.
Proof.
  induction ls as [|i ls IH]; intros u c o r G R H; cbn [parse_comments] in H.
  - injection H as <- <-. cbn. eexists; split; [reflexivity|]. split; [exact G|]. left. auto.
  - destruct i as [[[|n k s|n q t s|n q s]|e]|].
    2: { cbn [level parse_comments commentary]. exact (IH _ true _ _ (resumes_tail _ _ G) (or_introl eq_refl) H). }
    1-3: injection H as <- <-; cbn; eexists; (split; [reflexivity|]); split; [exact G|]; right; split; [eauto|reflexivity].
    + injection H as <- <-. cbn. eexists; split; [reflexivity|exact Logic.I].
    + injection H as <- <-. assert (level c (None :: ls) = []) as ->.
      { destruct R as [->|[Em|(x & t & E)]]; [reflexivity|apply level_empty, Em|discriminate]. }
      cbn. eexists; split; [reflexivity|]. split; [exact G|]. left. auto.
Qed.
Lemma level_runit forms first c ls o r : resumes_afresh ls -> (c = true \/ ready ls) -> runit forms first ls = (o, r) ->
  exists r0, runit forms first (level c ls) = (o, r0) /\ match o with Ok (Some _) => ready r /\ resumes_afresh r /\ r0 = level false r | _ => True end.
Proof.
  intros G R H. unfold runit in *. destruct (parse_comments unit_default ls) as [o1 r1] eqn:E.
  destruct (level_comments _ _ _ _ _ G R E) as (r0 & E0 & K). rewrite E0. destruct o1 as [u|e|]; cbn [bind] in *.
  2-3: injection H as <- <-; eexists; split; [reflexivity|exact Logic.I].
  destruct K as (G1 & [[P P0]|[(x & t & ->) ->]]).
  - rewrite P in H. rewrite P0. injection H as <- <-. eexists; split; [reflexivity|exact Logic.I].
  - unfold peek in *. cbn [level hd] in *. destruct x as [l|e]; [|injection H as <- <-; eexists; split; [reflexivity|exact Logic.I]].
    change (Some (ILine l) :: level (commentary (ILine l)) t) with (level false (Some (ILine l) :: t)).
    destruct (parse_message_fields forms first (set_obsolete u (line_obsolete l)) (Some (ILine l) :: t)) as [o2 r2] eqn:F.
    destruct (unaware_fields _ _ _ _ _ _ (or_intror (ex_intro _ _ (ex_intro _ _ eq_refl))) G1 F) as (r3 & F0 & K). rewrite F0. destruct o2 as [v|e|]; cbn [bind] in *.
    2-3: injection H as <- <-; eexists; split; [reflexivity|exact Logic.I].
    destruct K as (R2 & G2 & ->). destruct v as [v|]; cbn [finish_unit] in *; [|injection H as <- <-; eexists; split; [reflexivity|exact Logic.I]].
    destruct (negb first && msg_is_empty (u_message v)); injection H as <- <-; eexists; (split; [reflexivity|]); [exact Logic.I|auto].
Qed.
Lemma level_reads forms ls l : reads forms ls l -> resumes_afresh ls -> ready ls -> reads forms (level false ls) l.
Proof.
  induction 1 as [ls r E|ls e r E|ls u r l E H IH]; intros G R; destruct (level_runit _ _ false _ _ _ G (or_intror R) E) as (r0 & E0 & K).
  - exact (reads_end _ _ _ E0).
  - exact (reads_err _ _ _ _ E0).
  - destruct K as (R1 & G1 & ->). exact (reads_unit _ _ _ _ _ E0 (IH G1 R1)).
Qed.
Theorem level_catalogue lib pf ls o : resumes_afresh ls -> catalogue_of lib pf ls o -> catalogue_of lib pf (level true ls) o.
Proof.
  intros G H. destruct H as [e r E|r E|u r l E M R|u r e E M HF|u r forms l E M HF R];
    destruct (level_runit _ _ true _ _ _ G (or_introl eq_refl) E) as (r0 & E0 & K).
  - exact (co_err _ _ _ _ _ E0).
  - exact (co_empty _ _ _ _ E0).
  - destruct K as (R1 & G1 & ->). exact (co_plain _ _ _ _ _ _ E0 M (level_reads _ _ _ R G1 R1)).
  - exact (co_bad_header _ _ _ _ _ _ E0 M HF).
  - destruct K as (R1 & G1 & ->). exact (co_header _ _ _ _ _ _ _ E0 M HF (level_reads _ _ _ R G1 R1)).
Qed.

(** * The pieces one after the other *)
Lemma terminated_after s t b : eol s t -> terminated (utf8 s ++ t ++ b) -> terminated b.
Proof.
  intros Ht [H|(b' & H)].
  - apply app_eq_nil in H as [_ H]. destruct Ht; discriminate.
  - destruct b as [|y b _] using rev_ind; [left; reflexivity|]. right. rewrite !app_assoc in H. apply app_inj_tail in H as [_ ->]. eauto.
Qed.
Lemma contents_whole b ls : contents b None ls None -> terminated b -> forall t f ls' e', contents t f ls' e' -> contents (b ++ t) f (ls ++ ls') e'.
Proof.
  remember None as f0 eqn:F0. remember None as e0 eqn:E0 in |- *.
  induction 1 as [|s Hn Hl Hs|l Hl Hb|l code Hl|s t bs f1 ls e Hl Hs Ht C IH|l bs f1 Hl Hb]; intros T t' f ls' e' C'; try discriminate.
  - exact C'.
  - exfalso. destruct T as [T|(b' & T)]; [apply utf8_nil in T; contradiction|]. apply (in_lf_utf8 s Hl). rewrite T. apply in_or_app. right; left; reflexivity.
  - rewrite <- !app_assoc. cbn [app]. apply ct_line; try assumption. apply IH; try assumption. exact (terminated_after _ _ _ Ht T).
Qed.
Lemma contents_open b ls : contents b None ls None -> ~ terminated b -> forall t f ls' e', contents t f ls' e' -> contents (b ++ [13; 10] ++ t) f (ls ++ ls') e'.
Proof.
  remember None as f0 eqn:F0. remember None as e0 eqn:E0 in |- *.
  induction 1 as [|s Hn Hl Hs|l Hl Hb|l code Hl|s t bs f1 ls e Hl Hs Ht C IH|l bs f1 Hl Hb]; intros T t' f ls' e' C'; try discriminate.
  - destruct T. left. reflexivity.
  - cbn [app]. apply (ct_line s [13; 10]); try assumption. constructor.
  - rewrite <- !app_assoc. cbn [app]. apply ct_line; try assumption. apply IH; try assumption.
    intros [->|(b' & ->)]; apply T; right; [|exists (utf8 s ++ t ++ b'); rewrite <- !app_assoc; reflexivity].
    rewrite app_nil_r. destruct Ht; [exists (utf8 s); reflexivity|exists (utf8 s ++ [13]); rewrite <- app_assoc; reflexivity].
Qed.
Lemma parsed_more n ls pl : parsed n ls None pl None -> forall ls' e' pl' tl', parsed (n + N.of_nat (length ls)) ls' e' pl' tl' -> parsed n (ls ++ ls') e' (pl ++ pl') tl'.
Proof.
  remember None as e0 eqn:E0 in |- *. remember None as t0 eqn:T0 in |- *.
  induction 1 as [n|n e|n s ls e O E|n s ls e pl tl O E H IH|n s l ls e pl tl O E NB H IH]; intros ls' e' pl' tl' P; try discriminate.
  - cbn in P. rewrite N.add_0_r in P. exact P.
  - cbn [app length] in *. apply ps_blank; try assumption. apply IH; try assumption. replace (n + 1 + N.of_nat (length ls)) with (n + N.of_nat (S (length ls))) by lia. exact P.
  - cbn [app length] in *. apply ps_line; try assumption. apply IH; try assumption. replace (n + 1 + N.of_nat (length ls)) with (n + N.of_nat (S (length ls))) by lia. exact P.
Qed.
Definition flagged (c : bool) (pl : list po_line) : bool := match rev pl with [] => c | l :: _ => commentary (ILine l) end.
Lemma flagged_cons c l pl : flagged c (l :: pl) = flagged (commentary (ILine l)) pl.
Proof. unfold flagged. cbn [rev]. destruct (rev pl) as [|x r]; reflexivity. Qed.
Lemma level_lines pl : forall c rs, level c (map (fun l => Some (ILine l)) pl ++ rs) = map (fun l => Some (ILine l)) pl ++ level (flagged c pl) rs.
Proof. induction pl as [|l pl IH]; intros c rs; [reflexivity|]. cbn [map app level]. rewrite IH, <- (flagged_cons c). reflexivity. Qed.
Lemma flagged_true c pl : flagged c pl = true -> (pl = [] /\ c = true) \/ exists pl' n k s, pl = pl' ++ [PComment n k s].
Proof.
  unfold flagged. destruct pl as [|l pl _] using rev_ind; [cbn; auto|]. rewrite rev_unit. cbn. destruct l; try discriminate. intros _. right. eauto 10.
Qed.
Lemma level_ending c tl : level c (match tl with Some e => [Some (IFail e)] | None => [] end) = ending tl.
Proof. destruct tl; reflexivity. Qed.
Lemma terminated_app a b : terminated a -> terminated b -> terminated (a ++ b).
Proof. intros A [->|(b' & ->)]; [rewrite app_nil_r; exact A|]. right. exists (a ++ b'). rewrite app_assoc. reflexivity. Qed.
Lemma answers_stitched n bs f rs : answers n bs f rs -> forall c, exists bs1 bs2 t f' ls e pl tl,
  bs = bs1 ++ bs2 /\ stitched bs1 t /\ contents t f' ls e /\ parsed n ls e pl tl /\ level c rs = listing pl tl
  /\ (bs2 = [] /\ f' = f \/ f' = None /\ (tl <> None \/ tl = None /\ terminated t /\ ((pl = [] /\ c = true) \/ exists pl' n k s, pl = pl' ++ [PComment n k s]))).
Proof.
  induction 1 as [n b f ls e pl tl C P|n b b' bs f ls e pl x C P|n b bs f ls pl rs C P T A IH|n b bs f ls pl rs C P T A IH]; intros c.
  - exists [b], [], b, f, ls, e, pl, tl. rewrite level_lines, level_ending. repeat split; try assumption; [constructor|]. left. auto.
  - exists [b], (b' :: bs), b, None, ls, e, pl, (Some x). rewrite level_lines. repeat split; try assumption; [constructor|]. right. split; [reflexivity|]. left. discriminate.
  - rewrite level_lines. cbn [level]. destruct (flagged c pl) eqn:F.
    + exists [b], bs, b, None, ls, None, pl, None. repeat split; try assumption; [constructor|]. right. split; [reflexivity|]. right. repeat split; [exact T|]. exact (flagged_true _ _ F).
    + destruct (IH false) as (bs1 & bs2 & t & f' & ls' & e & pl' & tl & -> & S & C' & P' & L & K).
      exists (b :: bs1), bs2, (b ++ t), f', (ls ++ ls'), e, (pl ++ pl'), tl. split; [reflexivity|]. split; [constructor; assumption|]. split; [exact (contents_whole _ _ C T _ _ _ _ C')|].
      split; [exact (parsed_more _ _ _ P _ _ _ _ P')|]. split; [rewrite L, listing_app; reflexivity|].
      destruct K as [K|(-> & [K|(-> & T' & [(_ & K)|(q & m & k & s & ->)])])]; [auto|auto|discriminate|]. right. split; [reflexivity|]. right. repeat split; [apply terminated_app; assumption|].
      right. exists (pl ++ q), m, k, s. rewrite app_assoc. reflexivity.
  - rewrite level_lines. destruct (IH (flagged c pl)) as (bs1 & bs2 & t & f' & ls' & e & pl' & tl & -> & S & C' & P' & L & K).
    exists (b :: bs1), bs2, (b ++ [13; 10] ++ t), f', (ls ++ ls'), e, (pl ++ pl'), tl. split; [reflexivity|]. split; [apply st_open; assumption|]. split; [exact (contents_open _ _ C T _ _ _ _ C')|].
    split; [exact (parsed_more _ _ _ P _ _ _ _ P')|]. split; [rewrite L, listing_app; reflexivity|].
    destruct K as [K|(-> & [K|(-> & T' & K)])]; [auto|auto|]. right. split; [reflexivity|]. right. split; [reflexivity|]. split.
    { rewrite app_assoc. destruct T' as [->|(t' & ->)]; right; [exists (b ++ [13]); rewrite app_nil_r, <- app_assoc; reflexivity|]. exists ((b ++ [13; 10]) ++ t'). rewrite app_assoc. reflexivity. }
    destruct K as [(-> & F)|(q & m & k & s & ->)]; [|right; exists (pl ++ q), m, k, s; rewrite app_assoc; reflexivity].
    rewrite app_nil_r. exact (flagged_true _ _ F).
Qed.
Theorem as_one_file lib pf evs bs f rs : pieces evs bs f -> answers 1 bs f rs -> resumes_afresh rs ->
  exists bs1 bs2 t f' ls e pl tl, bs = bs1 ++ bs2 /\ stitched bs1 t /\ contents t f' ls e /\ parsed 1 ls e pl tl
  /\ (bs2 = [] /\ f' = f \/ f' = None /\ (tl <> None \/ tl = None /\ terminated t /\ ends_in_comment pl))
  /\ forall evs0, delivers evs0 t f' -> read_catalogue lib pf evs = read_catalogue lib pf evs0.
Proof.
  intros P A G. destruct (answers_stitched _ _ _ _ A true) as (bs1 & bs2 & t & f' & ls & e & pl & tl & -> & S & C & PS & L & K).
  exists bs1, bs2, t, f', ls, e, pl, tl. repeat (split; [assumption || reflexivity|]). split.
  - unfold ends_in_comment. destruct K as [K|(-> & [K|(-> & T & [[K _]|K])])]; auto 8.
  - intros evs0 D. symmetry. apply (proj1 (file_catalogue lib pf _ _ _ _ _ _ _ _ D C PS)). rewrite <- L. apply level_catalogue; [exact G|].
    apply (any_catalogue lib pf _ _ _ _ _ P A). reflexivity.
Qed.

Lemma resumes_nil : resumes_afresh [].
Proof. intros a b E. destruct a; discriminate. Qed.
Lemma resumes_some x ls : resumes_afresh ls -> resumes_afresh (Some x :: ls).
Proof. intros H a b E. destruct a as [|y a]; [discriminate|]. apply (H a b). exact (f_equal (@tl _) E). Qed.
Lemma resumes_report ls : (forall i, In i ls -> i = None) \/ (exists l r, ls = Some (ILine l) :: r /\ afresh l) -> resumes_afresh ls -> resumes_afresh (None :: ls).
Proof.
  intros K H a b E. destruct a as [|y a]; pose proof (f_equal (@tl _) E) as E'; cbn in E'; [subst b; exact K|]. exact (H a b E').
Qed.
