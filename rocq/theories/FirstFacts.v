(** The first entry of a file, which may lack its msgid. *)
From Coq Require Import String Arith NArith ZArith Bool List Lia.
From Verif Require Import ModelBase ModelUtf8 ModelLine ModelFormula ModelData ModelSource ModelReader
  SpecLine SpecSource SpecReader SpecBlock SpecHeader SpecFile BaseFacts LineFacts LineThms DecFacts SourceFacts IterFacts ReaderFacts ReadsFacts CatalogueFacts LocalFacts StreamFacts
  BlockFacts CommentFacts UnitFacts SoundFacts BlocksFacts.
Import ListNotations.
Local Open Scope N_scope.

(** * Counting *)
Lemma msgid_lines_app a b : msgid_lines (a ++ b) = (msgid_lines a + msgid_lines b)%nat.
Proof. unfold msgid_lines. rewrite filter_app, app_length. reflexivity. Qed.
Lemma strings_msgid p a t : strings p a t -> msgid_lines a = 0%nat.
Proof. induction 1; [reflexivity|]. exact IHstrings. Qed.
Lemma field_msgid p kw a t : field p kw a t -> msgid_lines a = (if str_eqb (reported_tag p kw) (lit "msgid") then 1 else 0)%nat.
Proof.
  intros [n s ls x S]. apply strings_msgid in S. unfold msgid_lines in *. cbn [filter msgid_line]. destruct (str_eqb _ _); cbn [length]; rewrite S; reflexivity.
Qed.
Lemma opt_msgid p kw a o : opt_field p kw a o -> str_eqb (reported_tag p kw) (lit "msgid") = false -> msgid_lines a = 0%nat.
Proof. intros [|ls s F] H; [reflexivity|]. apply field_msgid in F. rewrite H in F. exact F. Qed.
Lemma previous_msgid forms obs a m : previous forms obs a m -> msgid_lines a = 0%nat.
Proof.
  intros [|l id F|l1 id l2 pl F1 F2]; [reflexivity|..]; [|rewrite msgid_lines_app; apply field_msgid in F1, F2; rewrite F1, F2; destruct obs; reflexivity].
  apply field_msgid in F. rewrite F. destruct obs; reflexivity.
Qed.
Lemma values_msgid obs count i a vs : values (own obs) count i a vs -> msgid_lines a = 0%nat.
Proof.
  induction 1 as [|i k kw ls s ls' vs I K (ds & Dc & ->) F V IH]; [reflexivity|]. rewrite msgid_lines_app, IH. apply field_msgid in F. rewrite F.
  destruct obs; reflexivity.
Qed.
Lemma comments_msgid a F N L C : block_comments a F N L C -> msgid_lines a = 0%nat.
Proof. induction 1; try reflexivity; assumption. Qed.
Lemma body_msgid forms obs a m : body forms obs a m -> msgid_lines a = 1%nat.
Proof.
  intros [l1 id l2 t F1 F2|l1 id l2 pl l3 vs F1 F2 V NE]; rewrite !msgid_lines_app; apply field_msgid in F1, F2; rewrite F1, F2; [destruct obs; reflexivity|].
  rewrite (values_msgid _ _ _ _ _ V). destruct obs; reflexivity.
Qed.
Theorem entry_msgid forms b u : entry forms b u -> msgid_lines b = 1%nat.
Proof.
  intros [cs F N L C obs ks pc pm c m st B K St]. destruct K as [l1 pc' l2 pm' l3 c' l4 m' K1 K2 K3 K4].
  rewrite !msgid_lines_app, (comments_msgid _ _ _ _ _ B), (previous_msgid _ _ _ _ K2), (body_msgid _ _ _ _ K4).
  rewrite (opt_msgid _ _ _ _ K1), (opt_msgid _ _ _ _ K3); [reflexivity|destruct obs; reflexivity..].
Qed.
Lemma opening_msgid forms obs p : opening forms obs p -> msgid_lines p = 0%nat.
Proof.
  intros [cs F N L C l1 pc l2 pm l3 c B K1 K2 K3]. rewrite !msgid_lines_app, (comments_msgid _ _ _ _ _ B), (previous_msgid _ _ _ _ K2).
  rewrite (opt_msgid _ _ _ _ K1), (opt_msgid _ _ _ _ K3); [reflexivity|destruct obs; reflexivity..].
Qed.
Lemma incomplete_msgid forms p : incomplete forms p -> (msgid_lines p <= 1)%nat.
Proof.
  intros (w & [obs q O|obs q l id O F|obs q l id l' pl O F F']); rewrite ?msgid_lines_app, (opening_msgid _ _ _ O).
  - lia.
  - apply field_msgid in F. rewrite F. destruct obs; cbn; lia.
  - apply field_msgid in F, F'. rewrite F, F'. destruct obs; cbn; lia.
Qed.
Lemma headless_msgid forms h u : headless forms h u -> msgid_lines h = 0%nat.
Proof.
  intros [cs F N L C obs l1 pc l2 pm l3 c l4 t st B K1 K2 K3 K4 St].
  rewrite !msgid_lines_app, (comments_msgid _ _ _ _ _ B), (previous_msgid _ _ _ _ K2).
  rewrite (opt_msgid _ _ _ _ K1), (opt_msgid _ _ _ _ K3), (opt_msgid _ _ _ _ K4); [lia|destruct obs; reflexivity..].
Qed.
Lemma awaited_msgid forms p w : awaited forms p w -> w <> lit "msgid" -> msgid_lines p = 1%nat.
Proof.
  intros [obs q O|obs q l id O F|obs q l id l' pl O F F'] N; rewrite ?msgid_lines_app, (opening_msgid _ _ _ O).
  - contradiction.
  - apply field_msgid in F. rewrite F. destruct obs; reflexivity.
  - apply field_msgid in F, F'. rewrite F, F'. destruct obs; reflexivity.
Qed.

(** * Beginnings *)
Lemma comment_lines_iff p : Forall comment_line p <-> Forall is_comment p.
Proof.
  rewrite !Forall_forall. split; intros H l I; specialize (H l I).
  - destruct l; try contradiction. unfold is_comment; eauto.
  - destruct H as (n & k & s & ->). exact Logic.I.
Qed.
Lemma headless_of forms cs F N L C obs l1 pc l2 pm l3 c l4 t : block_comments cs F N L C -> opt_field (prev obs) (lit "msgctxt") l1 pc ->
  previous forms obs l2 pm -> opt_field (own obs) (lit "msgctxt") l3 c -> opt_field (own obs) (lit "msgid_plural") l4 t ->
  exists u, headless forms (cs ++ l1 ++ l2 ++ l3 ++ l4) u.
Proof. intros B F1 F2 F3 F4. eexists. eapply hl_intro; [exact B|exact F1|exact F2|exact F3|exact F4|]. apply state_of_iff. reflexivity. Qed.
Lemma opening_headless forms obs p : opening forms obs p -> exists u, headless forms p u.
Proof.
  intros [cs F N L C l1 pc l2 pm l3 c B F1 F2 F3]. destruct (headless_of forms _ _ _ _ _ _ _ _ _ _ _ _ [] _ B F1 F2 F3 (of_none _ _)) as (u & H).
  rewrite app_nil_r in H. eauto.
Qed.
Lemma headless_prefix forms p q u : headless forms (p ++ q) u -> exists v, headless forms p v.
Proof.
  intros H. remember (p ++ q) as l eqn:E. destruct H as [cs F N L C obs l1 pc l2 pm l3 c l4 t st B F1 F2 F3 F4 St].
  replace (cs ++ l1 ++ l2 ++ l3 ++ l4) with ((cs ++ l1 ++ l2 ++ l3) ++ l4) in E by (rewrite <- !app_assoc; reflexivity).
  pose proof (og_intro forms obs _ _ _ _ _ _ _ _ _ _ _ B F1 F2 F3) as O. apply app_eq_app in E as (z & [[E1 ->]|[-> ->]]).
  - rewrite E1 in O. exact (opening_headless _ _ _ (opening_prefix _ _ _ _ O)).
  - destruct (opt_prefix _ _ _ _ _ F4) as (t' & F4').
    destruct (headless_of forms _ _ _ _ _ _ _ _ _ _ _ _ _ _ B F1 F2 F3 F4') as (v & H). rewrite <- !app_assoc. eauto.
Qed.
(** What is shown of such an entry. *)
Lemma headless_shape forms h u : headless forms h u -> exists cs ks, h = cs ++ ks /\ Forall is_comment cs /\ no_comment_first ks
  /\ u_notes u = u_notes (fold_left apply_line cs unit_default) /\ u_comments u = u_comments (fold_left apply_line cs unit_default) /\ u_message u = MSimple [] None.
Proof.
  intros [cs F N L C obs l1 pc l2 pm l3 c l4 t st B F1 F2 F3 F4 St]. exists cs, (l1 ++ l2 ++ l3 ++ l4).
  rewrite (comments_unit _ _ _ _ _ B). split; [reflexivity|]. split; [exact (block_comments_comment _ _ _ _ _ B)|]. split; [|repeat split].
  destruct (opening_marked forms obs l1 pc l2 pm l3 c l4 F1 F2 F3) as [E|M]; [|exact (marked_no_comment _ _ M)].
  apply app_eq_nil in E as [-> E]. apply app_eq_nil in E as [-> ->]. destruct F4 as [|l4 s F4]; [discriminate|].
  pose proof (field_marked _ _ _ _ [] obs F4 (own_obs obs)) as M. rewrite app_nil_r in M. exact (marked_no_comment _ _ M).
Qed.
Lemma comments_unique a b c d : Forall is_comment a -> no_comment_first b -> Forall is_comment c -> no_comment_first d -> a ++ b = c ++ d -> a = c /\ b = d.
Proof.
  revert c. induction a as [|x a IH]; intros [|y c] A B C D E; cbn [app] in E.
  - auto.
  - subst b. apply Forall_cons_iff in C as [C _]. destruct (B y _ eq_refl C).
  - subst d. apply Forall_cons_iff in A as [A _]. destruct (D x _ eq_refl A).
  - injection E as <- E. apply Forall_cons_iff in A as [_ A], C as [_ C]. destruct (IH c A B C D E) as [-> ->]. auto.
Qed.
Lemma headless_det forms forms' h u v : headless forms h u -> headless forms' h v ->
  u_notes u = u_notes v /\ u_comments u = u_comments v /\ u_message u = u_message v.
Proof.
  intros H H'. apply headless_shape in H as (cs & ks & -> & A & B & E1 & E2 & E3). apply headless_shape in H' as (cs' & ks' & E & A' & B' & E1' & E2' & E3').
  apply comments_unique in E as [-> ->]; [|assumption..]. repeat split; congruence.
Qed.

(** * Reading it *)
Lemma headless_end forms p u : headless forms p u ->
  exists o, runit forms true (listing p None) = (o, []) /\ (~ Forall is_comment p -> o <> Ok None).
Proof.
  intros [cs F N L C obs l1 pc l2 pm l3 c l4 t st B F1 F2 F3 F4 St].
  assert (l1 ++ l2 ++ l3 ++ l4 = [] \/ marked obs (l1 ++ l2 ++ l3 ++ l4)) as [E|M].
  { destruct (opening_marked forms obs l1 pc l2 pm l3 c l4 F1 F2 F3) as [E|M]; [|right; exact M].
    apply app_eq_nil in E as [-> E]. apply app_eq_nil in E as [-> ->]. destruct F4 as [|l4 s F4]; [left; reflexivity|right].
    pose proof (field_marked _ _ _ _ [] obs F4 (own_obs obs)) as M. rewrite app_nil_r in M. exact M. }
  - rewrite E. unfold runit. rewrite (parse_comments_listing cs (block_comments_comment _ _ _ _ _ B) _ [] None) by discriminate.
    cbn. eexists. split; [reflexivity|]. intros X. exfalso. apply X. rewrite app_nil_r. exact (block_comments_comment _ _ _ _ _ B).
  - assert (quiet obs [lit "msgid_plural"] l4 None) as Q4.
    { destruct F4 as [|l4 s F4]; [right; left; auto|left]. pose proof (field_headed _ _ _ _ [] obs F4) as H. rewrite app_nil_r, own_tag in H. exact H. }
    unfold runit. rewrite (parse_comments_listing cs (block_comments_comment _ _ _ _ _ B) _ _ _ (marked_no_comment _ _ M)).
    pose proof (head_reduce forms true (set_obsolete (fold_left apply_line cs unit_default) obs) obs l1 pc l2 pm l3 c l4 None eq_refl F1 F2 F3
      (quiet_weaken _ _ [lit "msgid"; lit "msgid_plural"] _ _ Q4 ltac:(intros x [<-|[]]; right; left; reflexivity))) as E.
    destruct M as (n & q & t' & s & r' & Er & Oq). rewrite Er in *. cbn [bind]. rewrite listing_cons. unfold peek; cbn [hd line_obsolete po_line_no].
    rewrite Oq, <- listing_cons, E. clear E Er.
    rewrite parse_msg_miss by (eapply quiet_miss; [exact Q4|notin]). cbn [bind negb andb].
    rewrite <- (app_nil_r l4). rewrite (opt_parse_quiet obs (lit "msgid_plural") _ _ _ _ _ None [] F4); [|symmetry; apply own_tag|apply own_obs|apply own_sane|right; left; auto|intros []].
    cbn [bind new_message finish_unit negb andb]. eexists. split; [reflexivity|discriminate].
Qed.
Lemma rest_not_headless forms p l r tl o : runit forms true (listing (p ++ l :: r) tl) = (o, listing (l :: r) tl) -> forall u, ~ headless forms (p ++ [l]) u.
Proof.
  intros E u H. replace (p ++ l :: r) with ((p ++ [l]) ++ r) in E by (rewrite <- app_assoc; reflexivity). rewrite listing_app in E.
  change (listing (l :: r) tl) with ([Some (ILine l)] ++ listing r tl) in E.
  pose proof (fun H => runit_local forms true _ _ _ _ H E) as E'. specialize (E' ltac:(discriminate) []).
  destruct (headless_end forms _ _ H) as (o' & E2 & _). unfold listing in E2. cbn [ending] in E2. rewrite E' in E2. discriminate.
Qed.
Definition first_result (pl : list po_line) (tl : option error) (x : res (option unit_)) : Prop :=
  match x with
  | (Ok (Some u), r) => exists b r', pl = b ++ r' /\ r = listing r' tl /\ first_entry b r' tl u
  | (Ok None, r) => tl = None /\ (Forall comment_line pl \/ exists w, awaited None pl w /\ w <> lit "msgid")
  | (Err e, r) =>
      (tl = Some e /\ (begun None pl \/ exists u, headless None pl u))
      \/ (exists inc l r' w, pl = inc ++ l :: r' /\ awaited None inc w /\ w <> lit "msgid" /\ ~ begun None (inc ++ [l]) /\
           e = EParse (po_line_no l) (shown l) w /\ r = listing (l :: r') tl)
  | (Panic, _) => False
  end.
Theorem first_sound pl tl : Forall written pl -> first_result pl tl (runit None true (listing pl tl)).
Proof.
  intros W. pose proof (runit_sound None true pl tl W) as R.
  destruct (runit None true (listing pl tl)) as [[[u|]|e|] r] eqn:E; cbn [unit_result first_result] in R |- *; [| | |exact R].
  - destruct R as (b & r' & -> & -> & R). exists b, r'. split; [reflexivity|]. split; [reflexivity|].
    destruct R as [(En & _ & Bo)|(_ & Hl & T)]; [apply fe_entry; [exact En|exact (boundary_ends _ _ _ _ Bo)]|apply fe_headless; [exact Hl|]].
    destruct r' as [|l r']; cbn [headless_ends].
    + split; [exact (T eq_refl)|]. rewrite comment_lines_iff. intros X. specialize (T eq_refl). subst tl. rewrite app_nil_r in E.
      unfold runit in E. pose proof (parse_comments_listing b X unit_default [] None ltac:(discriminate)) as P. rewrite app_nil_r in P. rewrite P in E. discriminate.
    + split; [exact (rest_not_begun _ _ _ _ _ _ _ E)|exact (rest_not_headless _ _ _ _ _ _ E)].
  - destruct R as (-> & -> & (w & A) & _). split; [reflexivity|]. destruct (list_eq_dec N.eq_dec w (lit "msgid")) as [->|N].
    + left. apply comment_lines_iff. assert (exists u, headless None pl u) as (u & H).
      { remember (lit "msgid") as w eqn:Ew. destruct A as [obs p O|obs p l id O F|obs p l id l' x O F F']; [exact (opening_headless _ _ _ O)|discriminate..]. }
      destruct (headless_end None pl u H) as (o & E2 & X). rewrite E in E2. injection E2 as <-.
      destruct (comments_split pl) as (cs & [|l kr] & -> & Cs & NC); [rewrite app_nil_r; exact Cs|].
      exfalso. apply X; [|reflexivity]. intros Y. apply Forall_app in Y as [_ Y]. apply Forall_cons_iff in Y as [Y _]. exact (NC l kr eq_refl Y).
    + right. exists w. auto.
  - destruct R as [(-> & _ & [G|[_ H]])|[(inc & l & r' & w & -> & A & NW & NG & -> & ->)|[? _]]]; [left; auto|left; auto| |discriminate].
    right. exists inc, l, r', w. repeat split; auto.
Qed.

(** * Conversely *)
Lemma awaited_id forms p : awaited forms p (lit "msgid") -> exists u, headless forms p u.
Proof.
  intros A. remember (lit "msgid") as w eqn:Ew. destruct A as [obs p O|obs p l id O F|obs p l id l' x O F F']; [exact (opening_headless _ _ _ O)|discriminate..].
Qed.
Lemma app_prefix {A} (h r b r' : list A) : h ++ r = b ++ r' ->
  (h = b /\ r = r') \/ (exists x y, b = h ++ x :: y /\ r = x :: y ++ r') \/ (exists x y, h = b ++ x :: y /\ r' = x :: y ++ r).
Proof.
  intros E. apply app_eq_app in E as (z & [[-> ->]|[-> ->]]); destruct z as [|x z].
  - left. rewrite app_nil_r. auto.
  - right; right. exists x, z. auto.
  - left. rewrite app_nil_r. auto.
  - right; left. exists x, z. auto.
Qed.
Lemma snoc {A} (h : list A) x y : h ++ x :: y = (h ++ [x]) ++ y.
Proof. rewrite <- app_assoc. reflexivity. Qed.
Lemma entry_begun forms b u : entry forms b u -> begun forms b.
Proof. intros E. left. exists [], u. rewrite app_nil_r. exact E. Qed.
Theorem headless_read h u r tl : Forall written (h ++ r) -> headless None h u -> headless_ends h r tl ->
  exists v, runit None true (listing (h ++ r) tl) = (Ok (Some v), listing r tl)
    /\ u_notes v = u_notes u /\ u_comments v = u_comments u /\ u_message v = u_message u.
Proof.
  intros W H Ends. pose proof (first_sound _ tl W) as R. pose proof (headless_msgid _ _ _ H) as M0.
  assert (forall x y b, b = h ++ x :: y -> r = x :: y -> begun None b \/ (exists v, headless None b v) -> False) as Ext.
  { intros x y b -> -> [G|(v & Hv)]; destruct Ends as [NG NH]; [rewrite snoc in G; exact (NG (begun_prefix _ _ _ G))|rewrite snoc in Hv].
    destruct (headless_prefix _ _ _ _ Hv) as (v' & Hv'). exact (NH v' Hv'). }
  destruct (runit None true (listing (h ++ r) tl)) as [[[v|]|e|] r0] eqn:E; cbn [first_result] in R; [| | |destruct R].
  - destruct R as (b & r' & Eq & -> & Fe). apply app_prefix in Eq as [[-> ->]|[(x & y & -> & ->)|(x & y & -> & ->)]].
    + destruct Fe as [En _|Hv _]; [rewrite (entry_msgid _ _ _ En) in M0; discriminate|]. exists v. split; [reflexivity|].
      destruct (headless_det _ _ _ _ _ H Hv) as (-> & -> & ->). auto.
    + exfalso. destruct Ends as [NG NH]. rewrite snoc in Fe. destruct Fe as [En _|Hv _].
      * apply NG, (begun_prefix _ _ y), (entry_begun _ _ _ En).
      * destruct (headless_prefix _ _ _ _ Hv) as (v' & Hv'). exact (NH v' Hv').
    + exfalso. destruct Fe as [En _|_ [_ NH]].
      * rewrite msgid_lines_app, (entry_msgid _ _ _ En) in M0. discriminate.
      * rewrite snoc in H. destruct (headless_prefix _ _ _ _ H) as (v' & Hv'). exact (NH v' Hv').
  - exfalso. destruct R as (-> & R). destruct r as [|l r].
    + rewrite app_nil_r in *. destruct R as [R|(w & A & NW)]; [exact (proj2 Ends R)|]. rewrite (awaited_msgid _ _ _ A NW) in M0. discriminate.
    + destruct R as [R|(w & A & NW)].
      * apply comment_lines_iff in R. destruct (block_comments_total _ R) as (F & N & L & C & B).
        eapply Ext; [reflexivity|reflexivity|]. right. pose proof (headless_of None _ _ _ _ _ false _ _ _ _ _ _ _ _ B (of_none _ _) (pv_none _ _) (of_none _ _) (of_none _ _)) as X. rewrite !app_nil_r in X. exact X.
      * eapply Ext; [reflexivity|reflexivity|]. left. right. exists w. exact A.
  - exfalso. destruct R as [(-> & R)|(inc & l & r' & w & Eq & A & NW & NG & -> & ->)].
    + destruct r as [|l r]; [destruct Ends; discriminate|]. exact (Ext l r _ eq_refl eq_refl R).
    + apply app_prefix in Eq as [[-> ->]|[(x & y & -> & ->)|(x & y & -> & Eq)]].
      * rewrite (awaited_msgid _ _ _ A NW) in M0. discriminate.
      * destruct Ends as [NG' _]. apply NG'. apply (begun_prefix _ _ y). rewrite <- snoc. right. exists w. exact A.
      * rewrite msgid_lines_app, (awaited_msgid _ _ _ A NW) in M0. discriminate.
Qed.
Theorem first_read h u r tl : Forall written (h ++ r) -> first_entry h r tl u ->
  exists v, runit None true (listing (h ++ r) tl) = (Ok (Some v), listing r tl)
    /\ u_notes v = u_notes u /\ u_comments v = u_comments u /\ u_message v = u_message u.
Proof.
  intros W [En Ea|Hl Ea]; [|exact (headless_read h u r tl W Hl Ea)]. apply Forall_app in W as [_ W].
  exists u. split; [exact (runit_first_entry None h u r tl En (ends_boundary _ _ _ _ W Ea))|auto].
Qed.
Theorem first_nothing pl : Forall comment_line pl \/ (exists w, awaited None pl w /\ w <> lit "msgid") -> Forall written pl ->
  runit None true (listing pl None) = (Ok None, []).
Proof.
  intros [H|(w & A & NW)] W.
  - apply comment_lines_iff in H. unfold runit. pose proof (parse_comments_listing pl H unit_default [] None ltac:(discriminate)) as P. rewrite app_nil_r in P. rewrite P. reflexivity.
  - destruct (awaited_end None true pl w A) as (o & E & _). pose proof (first_sound pl None W) as R. rewrite E in R |- *. pose proof (awaited_msgid _ _ _ A NW) as M.
    destruct o as [[u|]|e|]; cbn [first_result] in R; [| reflexivity | |destruct R].
    + exfalso. destruct R as (b & r' & -> & Er & Fe). symmetry in Er. apply listing_nil_inv in Er as [-> _]. rewrite app_nil_r in *.
      destruct Fe as [En _|Hl _]; [exact (incomplete_not_entry None b u (ex_intro _ w A) En)|]. rewrite (headless_msgid _ _ _ Hl) in M. discriminate.
    + exfalso. destruct R as [(? & _)|(inc & l & r' & w' & _ & _ & _ & _ & _ & Er)]; discriminate.
Qed.
Theorem first_failure pl e : begun None pl \/ (exists u, headless None pl u) -> Forall written pl ->
  exists r, runit None true (listing pl (Some e)) = (Err e, r).
Proof.
  intros H W. pose proof (first_sound pl (Some e) W) as R.
  assert (forall b l y o, pl = b ++ l :: y -> runit None true (listing pl (Some e)) <> (o, listing (l :: y) (Some e))) as X.
  { intros b l y o -> E. destruct H as [G|(u & H)].
    - apply (begun_no_rest None true _ l b y o eq_refl G [] (Some e)). rewrite !app_nil_r. exact E.
    - rewrite snoc in H. destruct (headless_prefix _ _ _ _ H) as (v & Hv). exact (rest_not_headless _ _ _ _ _ _ E v Hv). }
  destruct (runit None true (listing pl (Some e))) as [[[u|]|e'|] r] eqn:E; cbn [first_result] in R; [| | |destruct R].
  - exfalso. destruct R as (b & [|l r'] & -> & -> & Fe); [|exact (X b l r' _ eq_refl eq_refl)]. destruct Fe as [_ Ea|_ [Ea _]]; discriminate.
  - destruct R; discriminate.
  - destruct R as [([= <-] & _)|(inc & l & r' & w & -> & _ & _ & _ & _ & ->)]; [eauto|]. exfalso. exact (X inc l r' _ eq_refl eq_refl).
Qed.
Theorem first_line inc w l r tl : awaited None inc w -> w <> lit "msgid" -> ~ begun None (inc ++ [l]) -> Forall written (inc ++ l :: r) ->
  exists r', runit None true (listing (inc ++ l :: r) tl) = (Err (EParse (po_line_no l) (shown l) w), r').
Proof.
  intros A NW NG W. pose proof (first_sound _ tl W) as R. pose proof (awaited_msgid _ _ _ A NW) as M.
  assert (begun None inc) as G by (right; exists w; exact A).
  assert (~ begun None (inc ++ l :: r)) as NG2.
  { intros Gx. apply NG. apply (begun_prefix _ _ r). rewrite <- snoc. exact Gx. }
  assert (forall b v z, headless None b v -> b <> inc ++ z) as NH.
  { intros b v z H ->. apply headless_prefix in H as (v' & H). rewrite (headless_msgid _ _ _ H) in M. discriminate. }
  assert (forall b r' o, runit None true (listing (inc ++ l :: r) tl) = (o, listing r' tl) -> inc ++ l :: r = b ++ r' -> begun None b \/ (exists v, headless None b v) -> b = inc /\ r' = l :: r) as X.
  { intros b r' o E Eq Gb. symmetry in Eq. apply prefix_cases in Eq as [(x & y & -> & ->)|[[-> ->]|(z & ->)]].
    - exfalso. refine (begun_no_rest None true _ x b y o eq_refl G (l :: r) tl _). exact E.
    - auto.
    - exfalso. destruct Gb as [Gb|(v & Hv)]; [|exact (NH _ v (l :: z) Hv eq_refl)]. apply NG. apply (begun_prefix _ _ z). rewrite <- snoc. exact Gb. }
  destruct (runit None true (listing (inc ++ l :: r) tl)) as [[[u|]|e'|] r0] eqn:E; cbn [first_result] in R; [| | |destruct R].
  - exfalso. destruct R as (b & r' & Eq & -> & [En _|Hl _]).
    + destruct (X b r' _ eq_refl Eq (or_introl (entry_begun _ _ _ En))) as [-> ->]. exact (incomplete_not_entry None inc u (ex_intro _ w A) En).
    + destruct (X b r' _ eq_refl Eq (or_intror (ex_intro _ u Hl))) as [-> ->]. apply (NH inc u [] Hl). symmetry. apply app_nil_r.
  - exfalso. destruct R as (_ & [Cs|(w' & A' & _)]).
    + apply comment_lines_iff in Cs. apply Forall_app in Cs as [Cs _]. destruct (block_comments_total _ Cs) as (F & N & L & C & B). rewrite (comments_msgid _ _ _ _ _ B) in M. discriminate.
    + apply NG2. right. exists w'. exact A'.
  - destruct R as [(-> & [Gx|(v & Hv)])|(inc' & l' & r' & w' & Eq & A' & _ & _ & -> & ->)].
    + contradiction.
    + exfalso. exact (NH _ v _ Hv eq_refl).
    + destruct (X inc' (l' :: r') _ eq_refl Eq) as [-> [= -> ->]]; [left; right; exists w'; exact A'|]. rewrite (awaited_det _ _ _ _ A A'). eauto.
Qed.
