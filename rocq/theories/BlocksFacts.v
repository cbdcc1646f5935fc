(** The iteration over a file, in terms of blocks of lines. *)
From Coq Require Import String Arith NArith ZArith Bool List Lia.
From Verif Require Import ModelBase ModelUtf8 ModelLine ModelFormula ModelData ModelSource ModelReader
  SpecLine SpecSource SpecReader SpecBlock BaseFacts LineFacts LineThms IterFacts DecFacts ReaderFacts ReadsFacts LocalFacts BlockFacts CommentFacts UnitFacts SoundFacts.
Import ListNotations.
Local Open Scope N_scope.

(** * Beginnings of beginnings *)
Lemma strings_prefix f p q t : strings f (p ++ q) t -> exists t', strings f p t'.
Proof.
  revert t; induction p as [|x p IH]; intros t H; [exists []; constructor|]. cbn [app] in H.
  remember (x :: p ++ q) as l eqn:E. destruct H as [|n s ls t H]; [discriminate|]. injection E as <- ->. destruct (IH t H) as (t' & H').
  exists (s ++ t'). constructor. exact H'.
Qed.
Lemma field_prefix f kw p q t : field f kw (p ++ q) t -> p = [] \/ exists t', field f kw p t'.
Proof.
  intros H. destruct p as [|x p]; [left; reflexivity|right]. cbn [app] in H. remember (x :: p ++ q) as l eqn:E. destruct H as [n s ls t H].
  injection E as <- ->. destruct (strings_prefix _ _ _ _ H) as (t' & H'). exists (s ++ t'). constructor. exact H'.
Qed.
Lemma opt_prefix f kw p q t : opt_field f kw (p ++ q) t -> exists t', opt_field f kw p t'.
Proof.
  intros H. remember (p ++ q) as l eqn:E. destruct H as [|l t H].
  - symmetry in E. apply app_eq_nil in E as [-> _]. exists None. constructor.
  - subst l. apply field_prefix in H as [->|(t' & H)]; eexists; [apply of_none|apply of_some, H].
Qed.
Lemma previous_prefix forms obs p q m : previous forms obs (p ++ q) m -> exists m', previous forms obs p m'.
Proof.
  intros H. remember (p ++ q) as l eqn:E. destruct H as [|l id H|l1 id l2 pl H H'].
  - symmetry in E. apply app_eq_nil in E as [-> _]. eexists; constructor.
  - subst l. apply field_prefix in H as [->|(t' & H)]; eexists; [apply pv_none|apply pv_simple, H].
  - apply app_eq_app in E as (z & [[-> ->]|[-> ->]]).
    + apply field_prefix in H as [->|(t' & H)]; eexists; [apply pv_none|apply pv_simple, H].
    + apply field_prefix in H' as [->|(t' & H')]; eexists; [rewrite app_nil_r; apply pv_simple, H|apply (pv_plural _ _ _ _ _ _ H H')].
Qed.
Lemma comments_prefix p q F N L C : block_comments (p ++ q) F N L C -> exists F N L C, block_comments p F N L C.
Proof.
  intros B. apply block_comments_comment in B. apply Forall_app in B as [B _]. apply block_comments_total, B.
Qed.
Lemma opening_prefix forms obs p q : opening forms obs (p ++ q) -> opening forms obs p.
Proof.
  intros O. remember (p ++ q) as l eqn:E. destruct O as [cs F N L C l1 pc l2 pm l3 c B F1 F2 F3].
  apply app_eq_app in E as (z & [[-> E]|[-> E]]).
  { destruct (comments_prefix _ _ _ _ _ _ B) as (F' & N' & L' & C' & B').
    pose proof (og_intro forms obs _ _ _ _ _ [] _ [] _ [] _ B' (of_none _ _) (pv_none _ _) (of_none _ _)) as O. rewrite !app_nil_r in O. exact O. }
  apply app_eq_app in E as (y & [[-> E]|[-> E]]).
  { destruct (opt_prefix _ _ _ _ _ F1) as (t & F1').
    pose proof (og_intro forms obs _ _ _ _ _ _ _ [] _ [] _ B F1' (pv_none _ _) (of_none _ _)) as O. rewrite !app_nil_r in O. exact O. }
  apply app_eq_app in E as (x & [[-> E]|[-> E]]).
  { destruct (previous_prefix _ _ _ _ _ F2) as (t & F2').
    pose proof (og_intro forms obs _ _ _ _ _ _ _ _ _ [] _ B F1 F2' (of_none _ _)) as O. rewrite !app_nil_r in O. exact O. }
  subst l3. destruct (opt_prefix _ _ _ _ _ F3) as (t & F3').
  exact (og_intro forms obs _ _ _ _ _ _ _ _ _ _ _ B F1 F2 F3').
Qed.
Lemma incomplete_prefix forms p q : incomplete forms (p ++ q) -> incomplete forms p.
Proof.
  intros (w & A). remember (p ++ q) as l eqn:E. destruct A as [obs p' O|obs p' l id O Fi|obs p' l id l' pl O Fi Fp].
  - subst p'. eexists. eapply aw_id, opening_prefix, O.
  - apply app_eq_app in E as (z & [[-> E]|[-> ->]]).
    + eexists. eapply aw_id, opening_prefix, O.
    + apply field_prefix in Fi as [->|(t & Fi)]; eexists; [rewrite app_nil_r; eapply aw_id, O|eapply aw_str; eassumption].
  - apply app_eq_app in E as (z & [[-> E]|[-> E]]).
    + eexists. eapply aw_id, opening_prefix, O.
    + apply app_eq_app in E as (y & [[-> E]|[-> ->]]).
      * apply field_prefix in Fi as [->|(t & Fi)]; eexists; [rewrite app_nil_r; eapply aw_id, O|eapply aw_str; eassumption].
      * apply field_prefix in Fp as [->|(t & Fp)]; eexists; [rewrite app_nil_r; eapply aw_str; eassumption|eapply aw_forms; eassumption].
Qed.
Lemma viable_prefix forms p q : viable forms (p ++ q) -> viable forms p.
Proof. intros (r & u & E). exists (q ++ r), u. rewrite app_assoc. exact E. Qed.
Lemma begun_prefix forms p q : begun forms (p ++ q) -> begun forms p.
Proof. intros [V|I]; [left; exact (viable_prefix _ _ _ V)|right; exact (incomplete_prefix _ _ _ I)]. Qed.

(** Of a beginning of an entry nothing is left over. *)
Lemma begun_no_rest forms first p l b y o : p = b ++ l :: y -> begun forms p -> forall r tl,
  runit forms first (listing (p ++ r) tl) <> (o, listing ((l :: y) ++ r) tl).
Proof.
  intros -> G r tl E. rewrite <- app_assoc in E. cbn [app] in E. apply rest_not_begun in E. apply E.
  apply (begun_prefix _ _ y). rewrite <- app_assoc. exact G.
Qed.

(** * Where reading ends *)
Lemma ends_boundary forms b r tl : Forall written r -> ends_at forms b r tl -> boundary forms b r tl.
Proof. destruct r as [|l r]; intros W H; [exact H|]. apply Forall_cons_iff in W as [W _]. split; assumption. Qed.
Lemma boundary_ends forms b r tl : boundary forms b r tl -> ends_at forms b r tl.
Proof. destruct r as [|l r]; intros H; [exact H|exact (proj2 H)]. Qed.
Lemma incomplete_not_entry forms p u : incomplete forms p -> ~ entry forms p u.
Proof.
  intros (w & A). destruct (awaited_end forms false p w A) as (o & E & H). rewrite (H eq_refl) in E. exact (not_entry_none _ _ _ E u).
Qed.
Lemma prefix_cases {A} (b r inc : list A) l r' : b ++ r = inc ++ l :: r' ->
  (exists x y, inc = b ++ x :: y /\ r = x :: y ++ l :: r') \/ (b = inc /\ r = l :: r') \/ (exists z, b = inc ++ l :: z).
Proof.
  intros E. apply app_eq_app in E as (z & [[-> E]|[-> ->]]).
  - destruct z as [|x z].
    + right; left. rewrite app_nil_r. auto.
    + right; right. injection E as -> _. eauto.
  - destruct z as [|x z].
    + right; left. rewrite app_nil_r. auto.
    + left. exists x, z. auto.
Qed.
Lemma closing_run forms pl tl o : Forall written pl -> closing forms pl tl o ->
  match o with
  | None => runit forms false (listing pl tl) = (Ok None, [])
  | Some e => exists r, runit forms false (listing pl tl) = (Err e, r)
  end.
Proof.
  intros W H. destruct H as [rest (w & A)|rest e G|inc w l r tl A NG|cs F N L C obs k ks pc pm c text r tl B K E].
  - destruct (awaited_end forms false rest w A) as (o & E & H). rewrite (H eq_refl) in E. exact E.
  - pose proof (runit_sound forms false rest (Some e) W) as R.
    assert (forall b l y o, rest = b ++ l :: y -> runit forms false (listing rest (Some e)) <> (o, listing (l :: y) (Some e))) as X.
    { intros b l y o E1 E2. apply (begun_no_rest forms false rest l b y o E1 G [] (Some e)). rewrite !app_nil_r. exact E2. }
    destruct (runit forms false (listing rest (Some e))) as [[[u|]|e'|] r] eqn:E; cbn [unit_result] in R.
    + exfalso. destruct R as (b & r' & -> & -> & [(_ & _ & Bo)|(? & _)]); [|discriminate].
      destruct r' as [|l y]; [discriminate|]. exact (X b l y _ eq_refl eq_refl).
    + exfalso. destruct R as [? _]; discriminate.
    + destruct R as [([= <-] & -> & _)|[(inc & l & r' & w & -> & _ & _ & _ & _ & ->)|(_ & cs & F & N & L & C & obs & k & ks & pc & pm & c & text & r' & -> & _ & _ & Bo & _ & ->)]].
      * eauto.
      * exfalso. exact (X inc l r' _ eq_refl eq_refl).
      * exfalso. destruct r' as [|l y]; [discriminate|]. exact (X _ l y _ eq_refl eq_refl).
    + contradiction.
  - pose proof (runit_sound forms false (inc ++ l :: r) tl W) as R.
    assert (begun forms inc) as G by (right; eexists; exact A).
    assert (forall b r' o, runit forms false (listing (inc ++ l :: r) tl) = (o, listing r' tl) -> inc ++ l :: r = b ++ r' -> begun forms b -> b = inc /\ r' = l :: r) as X.
    { intros b r' o E Eq Gb. symmetry in Eq. apply prefix_cases in Eq as [(x & y & -> & ->)|[[-> ->]|(z & ->)]].
      - exfalso. refine (begun_no_rest forms false _ x b y o eq_refl G (l :: r) tl _). exact E.
      - auto.
      - exfalso. apply NG. apply (begun_prefix _ _ z). rewrite <- app_assoc. exact Gb. }
    assert (~ begun forms (inc ++ l :: r)) as NG2.
    { intros Gx. apply NG. apply (begun_prefix _ _ r). rewrite <- app_assoc. exact Gx. }
    destruct (runit forms false (listing (inc ++ l :: r) tl)) as [[[u|]|e'|] r0] eqn:E; cbn [unit_result] in R.
    + exfalso. destruct R as (b & r' & Eq & -> & [(En & _ & _)|(? & _)]); [|discriminate].
      destruct (X b r' _ eq_refl Eq) as [-> ->].
      * left. exists [], u. rewrite app_nil_r. exact En.
      * exact (incomplete_not_entry forms inc u (ex_intro _ _ A) En).
    + exfalso. destruct R as (_ & _ & I & _). apply NG2. right; exact I.
    + destruct R as [(-> & -> & [Gx|[? _]])|[(inc' & l' & r' & w' & Eq & A' & _ & _ & -> & ->)|(_ & cs & F & N & L & C & obs & k & ks & pc & pm & c & text & r' & Eq & B & K & Bo & _ & ->)]].
      * contradiction.
      * discriminate.
      * destruct (X inc' (l' :: r') _ eq_refl Eq) as [-> [= -> ->]]; [right; eexists; exact A'|].
        rewrite (awaited_det _ _ _ _ A A'). eauto.
      * exfalso. pose proof (entry_of _ _ _ _ _ _ _ _ _ _ _ _ B K) as En. destruct (X _ _ _ eq_refl Eq) as [<- _].
        -- left. exists []. eexists. rewrite app_nil_r. exact En.
        -- exact (incomplete_not_entry forms _ _ (ex_intro _ _ A) En).
    + contradiction.
  - apply Forall_app in W as [_ W]. rewrite (runit_keywords forms false _ _ _ _ _ _ _ _ _ _ _ _ _ B K (ends_boundary _ _ _ _ W E)). eauto.
Qed.

(** * The iteration *)
Theorem blocks_reads forms pl tl us o : blocks forms pl tl us o -> Forall written pl ->
  reads forms (listing pl tl) (map UOk us ++ error_item o).
Proof.
  induction 1 as [rest tl o Cl|b u r tl us o U E H IH]; intros W.
  - apply closing_run in Cl; [|exact W]. destruct o as [e|]; cbn.
    + destruct Cl as (r & Cl). eapply reads_err; exact Cl.
    + eapply reads_end; exact Cl.
  - apply Forall_app in W as [_ W]. cbn [map app]. eapply reads_unit; [|exact (IH W)].
    apply runit_entry; [exact U|]. exact (ends_boundary _ _ _ _ W E).
Qed.
Theorem blocks_total forms pl tl : Forall written pl -> exists us o, blocks forms pl tl us o.
Proof.
  remember (length pl) as k eqn:E. revert pl E. induction k as [k IH] using lt_wf_ind. intros pl -> W.
  pose proof (runit_sound forms false pl tl W) as R.
  destruct (runit forms false (listing pl tl)) as [[[u|]|e'|] r0] eqn:E; cbn [unit_result] in R.
  - destruct R as (b & r' & -> & -> & [(En & [?|S] & Bo)|(? & _)]); try discriminate.
    apply Forall_app in W as [_ W]. destruct (IH (length r') ltac:(rewrite app_length; destruct En as [cs F N L C obs ks pc pm c m st B K St]; pose proof (keywords_marked _ _ _ _ _ _ _ [] K) as (n & p & t & s & rr & E2 & _); rewrite app_nil_r in E2; subst ks; rewrite app_length; cbn; lia) r' eq_refl W) as (us & o & Bl).
    exists (u :: us), o. apply bk_entry; [split; assumption|exact (boundary_ends _ _ _ _ Bo)|exact Bl].
  - destruct R as (-> & -> & I & _). exists [], None. apply bk_close, cl_end, I.
  - destruct R as [(-> & -> & [Gx|[? _]])|[(inc' & l' & r' & w' & -> & A' & _ & NG & -> & ->)|(_ & cs & F & N & L & C & obs & k & ks & pc & pm & c & text & r' & -> & B & K & Bo & -> & ->)]].
    + exists [], (Some e'). apply bk_close, cl_fail, Gx.
    + discriminate.
    + do 2 eexists. apply bk_close. eapply cl_line; eassumption.
    + do 2 eexists. apply bk_close. eapply cl_empty; [eassumption|eassumption|exact (boundary_ends _ _ _ _ Bo)].
  - contradiction.
Qed.
Theorem reads_blocks forms pl tl l : Forall written pl ->
  (reads forms (listing pl tl) l <-> exists us o, blocks forms pl tl us o /\ l = map UOk us ++ error_item o).
Proof.
  intros W. split.
  - intros R. destruct (blocks_total forms pl tl W) as (us & o & B). exists us, o. split; [exact B|].
    exact (reads_det _ _ _ _ R (blocks_reads _ _ _ _ _ B W)).
  - intros (us & o & B & ->). exact (blocks_reads _ _ _ _ _ B W).
Qed.
Lemma items_inj us o us' o' : map UOk us ++ error_item o = map UOk us' ++ error_item o' -> us = us' /\ o = o'.
Proof.
  revert us'; induction us as [|u us IH]; intros [|u' us'] E.
  - destruct o, o'; cbn in E; try discriminate; [injection E as <-|]; auto.
  - destruct o; discriminate.
  - destruct o'; discriminate.
  - cbn [map app] in E. injection E as <- E. apply IH in E as [<- E]. split; congruence.
Qed.
Theorem blocks_det forms pl tl us o us' o' : Forall written pl -> blocks forms pl tl us o -> blocks forms pl tl us' o' -> us = us' /\ o = o'.
Proof. intros W B B'. apply items_inj. exact (reads_det _ _ _ _ (blocks_reads _ _ _ _ _ B W) (blocks_reads _ _ _ _ _ B' W)). Qed.

(** * Lines of a file *)
Lemma parse_line_written s n l : one_line s -> parse_line s n = Some l -> l <> PBlank -> written l.
Proof.
  intros O E NB. destruct l as [|m k c|m p t c|m p c]; [contradiction|exact Logic.I| |].
  - apply parse_line_message in E as (_ & kw & body & (mark & w1 & w2 & w3 & w4 & _ & M & K & _) & -> & _); [|exact O].
    split; [destruct M; cbn; auto 10|]. exists kw. split; [apply K; reflexivity|reflexivity].
  - apply parse_line_cont in E as (_ & body & (mark & w1 & w2 & w3 & w4 & _ & M & K & _) & _); [|exact O]. destruct M; cbn; auto 10.
Qed.
Theorem line_of_iff s n l : one_line s -> (line_of s n l <-> parse_line s n = Some l).
Proof.
  intros O. split.
  - intros [B|flags kw q t Q U|flags q t Q U|k c C Q].
    + apply parse_line_blank; assumption.
    + apply parse_line_message; [exact O|]. split; [reflexivity|]. exists kw, q. auto.
    + apply parse_line_cont; [exact O|]. split; [reflexivity|]. exists q. auto.
    + apply parse_line_comment; auto.
  - destruct l as [|m k c|m p t c|m p c]; intros E.
    + apply ln_blank. apply (parse_line_blank s n O); exact E.
    + apply parse_line_comment in E as (-> & C & Q); [|exact O]. apply ln_comment; assumption.
    + apply parse_line_message in E as (-> & kw & q & Q & -> & U); [|exact O]. eapply ln_message; eassumption.
    + apply parse_line_cont in E as (-> & q & Q & U); [|exact O]. eapply ln_cont; eassumption.
Qed.
Theorem line_of_none s n : one_line s -> ((forall l, ~ line_of s n l) <-> parse_line s n = None).
Proof.
  intros O. split.
  - intros H. destruct (parse_line s n) as [l|] eqn:E; [|reflexivity]. apply (line_of_iff s n l O) in E. destruct (H _ E).
  - intros E l H. apply (line_of_iff s n l O) in H. congruence.
Qed.
Lemma parsed_total ls e : (forall s, In s ls -> one_line s) -> forall n, exists pl tl, parsed n ls e pl tl.
Proof.
  induction ls as [|s ls IH]; intros O n.
  - destruct e; do 2 eexists; constructor.
  - destruct (IH (fun x I => O x (or_intror I)) (n + 1)) as (pl & tl & H). pose proof (O s (or_introl eq_refl)) as Os.
    destruct (parse_line s n) as [l|] eqn:E; [|do 2 eexists; apply ps_bad; [exact Os|apply line_of_none; assumption]].
    apply line_of_iff in E; [|exact Os].
    assert (l = PBlank \/ l <> PBlank) as [->|NB] by (destruct l; [left; reflexivity|right; discriminate..]).
    + do 2 eexists. eapply ps_blank; eassumption.
    + do 2 eexists. eapply ps_line; eassumption.
Qed.
Lemma parsed_items n ls e pl tl : parsed n ls e pl tl -> items n ls e = listing pl tl.
Proof.
  induction 1 as [n|n e|n s ls e O E|n s ls e pl tl O E H IH|n s l ls e pl tl O E NB H IH]; cbn [items]; try reflexivity.
  all: apply line_of_iff in E || apply line_of_none in E; try exact O.
  - rewrite E. reflexivity.
  - rewrite E. exact IH.
  - rewrite E, listing_cons, <- IH. destruct l; [contradiction|reflexivity..].
Qed.
Lemma parsed_written n ls e pl tl : parsed n ls e pl tl -> Forall written pl.
Proof.
  induction 1 as [n|n e|n s ls e O E|n s ls e pl tl O E H IH|n s l ls e pl tl O E NB H IH]; try constructor.
  - exact IH.
  - apply line_of_iff in E; [|exact O]. exact (parse_line_written s n l O E NB).
  - exact IH.
Qed.
