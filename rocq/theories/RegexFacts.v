(** Relational semantics of the regular expressions, and its equivalence with the
    backtracking matcher (up to the choice among several matches). *)
From Coq Require Import String Arith NArith Bool List Lia.
From Verif Require Import ModelBase ModelRegex BaseFacts.
Import ListNotations.

Inductive mrel : re -> mstate -> mstate -> Prop :=
| MEps st : mrel REps st st
| MCls p c n s caps : p c = true -> mrel (RCls p) (MS n (c :: s) caps) (MS (S n) s caps)
| MSeq a b st st1 st' : mrel a st st1 -> mrel b st1 st' -> mrel (RSeq a b) st st'
| MAltL a b st st' : mrel a st st' -> mrel (RAlt a b) st st'
| MAltR a b st st' : mrel b st st' -> mrel (RAlt a b) st st'
| MStar0 g a st : mrel (RStar g a) st st
| MStarS g a st st1 st' :
    mrel a st st1 -> length (ms_rest st1) < length (ms_rest st) ->
    mrel (RStar g a) st1 st' -> mrel (RStar g a) st st'
| MOpt0 a st : mrel (ROpt a) st st
| MOpt1 a st st' : mrel a st st' -> mrel (ROpt a) st st'
| MGrp i a st st' : mrel a st st' -> mrel (RGrp i a) st (ms_capture i (ms_rest st) st')
| MBol s caps : mrel RBol (MS 0 s caps) (MS 0 s caps)
| MEol n caps : mrel REol (MS n [] caps) (MS n [] caps).

Lemma orelse_some {A} (a b : option A) x : orelse a b = Some x -> a = Some x \/ b = Some x.
Proof. destruct a; cbn; auto. Qed.
Lemma orelse_not_none {A} (a b : option A) : a <> None \/ b <> None -> orelse a b <> None.
Proof. destruct a; cbn; [discriminate|]. intros [H|H]; [congruence|exact H]. Qed.

Lemma mtch_sound r : forall st k x, mtch r st k = Some x ->
  exists st', mrel r st st' /\ k st' = Some x.
Proof.
  induction r as [|p|a IHa b IHb|a IHa b IHb|g a IHa|a IHa|i a IHa| |]; intros st k x H; cbn [mtch] in H.
  - exists st; split; [constructor|exact H].
  - destruct st as [n s caps]; cbn [ms_rest ms_pos ms_caps] in H. destruct s as [|c s]; [discriminate|].
    destruct (p c) eqn:E; [|discriminate]. eexists; split; [constructor; exact E|exact H].
  - apply IHa in H as (st1 & H1 & H). apply IHb in H as (st2 & H2 & H).
    exists st2; split; [econstructor; eassumption|exact H].
  - apply orelse_some in H as [H|H].
    + apply IHa in H as (st' & H1 & H). exists st'; split; [apply MAltL; exact H1|exact H].
    + apply IHb in H as (st' & H1 & H). exists st'; split; [apply MAltR; exact H1|exact H].
  - revert H. generalize (length (ms_rest st)) as fuel. intros fuel; revert st.
    induction fuel as [|fuel IHf]; intros st H; cbn [star_loop] in H.
    + exists st; split; [constructor|exact H].
    + match type of H with (if g then orelse ?X _ else _) = _ =>
        assert (X = Some x \/ k st = Some x) as [H1|H1]
          by (destruct g; apply orelse_some in H; tauto) end.
      * apply IHa in H1 as (st1 & M1 & H1).
        destruct (Nat.ltb_spec (length (ms_rest st1)) (length (ms_rest st))) as [L|L]; [|discriminate].
        apply IHf in H1 as (st2 & M2 & H2). exists st2; split; [|exact H2].
        eapply MStarS; eassumption.
      * exists st; split; [constructor|exact H1].
  - apply orelse_some in H as [H|H].
    + apply IHa in H as (st' & H1 & H). exists st'; split; [apply MOpt1; exact H1|exact H].
    + exists st; split; [constructor|exact H].
  - apply IHa in H as (st' & H1 & H). eexists; split; [constructor; exact H1|exact H].
  - destruct st as [n s caps]; cbn [ms_pos] in H.
    destruct (Nat.eqb_spec n 0) as [->|]; [|discriminate]. eexists; split; [constructor|exact H].
  - destruct st as [n s caps]; cbn [ms_rest] in H.
    destruct s; [|discriminate]. eexists; split; [constructor|exact H].
Qed.

Lemma star_complete g a :
  (forall st st', mrel a st st' -> forall k, k st' <> None -> mtch a st k <> None) ->
  forall r st st', mrel r st st' -> r = RStar g a ->
  forall k fuel, length (ms_rest st) <= fuel -> k st' <> None ->
  star_loop (mtch a) g k fuel st <> None.
Proof.
  intros IHa r st st' H. induction H; intros E; try discriminate E; injection E as -> ->;
    intros k fuel Hf Hk.
  - destruct fuel as [|fuel]; cbn [star_loop]; [exact Hk|].
    destruct g; apply orelse_not_none; auto.
  - destruct fuel as [|fuel]; [lia|]. cbn [star_loop].
    match goal with |- (if g then orelse ?X _ else _) <> None => assert (X <> None) as HX end.
    { eapply IHa; [eassumption|].
      destruct (Nat.ltb_spec (length (ms_rest st1)) (length (ms_rest st))) as [L|L]; [|lia].
      apply IHmrel2; [reflexivity|lia|exact Hk]. }
    destruct g; apply orelse_not_none; auto.
Qed.

Lemma mtch_complete r : forall st st', mrel r st st' ->
  forall k, k st' <> None -> mtch r st k <> None.
Proof.
  induction r as [|p|a IHa b IHb|a IHa b IHb|g a IHa|a IHa|i a IHa| |]; intros st st' H k Hk.
  5: { cbn [mtch]. eapply star_complete; eauto. }
  all: cbn [mtch]; inversion H; subst; cbn [ms_rest ms_pos ms_caps].
  - exact Hk.
  - match goal with E : p _ = true |- _ => rewrite E end. exact Hk.
  - eapply IHa; [eassumption|]. eapply IHb; eassumption.
  - apply orelse_not_none; left; eapply IHa; eassumption.
  - apply orelse_not_none; right; eapply IHb; eassumption.
  - apply orelse_not_none; right; exact Hk.
  - apply orelse_not_none; left; eapply IHa; eassumption.
  - eapply IHa; [eassumption|exact Hk].
  - exact Hk.
  - exact Hk.
Qed.

(** ** Inversion and introduction lemmas for the shapes used by the crate *)
Lemma mrel_cls p n s caps st' :
  mrel (RCls p) (MS n s caps) st' <->
  exists c s', s = c :: s' /\ p c = true /\ st' = MS (S n) s' caps.
Proof.
  split.
  - intros H; inversion H; subst. eauto.
  - intros (c & s' & -> & Hp & ->). constructor; exact Hp.
Qed.
Lemma mrel_seq a b st st' :
  mrel (RSeq a b) st st' <-> exists st1, mrel a st st1 /\ mrel b st1 st'.
Proof.
  split.
  - intros H; inversion H; subst. eauto.
  - intros (st1 & H1 & H2). econstructor; eassumption.
Qed.
Lemma mrel_alt a b st st' : mrel (RAlt a b) st st' <-> mrel a st st' \/ mrel b st st'.
Proof.
  split.
  - intros H; inversion H; subst; auto.
  - intros [H|H]; [apply MAltL|apply MAltR]; exact H.
Qed.
Lemma mrel_opt a st st' : mrel (ROpt a) st st' <-> st' = st \/ mrel a st st'.
Proof.
  split.
  - intros H; inversion H; subst; auto.
  - intros [->|H]; [apply MOpt0|apply MOpt1; exact H].
Qed.
Lemma mrel_grp i a st st' :
  mrel (RGrp i a) st st' <-> exists st1, mrel a st st1 /\ st' = ms_capture i (ms_rest st) st1.
Proof.
  split.
  - intros H; inversion H; subst; eauto.
  - intros (st1 & H & ->). constructor; exact H.
Qed.
Lemma mrel_bol n s caps st' : mrel RBol (MS n s caps) st' <-> n = 0 /\ st' = MS n s caps.
Proof.
  split.
  - intros H; inversion H; subst; auto.
  - intros [-> ->]; constructor.
Qed.
Lemma mrel_eol n s caps st' : mrel REol (MS n s caps) st' <-> s = [] /\ st' = MS n s caps.
Proof.
  split.
  - intros H; inversion H; subst; auto.
  - intros [-> ->]; constructor.
Qed.
Lemma mrel_eps st st' : mrel REps st st' <-> st' = st.
Proof.
  split.
  - intros H; inversion H; subst; auto.
  - intros ->; constructor.
Qed.
Lemma mrel_star_cls g p n s caps st' :
  mrel (RStar g (RCls p)) (MS n s caps) st' <->
  exists a b, s = a ++ b /\ forallb p a = true /\ st' = MS (n + length a) b caps.
Proof.
  split.
  - remember (RStar g (RCls p)) as r eqn:Er. remember (MS n s caps) as st eqn:Es.
    intros H; revert n s caps Es. induction H; intros n0 s0 caps0 Es; try discriminate Er.
    + subst. exists [], s0. cbn [app forallb length]. rewrite Nat.add_0_r. auto.
    + injection Er as -> ->. subst st. apply mrel_cls in H as (c & s' & -> & Hp & ->).
      destruct (IHmrel2 eq_refl _ _ _ eq_refl) as (a & b & -> & Ha & ->).
      exists (c :: a), b. cbn [app forallb length]. rewrite Hp, Ha, <- plus_n_Sm.
      repeat split.
  - intros (a & b & -> & Ha & ->). revert n Ha; induction a as [|c a IH]; intros n Ha.
    + cbn [app length]. rewrite Nat.add_0_r. constructor.
    + cbn [forallb] in Ha; apply andb_true_iff in Ha as [Hc Ha]. cbn [app length].
      eapply MStarS; [apply MCls; exact Hc|cbn [ms_rest length]; lia|].
      rewrite <- plus_n_Sm. apply (IH (S n) Ha).
Qed.
Lemma mrel_rch c n s caps st' :
  mrel (rch c) (MS n s caps) st' <-> exists s', s = c :: s' /\ st' = MS (S n) s' caps.
Proof.
  unfold rch. rewrite mrel_cls. split.
  - intros (c' & s' & -> & E & ->). apply N.eqb_eq in E. subst; eauto.
  - intros (s' & -> & ->). exists c, s'. rewrite N.eqb_refl; auto.
Qed.
Lemma mrel_rlit l : forall n s caps st',
  mrel (rlit l) (MS n s caps) st' <->
  exists s', s = l ++ s' /\ st' = MS (n + length l) s' caps.
Proof.
  induction l as [|c l IH]; intros n s caps st'.
  - cbn [rlit]. rewrite mrel_eps. cbn [app length]. rewrite Nat.add_0_r.
    split; [intros ->; eauto|intros (s' & -> & ->); reflexivity].
  - destruct l as [|d l].
    + cbn [rlit]. rewrite mrel_rch. cbn [app length].
      split; intros (s' & -> & ->); exists s'; rewrite Nat.add_1_r; auto.
    + change (rlit (c :: d :: l)) with (RSeq (rch c) (rlit (d :: l))).
      rewrite mrel_seq. split.
      * intros (st1 & H1 & H2). apply mrel_rch in H1 as (s' & -> & ->).
        apply IH in H2 as (s'' & -> & ->). exists s''. cbn [app length].
        split; [reflexivity|f_equal; lia].
      * intros (s' & -> & ->). eexists; split; [apply mrel_rch; cbn [app]; eauto|].
        apply IH. exists s'. cbn [app length]. split; [reflexivity|f_equal; lia].
Qed.

(** What a group captures. *)
Lemma ms_capture_app i a n b caps :
  ms_capture i (a ++ b) (MS n b caps) = MS n b ((i, a) :: caps).
Proof.
  unfold ms_capture; cbn [ms_pos ms_rest ms_caps]. rewrite app_length.
  replace (length a + length b - length b) with (length a + 0) by lia.
  rewrite firstn_app_2. cbn [firstn]. rewrite app_nil_r. reflexivity.
Qed.

(** The matcher never changes what is already consumed: the rest is a suffix. *)
Lemma mrel_suffix r st st' : mrel r st st' -> exists a, ms_rest st = a ++ ms_rest st' /\
  ms_pos st' = ms_pos st + length a.
Proof.
  intros H; induction H; cbn [ms_rest ms_pos ms_capture]; try (exists []; cbn [app length]; rewrite Nat.add_0_r; split; reflexivity).
  - exists [c]. cbn [app length]. split; [reflexivity|lia].
  - destruct IHmrel1 as (x & E1 & L1), IHmrel2 as (y & E2 & L2). exists (x ++ y).
    rewrite E1, E2, <- app_assoc, app_length. split; [reflexivity|lia].
  - exact IHmrel.
  - exact IHmrel.
  - destruct IHmrel1 as (x & E1 & L1), IHmrel2 as (y & E2 & L2). exists (x ++ y).
    rewrite E1, E2, <- app_assoc, app_length. split; [reflexivity|lia].
  - exact IHmrel.
  - exact IHmrel.
Qed.

(** ** Anchored search *)
Lemma find_bol r pos s : 0 < pos -> re_find_from (RSeq RBol r) pos s = None.
Proof.
  revert pos; induction s as [|c s IH]; intros pos Hp; cbn [re_find_from mtch ms_pos];
    (destruct (Nat.eqb_spec pos 0); [lia|]); [reflexivity|].
  rewrite IH by lia. reflexivity.
Qed.
Lemma captures_bol r s :
  re_captures (RSeq RBol r) s = option_map ms_caps (mtch r (MS 0 s []) Some).
Proof.
  unfold re_captures. destruct s as [|c s]; cbn [re_find_from mtch ms_pos Nat.eqb].
  - destruct (mtch r _ Some); reflexivity.
  - destruct (mtch r _ Some); [reflexivity|]. rewrite find_bol by lia. reflexivity.
Qed.
Lemma is_match_bol r s :
  re_is_match (RSeq RBol r) s = match mtch r (MS 0 s []) Some with Some _ => true | None => false end.
Proof.
  unfold re_is_match. destruct s as [|c s]; cbn [re_find_from mtch ms_pos Nat.eqb].
  - destruct (mtch r _ Some); reflexivity.
  - destruct (mtch r _ Some); [reflexivity|]. rewrite find_bol by lia. reflexivity.
Qed.
Lemma mtch_some r st x : mtch r st Some = Some x -> mrel r st x.
Proof. intros H; apply mtch_sound in H as (st' & H & [= <-]). exact H. Qed.
Lemma mtch_none r st : mtch r st Some = None -> forall x, ~ mrel r st x.
Proof. intros H x Hx. exact (mtch_complete r st x Hx Some ltac:(discriminate) H). Qed.

Lemma star_cls_cons p g k fuel n c s caps :
  star_loop (mtch (RCls p)) g k (S fuel) (MS n (c :: s) caps) =
  (let more := if p c then star_loop (mtch (RCls p)) g k fuel (MS (S n) s caps) else None in
   if g then orelse more (k (MS n (c :: s) caps)) else orelse (k (MS n (c :: s) caps)) more).
Proof.
  remember (star_loop (mtch (RCls p)) g k fuel (MS (S n) s caps)) as L.
  cbn [star_loop mtch ms_rest ms_pos ms_caps length].
  destruct (Nat.ltb_spec (length s) (S (length s))) as [_|H]; [|lia].
  fold (mtch (RCls p)). subst L. reflexivity.
Qed.
Lemma star_cls_nil p g k fuel n caps :
  star_loop (mtch (RCls p)) g k fuel (MS n [] caps) = k (MS n [] caps).
Proof. destruct fuel; [reflexivity|]. cbn. destruct g, (k _); reflexivity. Qed.

(** ** Greedy repetition of a class takes the longest run if the rest then matches *)
Lemma star_greedy_max p a : forall n b caps k,
  forallb p a = true -> no_start p b -> k (MS (n + length a) b caps) <> None ->
  mtch (RStar true (RCls p)) (MS n (a ++ b) caps) k = k (MS (n + length a) b caps).
Proof.
  intros n b caps k Ha Hb Hk. cbn [mtch ms_rest].
  assert (forall fuel, length (a ++ b) <= fuel ->
     star_loop (mtch (RCls p)) true k fuel (MS n (a ++ b) caps) = k (MS (n + length a) b caps)) as G.
  { revert n Ha Hk. induction a as [|c a IH]; intros n Ha Hk fuel Hf.
    - cbn [app length] in *. rewrite Nat.add_0_r in *.
      destruct b as [|c b]; [apply star_cls_nil|].
      destruct fuel as [|fuel]; [reflexivity|]. rewrite star_cls_cons.
      cbn in Hb. rewrite Hb. reflexivity.
    - cbn [app length forallb] in *. apply andb_true_iff in Ha as [Hc Ha].
      destruct fuel as [|fuel]; [lia|]. rewrite star_cls_cons, Hc. cbv zeta.
      rewrite <- plus_n_Sm in *.
      rewrite (IH (S n) Ha Hk fuel) by lia.
      change (S n + length a) with (S (n + length a)) in *.
      destruct (k (MS (S (n + length a)) b caps)); [reflexivity|contradiction]. }
  apply G; reflexivity.
Qed.

(** ** Equations *)
Lemma mtch_seq a b st k : mtch (RSeq a b) st k = mtch a st (fun st' => mtch b st' k).
Proof. reflexivity. Qed.
Lemma mtch_opt a st k : mtch (ROpt a) st k = orelse (mtch a st k) (k st).
Proof. reflexivity. Qed.
Lemma mtch_alt a b st k : mtch (RAlt a b) st k = orelse (mtch a st k) (mtch b st k).
Proof. reflexivity. Qed.
Lemma mtch_grp i a st k : mtch (RGrp i a) st k = mtch a st (fun st' => k (ms_capture i (ms_rest st) st')).
Proof. reflexivity. Qed.
Lemma mtch_cls_cons p n c s caps k :
  mtch (RCls p) (MS n (c :: s) caps) k = if p c then k (MS (S n) s caps) else None.
Proof. reflexivity. Qed.
Lemma mtch_cls_nil p n caps k : mtch (RCls p) (MS n [] caps) k = None.
Proof. reflexivity. Qed.
Lemma mtch_rch_cons d n c s caps k :
  mtch (rch d) (MS n (c :: s) caps) k = if N.eqb d c then k (MS (S n) s caps) else None.
Proof. reflexivity. Qed.
Lemma mtch_rch_nil d n caps k : mtch (rch d) (MS n [] caps) k = None.
Proof. reflexivity. Qed.
Lemma mtch_eol_nil n caps k : mtch REol (MS n [] caps) k = k (MS n [] caps).
Proof. reflexivity. Qed.
