(** The regular expressions for definition lists. *)
From Coq Require Import String Arith NArith ZArith Bool List Lia.
From Verif Require Import ModelBase ModelRegex ModelLine ModelFormula ModelData ModelSource ModelReader
  SpecLine SpecFormula SpecBlock SpecHeader BaseFacts RegexFacts LineFacts StreamFacts CommentFacts.
Import ListNotations.
Local Open Scope N_scope.

(** * Searching *)
Lemma star_lazy_min p a : forall n b caps k x, forallb p a = true ->
  (forall a1 c a2, a = a1 ++ c :: a2 -> k (MS (n + length a1) (c :: a2 ++ b) caps) = None) ->
  k (MS (n + length a) b caps) = Some x -> mtch (RStar false (RCls p)) (MS n (a ++ b) caps) k = Some x.
Proof.
  intros n b caps k x Ha Hf Hk. cbn [mtch ms_rest].
  assert (forall fuel, (length (a ++ b) <= fuel)%nat -> star_loop (mtch (RCls p)) false k fuel (MS n (a ++ b) caps) = Some x) as G.
  { revert n Ha Hf Hk. induction a as [|c a IH]; intros n Ha Hf Hk fuel L.
    - cbn [app length] in *. rewrite Nat.add_0_r in Hk. destruct b as [|c b].
      + rewrite star_cls_nil. exact Hk.
      + destruct fuel as [|fuel]; [cbn in L; lia|]. rewrite star_cls_cons, Hk. reflexivity.
    - cbn [app length forallb] in *. apply andb_true_iff in Ha as [Hc Ha]. destruct fuel as [|fuel]; [lia|].
      rewrite star_cls_cons, Hc. pose proof (Hf [] c a eq_refl) as H0. cbn [length] in H0. rewrite Nat.add_0_r in H0. rewrite H0. cbv zeta; cbn [orelse].
      apply IH; [exact Ha| |rewrite <- plus_n_Sm in Hk; exact Hk|lia].
      intros a1 c' a2 ->. pose proof (Hf (c :: a1) c' a2 eq_refl) as H1. cbn [length] in H1. rewrite <- plus_n_Sm in H1. exact H1. }
  apply G; reflexivity.
Qed.
Lemma find_skip r p : forall n s, (forall a c b m, p = a ++ c :: b -> mtch r (MS m (c :: b ++ s) []) Some = None) ->
  re_find_from r n (p ++ s) = match re_find_from r (n + length p) s with Some (pre, st) => Some (p ++ pre, st) | None => None end.
Proof.
  induction p as [|c p IH]; intros n s H.
  - cbn [app length]. rewrite Nat.add_0_r. destruct (re_find_from r n s) as [[? ?]|]; reflexivity.
  - cbn [app re_find_from length]. rewrite (H [] c p n eq_refl), IH; [|intros a c' b m ->; apply (H (c :: a)); reflexivity].
    rewrite <- plus_n_Sm. change (S n + length p)%nat with (S (n + length p)).
    destruct (re_find_from r (S (n + length p)) s) as [[? ?]|]; reflexivity.
Qed.
Lemma find_hit r n s st : mtch r (MS n s []) Some = Some st -> re_find_from r n s = Some ([], st).
Proof. intros H. destruct s; cbn [re_find_from]; rewrite H; reflexivity. Qed.
Lemma find_none r s : forall n, (forall a b m, s = a ++ b -> mtch r (MS m b []) Some = None) -> re_find_from r n s = None.
Proof.
  induction s as [|c s IH]; intros n H; cbn [re_find_from]; rewrite (H [] _ n eq_refl); [reflexivity|].
  rewrite IH; [reflexivity|]. intros a b m ->. apply (H (c :: a)). reflexivity.
Qed.
Lemma find_nonempty r n s pre st : re_find_from r n s = Some (pre, st) -> exists m b, s = pre ++ b /\ mtch r (MS m b []) Some = Some st.
Proof.
  revert n pre; induction s as [|c s IH]; intros n pre; cbn [re_find_from].
  - destruct (mtch r (MS n [] []) Some) eqn:E; [|discriminate]. intros [= <- <-]. exists n, []. auto.
  - destruct (mtch r (MS n (c :: s) []) Some) eqn:E; [intros [= <- <-]; exists n, (c :: s); auto|].
    destruct (re_find_from r (S n) s) as [[pre' st']|] eqn:F; [|discriminate]. intros [= <- <-].
    destruct (IH _ _ F) as (m & b & -> & M). exists m, b. auto.
Qed.

(** * [map_re] *)
Definition wordb (x : str) : Prop := forallb cls_ns x = true.
Lemma word_wordb x : (forall c, In c x -> ~ white c) <-> forallb cls_ns x = true.
Proof.
  rewrite forallb_forall. unfold cls_ns. split; intros H c I.
  - apply negb_true_iff, is_ws_not_white, H, I.
  - apply is_ws_not_white, negb_true_iff, H, I.
Qed.
Lemma map_rel n s caps st' : mrel map_re (MS n s caps) st' ->
  exists k w z r, s = k ++ w ++ 61 :: z ++ 59 :: r /\ word k /\ blanks w.
Proof.
  unfold map_re; cbn [rseq]. intros H. apply mrel_seq in H as (st1 & H1 & H).
  apply mrel_grp in H1 as (st0 & H1 & ->). apply mrel_seq in H1 as (stc & Hc & H1).
  apply mrel_cls in Hc as (c & s1 & -> & Pc & ->). apply mrel_star_cls in H1 as (k' & s2 & -> & Pk & ->).
  cbn [ms_rest] in H. rewrite app_comm_cons, ms_capture_app in H. apply mrel_seq in H as (st2 & H2 & H). apply r_ws_rel in H2 as (w & s3 & -> & Bw & ->).
  apply mrel_seq in H as (st3 & H3 & H). apply mrel_rch in H3 as (s4 & -> & ->).
  assert (exists z r, s4 = z ++ 59 :: r) as (z & r & ->).
  { apply mrel_seq in H as (st4 & H4 & H). apply r_ws_rel in H4 as (w2 & s5 & -> & _ & ->).
    apply mrel_seq in H as (st5 & H5 & H). apply mrel_grp in H5 as (st6 & H5 & ->). apply mrel_star_cls in H5 as (v & s6 & -> & _ & ->).
    cbn [ms_rest] in H. rewrite ms_capture_app in H. apply mrel_seq in H as (st7 & H7 & H). apply r_ws_rel in H7 as (w3 & s8 & -> & _ & ->).
    apply mrel_rch in H as (r & -> & _). exists (w2 ++ v ++ w3), r. rewrite <- !app_assoc. reflexivity. }
  exists (c :: k'), w, z, r. split; [reflexivity|]. split; [|exact Bw]. split; [discriminate|].
  apply word_wordb. cbn [forallb]. rewrite Pc. exact Pk.
Qed.
Lemma map_fails n s caps : (forall k w z r, s = k ++ w ++ 61 :: z ++ 59 :: r -> word k -> blanks w -> False) -> mtch map_re (MS n s caps) Some = None.
Proof.
  intros H. destruct (mtch map_re (MS n s caps) Some) as [st|] eqn:E; [|reflexivity]. apply mtch_some, map_rel in E as (k & w & z & r & E & K & W).
  destruct (H k w z r E K W).
Qed.

Lemma ws_then_fails d n s caps k : (forall w r, s = w ++ d :: r -> ~ blanks w) -> forall r0,
  mtch (RSeq r_ws (RSeq (rch d) r0)) (MS n s caps) k = None.
Proof.
  intros H r0. destruct (mtch _ _ k) as [st|] eqn:E; [|reflexivity]. apply mtch_sound in E as (st1 & E & _).
  apply mrel_seq in E as (st2 & E1 & E). apply r_ws_rel in E1 as (w & s' & -> & B & ->).
  apply mrel_seq in E as (st3 & E & _). apply mrel_rch in E as (s2 & -> & _). destruct (H w s2 eq_refl B).
Qed.
Lemma white_not c : ~ white c -> is_ws c = false.
Proof. apply is_ws_not_white. Qed.
Lemma not_white_61 : ~ white 61.
Proof. intros H. cbn in H. repeat (destruct H as [H|H]; [discriminate H|]). exact H. Qed.
Lemma not_white_59 : ~ white 59.
Proof. intros H. cbn in H. repeat (destruct H as [H|H]; [discriminate H|]). exact H. Qed.
Lemma map_matches n k w' t v r : key k -> blanks w' -> ~ In 59 t -> one_line t -> trims_to t v ->
  exists m, mtch map_re (MS n (k ++ w' ++ 61 :: t ++ 59 :: r) []) Some = Some (MS m r [(2%nat, v); (1%nat, k)]).
Proof.
  intros [[Kn Kw] Ke] Bw N59 OL (w1 & w2 & -> & B1 & B2 & Vf & Vl).
  destruct k as [|c k]; [contradiction|]. cbn [tl] in Ke.
  pose proof (proj1 (word_wordb _) Kw) as Kb. cbn [forallb] in Kb. apply andb_true_iff in Kb as [Kc Kb].
  (* value *)
  assert (forall m w, blanks w -> exists m', mtch (RSeq (RGrp 2 (RStar false (RCls cls_any))) (RSeq r_ws (rch 59))) (MS m (v ++ w ++ 59 :: r) [(1%nat, c :: k)]) Some = Some (MS m' r [(2%nat, v); (1%nat, c :: k)])) as V2.
  { intros m w B. eexists. rewrite mtch_seq, mtch_grp. apply star_lazy_min.
    - apply cls_any_one_line. intros I. apply OL, in_or_app. right. apply in_or_app. left. exact I.
    - intros a1 x a2 E. cbn [ms_rest]. replace (v ++ w ++ 59 :: r) with (a1 ++ (x :: a2 ++ w ++ 59 :: r)) by (rewrite E, <- app_assoc; reflexivity). rewrite ms_capture_app.
      assert (mtch (RSeq r_ws (RSeq (rch 59) REps)) (MS (m + length a1) (x :: a2 ++ w ++ 59 :: r) [(2%nat, a1); (1%nat, c :: k)]) Some = None) as F; [|exact F].
      apply ws_then_fails. intros w0 r' E' B'. change (x :: a2 ++ w ++ 59 :: r) with ((x :: a2) ++ w ++ 59 :: r) in E'.
      apply app_no_first in E' as (r2 & ->).
      + destruct (exists_last (l := x :: a2) ltac:(discriminate)) as (z & y & Ey). rewrite Ey in *.
        apply (Vl y (a1 ++ z)); [rewrite E, app_assoc; reflexivity|]. apply B'. apply in_or_app. left. apply in_or_app. right. left. reflexivity.
      + intros I. apply N59, in_or_app. right. apply in_or_app. left. rewrite E. apply in_or_app. right. exact I.
    - cbn [ms_rest]. rewrite ms_capture_app. rewrite mtch_seq. unfold r_ws. rewrite star_greedy_max; [|apply blanks_forallb, B| |].
      + rewrite mtch_rch_cons. cbn [N.eqb Pos.eqb]. reflexivity.
      + reflexivity.
      + rewrite mtch_rch_cons. discriminate. }
  assert (forall m, exists m', mtch (RSeq r_ws (RSeq (RGrp 2 (RStar false (RCls cls_any))) (RSeq r_ws (rch 59)))) (MS m ((w1 ++ v ++ w2) ++ 59 :: r) [(1%nat, c :: k)]) Some
          = Some (MS m' r [(2%nat, v); (1%nat, c :: k)])) as Val.
  { intros m. destruct v as [|y v].
    - cbn [app] in *. destruct (V2 (m + length (w1 ++ w2))%nat [] ltac:(intros ? [])) as (m' & E). cbn [app] in E. exists m'.
      rewrite mtch_seq. unfold r_ws at 1. rewrite star_greedy_max; [exact E| |reflexivity|rewrite E; discriminate].
      apply blanks_forallb. intros z I. apply in_app_or in I as [I|I]; auto.
    - destruct (V2 (m + length w1)%nat w2 B2) as (m' & E). exists m'. rewrite <- !app_assoc. rewrite mtch_seq. unfold r_ws at 1.
      rewrite star_greedy_max; [exact E|apply blanks_forallb, B1| |rewrite E; discriminate].
      cbn. apply is_ws_not_white. exact (Vf y v eq_refl). }
  destruct (Val (S (S n + length k + length w'))) as (m' & EV). exists m'.
  unfold map_re, RPlusLazy; cbn [rseq]. rewrite mtch_seq, mtch_grp, mtch_seq. cbn [app]. rewrite mtch_cls_cons, Kc. cbn [ms_rest].
  apply star_lazy_min; [exact Kb| |].
  - intros a1 x a2 ->. rewrite <- app_assoc. cbn [app]. rewrite !app_comm_cons. rewrite ms_capture_app. apply ws_then_fails.
    intros w0 r' E B. destruct w0 as [|y w0].
    + injection E as -> _. apply Ke. apply in_or_app. right; left; reflexivity.
    + injection E as -> _. apply (Kw y); [right; apply in_or_app; right; left; reflexivity|apply B; left; reflexivity].
  - rewrite app_comm_cons, ms_capture_app. rewrite mtch_seq. unfold r_ws at 1. rewrite star_greedy_max; [|apply blanks_forallb, Bw|reflexivity|].
    + rewrite mtch_seq, mtch_rch_cons. cbn [N.eqb Pos.eqb]. exact EV.
    + rewrite mtch_seq, mtch_rch_cons. cbn [N.eqb Pos.eqb]. intros Q. assert (Some (MS m' r [(2%nat, v); (1%nat, c :: k)]) = None) as W by (rewrite <- EV; exact Q). discriminate W.
Qed.

(** * Definitions found in a text *)
Lemma blanks_no w c : blanks w -> ~ white c -> ~ In c w.
Proof. intros B N I. exact (N (B c I)). Qed.
(** Where an equals sign that can belong to a match may be. *)
Lemma equals_after k w' t p a b : ~ In 61 (tl k) -> k <> [] -> blanks w' -> (k ++ w') ++ 61 :: t = p ++ a ++ 61 :: b -> a <> [] ->
  exists z, 61 :: t = z ++ 61 :: b.
Proof.
  intros Ke Kn Bw E An. rewrite app_assoc in E. destruct k as [|c k]; [contradiction|]. cbn [tl app] in *.
  destruct (p ++ a) as [|c' pa] eqn:Ep; [apply app_eq_nil in Ep as [_ ->]; contradiction|]. injection E as <- E.
  pose proof E as E'. apply app_no_first in E' as (z & ->).
  2: { intros I. apply in_app_or in I as [I|I]; [exact (Ke I)|]. exact (blanks_no _ _ Bw not_white_61 I). }
  exists z. rewrite <- (app_assoc (k ++ w')) in E. apply app_inv_head in E. exact E.
Qed.

Definition caps_of (l : list (str * mstate)) : list (list (nat * str)) := map (fun m => ms_caps (snd m)) l.
Lemma iter_skip fuel p n s : (forall a c b m, p = a ++ c :: b -> mtch map_re (MS m (c :: b ++ s) []) Some = None) ->
  (length (p ++ s) < fuel)%nat -> caps_of (fst (re_iter fuel map_re n (p ++ s))) = caps_of (fst (re_iter fuel map_re (n + length p) s)).
Proof.
  intros H L. destruct fuel as [|fuel]; [lia|]. cbn [re_iter]. rewrite find_skip by exact H.
  destruct (re_find_from map_re (n + length p) s) as [[pre st]|] eqn:E; [|reflexivity].
  apply find_nonempty in E as (m & b & -> & M). pose proof M as M'. apply mtch_some, map_rel in M' as (k & w & z & r & -> & _).
  assert (exists a, ms_rest st = a /\ (length a < length (k ++ w ++ 61%N :: z ++ 59%N :: r))%nat) as (a & Ea & La).
  { exists (ms_rest st). split; [reflexivity|]. apply mtch_some in M. unfold map_re in M; cbn [rseq] in M.
    apply mrel_seq in M as (st1 & M1 & M2). apply mrel_grp in M1 as (st0 & M1 & ->). apply mrel_seq in M1 as (stc & Mc & M1).
    apply mrel_cls in Mc as (c & s1 & Es & _ & ->). apply mrel_suffix in M1 as (x & Ex & _). apply mrel_suffix in M2 as (y & Ey & _).
    cbn [ms_rest ms_capture] in *. rewrite Es. cbn [length]. rewrite Ex, Ey, !app_length. lia. }
  rewrite Ea. rewrite !app_length in *.
  repeat match goal with |- context [(?a <? ?b)%nat] => destruct (Nat.ltb_spec a b) as [_|Q]; [|lia] end.
  destruct (re_iter fuel map_re (ms_pos st) a). reflexivity.
Qed.
Lemma white_start_fails c s m : white c -> mtch map_re (MS m (c :: s) []) Some = None.
Proof.
  intros W. apply map_fails. intros k w z r E [Kn Kw] _. destruct k as [|c' k]; [contradiction|]. injection E as <- _.
  apply (Kw c); [left; reflexivity|exact W].
Qed.
Lemma skip_blanks fuel w n s : blanks w -> (length (w ++ s) < fuel)%nat ->
  caps_of (fst (re_iter fuel map_re n (w ++ s))) = caps_of (fst (re_iter fuel map_re (n + length w) s)).
Proof. intros B L. apply iter_skip; [|exact L]. intros a c b m ->. apply white_start_fails, B, in_or_app. right; left; reflexivity. Qed.
Lemma iter_none fuel n s : (forall a b m, s = a ++ b -> mtch map_re (MS m b []) Some = None) -> re_iter fuel map_re n s = ([], s).
Proof. intros H. destruct fuel; [reflexivity|]. cbn [re_iter]. rewrite find_none by exact H. reflexivity. Qed.
Lemma word_fails a y r m : word (a ++ y) -> ~ In 61 (tl (a ++ y)) -> y <> [] -> (forall c r', r = c :: r' -> white c) ->
  (forall w' r', r = w' ++ 61 :: r' -> ~ blanks w') -> mtch map_re (MS m (y ++ r) []) Some = None.
Proof.
  intros [Xn Xw] Xe Yn Rw Re. apply map_fails. intros k w z r' E [Kn Kw] Bw.
  assert (forall c, In c y -> ~ white c) as Yw. { intros c I. apply Xw, in_or_app. right; exact I. }
  apply app_eq_app in E as (q & [[-> Er]|[-> Er]]).
  - (* y = k ++ q *)
    destruct q as [|c q]; [apply (Re w (z ++ 59 :: r')); [symmetry; exact Er|exact Bw]|].
    destruct w as [|c' w]; cbn [app] in Er; injection Er as <- Er.
    + apply Xe. rewrite app_assoc. unfold str, char in *. destruct (a ++ k) as [|x ak] eqn:Eak; [apply app_eq_nil in Eak as [_ ->]; contradiction|]. cbn [app tl].
      apply in_or_app. right; left; reflexivity.
    + apply (Yw c'); [apply in_or_app; right; left; reflexivity|apply Bw; left; reflexivity].
  - destruct q as [|c q]; [apply (Re w (z ++ 59 :: r')); [exact Er|exact Bw]|].
    apply (Kw c); [apply in_or_app; right; left; reflexivity|]. eapply Rw. exact Er.
Qed.
Lemma open_fails k w' t a b m : key k -> blanks w' -> ~ In 59 t -> k ++ w' ++ 61 :: t = a ++ b -> mtch map_re (MS m b []) Some = None.
Proof.
  intros [[Kn _] Ke] Bw Nt E. apply map_fails. intros k2 w2 z r -> [K2 _] _. rewrite app_assoc in E.
  rewrite (app_assoc k2) in E. apply equals_after in E as (y & E); auto.
  2: { intros Q. apply app_eq_nil in Q as [-> _]. contradiction. }
  destruct y as [|c y]; cbn [app] in E; [injection E as ->|injection E as _ ->]; apply Nt; [|apply in_or_app; right; right]; apply in_or_app; right; left; reflexivity.
Qed.
Lemma one_line_app a b : one_line (a ++ b) <-> one_line a /\ one_line b.
Proof.
  unfold one_line. split; [intros H; split; intros I; apply H, in_or_app; auto|]. intros [H1 H2] I. apply in_app_or in I as [I|I]; auto.
Qed.
Lemma one_line_cons c b : one_line (c :: b) <-> c <> 10 /\ one_line b.
Proof. unfold one_line. cbn [In]. intuition. Qed.
Theorem iter_bindings s bs : bindings s bs -> one_line s -> forall fuel n, (length s < fuel)%nat ->
  caps_of (fst (re_iter fuel map_re n s)) = map (fun kv => [(2%nat, snd kv); (1%nat, fst kv)]) bs.
Proof.
  induction 1 as [w B|w x r bs B [[Xn Xw] Xe] Rw Re H IH|w k w' t B K B' Nt|w k w' t v r bs B K B' Nt T H IH]; intros OL fuel n L.
  - rewrite <- (app_nil_r w). rewrite skip_blanks by (auto; rewrite app_nil_r; exact L). rewrite iter_none; [reflexivity|].
    intros a b m E. symmetry in E. apply app_eq_nil in E as [-> ->]. apply map_fails. intros [|? ?] ? ? ? E [N _]; [contradiction|discriminate].
  - rewrite skip_blanks by assumption. apply one_line_app in OL as [_ OL]. rewrite app_length in L. rewrite iter_skip.
    + apply IH; [apply one_line_app in OL; apply OL|rewrite app_length in L; lia].
    + intros a c b m ->. apply (word_fails a (c :: b)); [split; assumption|exact Xe|discriminate|exact Rw|exact Re].
    + lia.
  - rewrite skip_blanks by assumption. rewrite iter_none; [reflexivity|]. intros a b m E. eapply open_fails; eauto.
  - rewrite skip_blanks by assumption. apply one_line_app in OL as [_ OL]. rewrite app_length in L.
    destruct fuel as [|fuel]; [lia|]. cbn [re_iter].
    rewrite !one_line_app, one_line_cons, one_line_app, one_line_cons in OL. destruct OL as (_ & _ & _ & OLt & _ & OLr).
    destruct (map_matches (n + length w) k w' t v r K B' Nt OLt T) as (m & M). rewrite (find_hit _ _ _ _ M). cbn [ms_rest ms_pos].
    unfold str, char in *. rewrite ?app_length in *; cbn [length] in *; rewrite ?app_length in *; cbn [length] in *.
    match goal with |- context [(?a <? ?b)%nat] => destruct (Nat.ltb_spec a b) as [_|Q]; [|lia] end.
    specialize (IH OLr fuel m ltac:(lia)). destruct (re_iter fuel map_re m r) as [l tail]. cbn [fst] in *.
    unfold caps_of in *. cbn [map snd fst ms_caps]. rewrite IH. reflexivity.
Qed.

Ltac lens := unfold str, char in *; repeat (progress (rewrite ?app_length; cbn [length])); lia.
Lemma split_word s : exists x r, s = x ++ r /\ (forall c, In c x -> ~ white c) /\ (forall c r', r = c :: r' -> white c).
Proof.
  induction s as [|c s (x & r & -> & X & R)].
  - exists [], []. repeat split; [intros ? []|discriminate].
  - destruct (is_ws c) eqn:E.
    + exists [], (c :: x ++ r). repeat split; [intros ? []|]. intros c' r' [= <- _]. apply is_ws_white, E.
    + exists (c :: x), r. repeat split; [|exact R]. intros c' [<-|I]; [apply is_ws_not_white, E|apply X, I].
Qed.
Theorem bindings_total s : exists bs, bindings s bs.
Proof.
  remember (length s) as len eqn:El. revert s El. induction (lt_wf len) as [len _ IH]. intros s ->.
  assert (forall k w' w z, s = w ++ k ++ w' ++ 61 :: z -> blanks w -> key k -> blanks w' -> exists bs, bindings s bs) as Def.
  { intros k w' w z -> B K B'. destruct (find_char 59 z) as [[t r]|] eqn:F.
    - apply find_char_some in F as [-> F]. destruct (IH (length r)) with (s := r) as (bs & H); [|reflexivity|].
      + lens.
      + exists ((k, trim t) :: bs). apply bi_bind; auto. apply trims_to_iff. reflexivity.
    - apply find_char_none in F. exists []. apply bi_open; auto. }
  destruct (split_ws s) as (w & c & E & B & NS). destruct c as [|c0 c].
  - rewrite app_nil_r in E. subst. exists []. apply bi_blank, B.
  - destruct (split_word (c0 :: c)) as (x & r & Ex & Xw & Rw). destruct x as [|x0 x].
    { exfalso. cbn [app] in Ex. subst r. cbn in NS. apply is_ws_not_white in NS. apply NS, (Rw c0 c eq_refl). }
    assert (word (x0 :: x)) as W by (split; [discriminate|exact Xw]).
    destruct (find_char 61 x) as [[a b]|] eqn:F.
    + apply find_char_some in F as [-> F]. apply (Def (x0 :: a) [] w (b ++ r)); auto.
      * rewrite E, Ex. cbn [app]. rewrite <- app_assoc. reflexivity.
      * split; [|exact F]. split; [discriminate|]. intros d I. apply Xw. destruct I as [<-|I]; [left; reflexivity|right; apply in_or_app; left; exact I].
      * intros ? [].
    + apply find_char_none in F. destruct (split_ws r) as (w' & d & -> & B' & NS').
      assert (key (x0 :: x)) as K by (split; assumption).
      destruct d as [|d0 d]; [|destruct (N.eq_dec d0 61) as [->|D]].
      * destruct (IH (length (w' ++ []))) with (s := w' ++ []) as (bs & H); [|reflexivity|].
        -- rewrite E, Ex. lens.
        -- exists bs. rewrite E, Ex. apply bi_word; auto. intros w2 r' Q BB. rewrite app_nil_r in Q. subst w'.
           apply (blanks_no _ 61 B' not_white_61). apply in_or_app. right; left; reflexivity.
      * apply (Def (x0 :: x) w' w d); auto. rewrite E, Ex. reflexivity.
      * destruct (IH (length (w' ++ d0 :: d))) with (s := w' ++ d0 :: d) as (bs & H); [|reflexivity|].
        -- rewrite E, Ex. lens.
        -- exists bs. rewrite E, Ex. apply bi_word; auto. intros w2 r' Q BB. cbn in NS'. apply is_ws_not_white in NS'.
           assert (exists r2, w' = w2 ++ r2 \/ w2 = w' ++ r2 /\ r2 <> []) as (r2 & [->|[-> N2]]).
           { apply app_eq_app in Q as (l & [[-> _]|[-> _]]); [exists l; auto|]. destruct l; [exists []; left; rewrite !app_nil_r; reflexivity|eexists; right; split; [reflexivity|discriminate]]. }
           ++ rewrite <- app_assoc in Q. apply app_inv_head in Q. destruct r2 as [|y r2]; cbn [app] in Q; injection Q as -> Q; [exact (D eq_refl)|].
              apply (blanks_no _ 61 B' not_white_61). apply in_or_app. right; left; reflexivity.
           ++ rewrite <- app_assoc in Q. apply app_inv_head in Q. destruct r2 as [|y r2]; [contradiction|]. cbn [app] in Q. injection Q as -> Q.
              apply NS', BB, in_or_app. right; left; reflexivity.
Qed.
Lemma caps_inj bs bs' : map (fun kv : str * str => [(2%nat, snd kv); (1%nat, fst kv)]) bs = map (fun kv => [(2%nat, snd kv); (1%nat, fst kv)]) bs' -> bs = bs'.
Proof.
  revert bs'; induction bs as [|[k v] bs IH]; intros [|[k' v'] bs'] E; try discriminate; [reflexivity|].
  cbn in E. injection E as <- <- E. rewrite (IH _ E). reflexivity.
Qed.
Theorem bindings_det s bs bs' : one_line s -> bindings s bs -> bindings s bs' -> bs = bs'.
Proof.
  intros OL H H'. apply caps_inj. rewrite <- (iter_bindings _ _ H OL (S (length s)) 0 (Nat.lt_succ_diag_r _)).
  apply (iter_bindings _ _ H' OL). lia.
Qed.

(** * [map_check_re] *)
Definition check_item : re := rseq [ RPlusLazy (RCls cls_ns); r_ws; rch 61; r_ws; RStar false (RCls cls_any); r_ws; rch 59; r_ws ].
Lemma check_item_rel n s caps st' : one_line s -> mrel check_item (MS n s caps) st' <->
  exists k w z w2 r m, s = k ++ w ++ 61 :: z ++ 59 :: w2 ++ r /\ word k /\ blanks w /\ blanks w2 /\ st' = MS m r caps /\ m = (n + length s - length r)%nat.
Proof.
  intros OL. unfold check_item; cbn [rseq]. split.
  - intros H. apply mrel_seq in H as (st1 & H1 & H). apply mrel_seq in H1 as (stc & Hc & H1).
    apply mrel_cls in Hc as (c & s1 & -> & Pc & ->). apply mrel_star_cls in H1 as (k' & s2 & -> & Pk & ->).
    apply mrel_seq in H as (st2 & H2 & H). apply r_ws_rel in H2 as (w & s3 & -> & Bw & ->).
    apply mrel_seq in H as (st3 & H3 & H). apply mrel_rch in H3 as (s4 & -> & ->).
    apply mrel_seq in H as (st4 & H4 & H). apply r_ws_rel in H4 as (w2 & s5 & -> & _ & ->).
    apply mrel_seq in H as (st5 & H5 & H). apply mrel_star_cls in H5 as (v & s6 & -> & _ & ->).
    apply mrel_seq in H as (st7 & H7 & H). apply r_ws_rel in H7 as (w3 & s8 & -> & _ & ->).
    apply mrel_seq in H as (st8 & H8 & H). apply mrel_rch in H8 as (s9 & -> & ->).
    apply r_ws_rel in H as (w4 & r & -> & B4 & ->).
    exists (c :: k'), w, (w2 ++ v ++ w3), w4, r. eexists. repeat split; auto.
    + rewrite <- !app_assoc. reflexivity.
    + discriminate.
    + apply word_wordb. cbn [forallb]. rewrite Pc. exact Pk.
    + lens.
  - intros (k & w & z & w2 & r & m & -> & [Kn Kw] & Bw & B2 & -> & ->). destruct k as [|c k]; [contradiction|].
    pose proof (proj1 (word_wordb _) Kw) as Kb. cbn [forallb] in Kb. apply andb_true_iff in Kb as [Kc Kb].
    apply mrel_seq. eexists. split; [apply mrel_seq; eexists; split; [apply mrel_cls; do 2 eexists; repeat split; [exact Kc]|apply mrel_star_cls; exists k; eexists; repeat split; exact Kb]|].
    apply mrel_seq. eexists. split; [apply r_ws_rel; exists w; eexists; repeat split; exact Bw|].
    apply mrel_seq. eexists. split; [apply mrel_rch; eexists; split; reflexivity|].
    apply mrel_seq. eexists. split; [apply r_ws_rel; exists []; eexists; repeat split; intros ? []|].
    apply mrel_seq. eexists. split; [apply mrel_star_cls; exists z; eexists; repeat split|].
    { apply cls_any_one_line. rewrite !one_line_app, !one_line_cons, !one_line_app in OL. tauto. }
    apply mrel_seq. eexists. split; [apply r_ws_rel; exists []; eexists; repeat split; intros ? []|].
    apply mrel_seq. eexists. split; [apply mrel_rch; eexists; split; reflexivity|].
    apply r_ws_rel. exists w2, r. repeat split; [exact B2|]. f_equal.
    lens.
Qed.
Lemma one_line_suffix a b : one_line (a ++ b) -> one_line b.
Proof. intros H. apply one_line_app in H. apply H. Qed.
Lemma check_star r st st' : mrel r st st' -> forall i, r = RStar true (RGrp i check_item) -> one_line (ms_rest st) -> ms_rest st' = [] ->
  ms_rest st = [] \/ exists k w' t w2, ms_rest st = k ++ w' ++ 61 :: t ++ 59 :: w2 /\ word k /\ blanks w' /\ blanks w2.
Proof.
  induction 1 as [| | | | |g a st|g a st st1 st' H1 IH1 L H2 IH2| | | | |]; intros j E OL R; try discriminate E.
  - left. exact R.
  - injection E as -> ->. right. apply mrel_grp in H1 as (st0 & H1 & ->). destruct st as [n s caps]. cbn [ms_rest] in OL |- *.
    apply check_item_rel in H1; [|exact OL]. destruct H1 as (k & w & z & w2 & r & m & -> & K & Bw & B2 & -> & _).
    cbn [ms_capture ms_rest] in *.
    destruct (IH2 j eq_refl) as [->|(k' & w' & t & w3 & -> & K' & Bw' & B3)]; auto.
    + apply one_line_suffix, one_line_suffix, (one_line_suffix [61] _), one_line_suffix, (one_line_suffix [59] _), one_line_suffix in OL. exact OL.
    + exists k, w, z, w2. rewrite app_nil_r. auto.
    + exists k, w, (z ++ 59 :: w2 ++ k' ++ w' ++ 61 :: t), w3. repeat split; auto; try apply K.
      rewrite <- !app_assoc. cbn [app]. rewrite <- !app_assoc. reflexivity.
Qed.
Theorem check_iff s : one_line s -> (re_is_match map_check_re s = true <-> definition_list s).
Proof.
  intros OL. change map_check_re with (RSeq RBol (RSeq r_ws (RSeq (RStar true (RGrp 1 check_item)) REol))).
  rewrite is_match_bol. split.
  - destruct (mtch _ _ Some) as [st|] eqn:E; [|discriminate]. intros _. apply mtch_some in E.
    apply mrel_seq in E as (st1 & E1 & E). apply r_ws_rel in E1 as (w & s' & -> & B & ->).
    apply mrel_seq in E as ([n r caps] & E2 & E). apply mrel_eol in E as [-> _].
    eapply check_star in E2; [|reflexivity|exact (one_line_suffix _ _ OL)|reflexivity]. cbn [ms_rest] in E2.
    destruct E2 as [->|(k & w' & t & w2 & -> & K & B' & B2)].
    + left. rewrite app_nil_r. exact B.
    + right. exists w, k, w', t, w2. auto.
  - intros D. assert (exists st, mrel (RSeq r_ws (RSeq (RStar true (RGrp 1 check_item)) REol)) (MS 0 s []) st) as (st & M).
    { destruct D as [B|(w & k & w' & t & w2 & -> & B & K & B' & B2)].
      - eexists. apply mrel_seq. eexists. split; [apply r_ws_rel; exists s, []; rewrite app_nil_r; auto|].
        apply mrel_seq. eexists. split; [apply MStar0|]. apply mrel_eol. auto.
      - eexists. apply mrel_seq. eexists. split; [apply r_ws_rel; exists w; eexists; auto|].
        apply mrel_seq. eexists. split.
        + eapply MStarS; [apply mrel_grp; eexists; split; [|reflexivity]| |apply MStar0].
          * apply check_item_rel; [exact (one_line_suffix _ _ OL)|]. exists k, w', t, w2, []. eexists. rewrite app_nil_r. repeat split; eauto; apply K.
          * cbn [ms_rest ms_capture]. lens.
        + cbn [ms_capture ms_rest ms_pos ms_caps]. apply mrel_eol. auto. }
    destruct (mtch _ _ Some) as [x|] eqn:E; [reflexivity|]. destruct (mtch_none _ _ E _ M).
Qed.

(** * [parse_map] *)
Lemma fold_bindings bs : forall m k,
  sm_get k (fold_left (fun m c => match cap_get 1 c, cap_get 2 c with Some k, Some v => sm_insert k v m | _, _ => m end)
              (map (fun kv : str * str => [(2%nat, snd kv); (1%nat, fst kv)]) bs) m)
  = match last_value k bs with Some v => Some v | None => sm_get k m end.
Proof.
  induction bs as [|[k' v'] bs IH]; intros m k; [reflexivity|]. cbn [map fold_left cap_get Nat.eqb fst snd last_value].
  rewrite IH, sm_get_insert. destruct (last_value k bs); [reflexivity|]. destruct (str_eqb k k'); reflexivity.
Qed.
Theorem parse_map_spec s : one_line s ->
  match parse_map s with
  | Some m => definition_list s /\ exists bs, bindings s bs /\ forall k, sm_get k m = last_value k bs
  | None => ~ definition_list s
  end.
Proof.
  intros OL. unfold parse_map. pose proof (check_iff s OL) as C. destruct (re_is_match map_check_re s).
  - split; [apply C; reflexivity|]. destruct (bindings_total s) as (bs & B). exists bs. split; [exact B|]. intros k.
    unfold re_captures_iter. pose proof (iter_bindings s bs B OL (S (length s)) 0 (Nat.lt_succ_diag_r _)) as E. unfold caps_of in E. rewrite E.
    rewrite fold_bindings. cbn. destruct (last_value k bs); reflexivity.
  - intros D. apply C in D. discriminate.
Qed.
