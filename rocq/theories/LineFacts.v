(** The line parser satisfies the declarative description of SpecLine.v. *)
From Coq Require Import String Arith NArith Bool List Lia.
From Coq Require Import ZifyBool ZifyNat ZifyN.
From Verif Require Import ModelBase ModelRegex ModelLine BaseFacts RegexFacts SpecLine.
Import ListNotations.
Local Open Scope N_scope.

(** ** Character classes *)
Lemma is_ws_white c : is_ws c = true <-> white c.
Proof.
  unfold white, white_points, is_ws. cbn [In]. lia.
Qed.
Lemma is_ws_not_white c : is_ws c = false <-> ~ white c.
Proof. rewrite <- is_ws_white. destruct (is_ws c); split; congruence. Qed.
Lemma blanks_forallb w : blanks w <-> forallb is_ws w = true.
Proof.
  unfold blanks. rewrite forallb_forall. split; intros H c Hc; apply is_ws_white, H, Hc.
Qed.
Lemma not_white_first_iff s : not_white_first s <-> no_start is_ws s.
Proof.
  unfold not_white_first. destruct s as [|c s]; cbn.
  - split; [trivial|]. intros _ c s' [=].
  - rewrite is_ws_not_white. split; [intros H; eapply H; reflexivity|intros H c' s' [= <- <-]; exact H].
Qed.
Lemma not_white_last_iff s : not_white_last s <-> no_end is_ws s.
Proof.
  unfold not_white_last, no_end. split.
  - intros H. destruct (rev s) as [|c r] eqn:E; cbn; [exact I|].
    apply is_ws_not_white, (H c (rev r)).
    rewrite <- (rev_involutive s), E. reflexivity.
  - intros H c s' ->. rewrite rev_app_distr in H. apply is_ws_not_white; exact H.
Qed.

(** ** Unescaping *)
Definition esc_set (c : char) : bool := existsb (N.eqb c) [114; 116; 110; 34; 92].
Definition esc_value (c : char) : char :=
  if c =? 110 then 10 else if c =? 114 then 13 else if c =? 116 then 9 else c.

Lemma esc_set_spec c : esc_set c = true <-> escape_letter c.
Proof.
  unfold esc_set, escape_letter, escapes. rewrite existsb_exists. split.
  - intros (x & Hx & E). apply N.eqb_eq in E. subst x.
    destruct Hx as [<-|[<-|[<-|[<-|[<-|[]]]]]]; eexists; cbn; eauto 7.
  - intros (v & Hv). exists c; split; [|apply N.eqb_refl]. cbn in Hv. cbn.
    destruct Hv as [E|[E|[E|[E|[E|[]]]]]]; injection E as <- _; tauto.
Qed.
Lemma esc_value_spec c v : In (c, v) escapes -> v = esc_value c.
Proof. intros H; cbn in H. destruct H as [E|[E|[E|[E|[E|[]]]]]]; injection E as <- <-; reflexivity. Qed.
Lemma esc_value_in c : esc_set c = true -> In (c, esc_value c) escapes.
Proof. intros H. apply esc_set_spec in H as (v & Hv). rewrite <- (esc_value_spec _ _ Hv); exact Hv. Qed.

Lemma replace_char_no_panic c : replace_char c <> None.
Proof.
  unfold replace_char, table_get.
  destruct ((N.land c 1 =? 0) && (34 <=? c) && (c <=? 116)) eqn:E; [|discriminate].
  apply nth_error_Some. change (length unescape_table) with 42%nat.
  apply andb_true_iff in E as [E1 E2]; apply andb_true_iff in E1 as [_ E1].
  apply N.leb_le in E1, E2.
  assert ((c - 34) / 2 < 42); [|lia].
  apply N.div_lt_upper_bound; lia.
Qed.

Lemma repl_value c caps : esc_set c = true -> unescape_repl ((1%nat, [c]) :: caps) = [esc_value c].
Proof.
  intros H. unfold esc_set in H. apply existsb_exists in H as (x & Hx & E). apply N.eqb_eq in E. subst x.
  cbn in Hx. destruct Hx as [<-|[<-|[<-|[<-|[<-|[]]]]]]; vm_compute; reflexivity.
Qed.

Lemma mtch_unescape_re n s :
  mtch unescape_re (MS n s []) Some =
  match s with
  | c :: c' :: s' => if (92 =? c) && esc_set c' then Some (MS (S (S n)) s' [(1%nat, [c'])]) else None
  | _ => None
  end.
Proof.
  unfold unescape_re, rch. cbn [mtch ms_rest ms_pos ms_caps].
  destruct s as [|c s]; [reflexivity|].
  destruct (92 =? c); [|destruct s; reflexivity].
  cbn [ms_rest ms_pos ms_caps andb].
  destruct s as [|c' s']; [reflexivity|]. cbn [andb]. fold (esc_set c').
  destruct (esc_set c') eqn:E; [|reflexivity].
  f_equal. change (c' :: s') with ([c'] ++ s'). apply (ms_capture_app 1 [c'] _ s').
Qed.

(** First escape sequence of a text. *)
Fixpoint esc_find (s : str) : option (str * char * str) :=
  match s with
  | [] => None
  | c :: s1 =>
      match s1 with
      | c' :: s' => if (92 =? c) && esc_set c' then Some ([], c', s')
                    else match esc_find s1 with Some (p, x, r) => Some (c :: p, x, r) | None => None end
      | [] => None
      end
  end.
Lemma esc_find_cons2 c c' s' : esc_find (c :: c' :: s') =
  if (92 =? c) && esc_set c' then Some ([], c', s')
  else match esc_find (c' :: s') with Some (p, x, r) => Some (c :: p, x, r) | None => None end.
Proof. reflexivity. Qed.
Lemma find_unescape_re s : forall n,
  re_find_from unescape_re n s =
  match esc_find s with
  | Some (p, x, r) => Some (p, MS (n + length p + 2) r [(1%nat, [x])])
  | None => None
  end.
Proof.
  induction s as [|c s IH]; intros n.
  - cbn [re_find_from esc_find]. rewrite mtch_unescape_re. reflexivity.
  - cbn [re_find_from]. rewrite mtch_unescape_re, IH.
    destruct s as [|c' s']; [reflexivity|]. rewrite esc_find_cons2.
    destruct ((92 =? c) && esc_set c').
    + cbn [length]. do 3 f_equal. lia.
    + destruct (esc_find (c' :: s')) as [[[p x] r]|]; [|reflexivity].
      cbn [length]. do 3 f_equal. lia.
Qed.

Lemma esc_find_none s : esc_find s = None -> unescapes s s.
Proof.
  induction s as [|c s IH]; intros H; [constructor|].
  destruct s as [|c' s'].
  - apply ue_copy; [right; intros c' s' [=]|constructor].
  - rewrite esc_find_cons2 in H. destruct ((92 =? c) && esc_set c') eqn:E; [discriminate|].
    apply ue_copy.
    + apply andb_false_iff in E as [E|E]; [left; apply N.eqb_neq in E; congruence|].
      right. intros x y [= <- <-] Hx. apply esc_set_spec in Hx. congruence.
    + apply IH. destruct (esc_find (c' :: s')) as [[[? ?] ?]|]; [discriminate|reflexivity].
Qed.
Lemma esc_find_some s p x r t :
  esc_find s = Some (p, x, r) -> unescapes r t -> unescapes s (p ++ esc_value x :: t)
  /\ (length r < length s)%nat /\ esc_set x = true.
Proof.
  revert p; induction s as [|c s IH]; intros p H Ht; [discriminate|].
  destruct s as [|c' s']; [discriminate|]. rewrite esc_find_cons2 in H.
  destruct ((92 =? c) && esc_set c') eqn:E.
  - injection H as <- <- <-. apply andb_true_iff in E as [E1 E2]. apply N.eqb_eq in E1. subst c.
    cbn [app]. split; [|split; [cbn [length]; lia|exact E2]]. apply ue_escape; [apply esc_value_in; exact E2|exact Ht].
  - destruct (esc_find (c' :: s')) as [[[p' x'] r']|] eqn:F; [|discriminate].
    injection H as <- <- <-. destruct (IH p' eq_refl Ht) as (H1 & H2 & H3).
    split; [|split; [cbn [length] in *; lia|exact H3]]. cbn [app]. apply ue_copy; [|exact H1].
    apply andb_false_iff in E as [E|E]; [left; apply N.eqb_neq in E; congruence|].
    right. intros y z [= <- <-] Hx. apply esc_set_spec in Hx. congruence.
Qed.

Lemma iter_unescapes fuel : forall n s, (length s < fuel)%nat ->
  let (l, tail) := re_iter fuel unescape_re n s in
  unescapes s (concat (map (fun m => fst m ++ unescape_repl (ms_caps (snd m))) l) ++ tail).
Proof.
  induction fuel as [|fuel IH]; intros n s Hf; [lia|].
  cbn [re_iter]. rewrite find_unescape_re.
  destruct (esc_find s) as [[[p x] r]|] eqn:F.
  - cbn [ms_rest ms_pos].
    assert (esc_set x = true /\ (length r < length s)%nat) as [Hx Hr].
    { clear -F. revert p F; induction s as [|c s IH]; intros p F; [discriminate|].
      destruct s as [|c' s']; [discriminate|]. rewrite esc_find_cons2 in F.
      destruct ((92 =? c) && esc_set c') eqn:E.
      - injection F as <- <- <-. apply andb_true_iff in E as [_ E]. cbn [length]. split; [exact E|lia].
  -         destruct (esc_find (c' :: s')) as [[[p' x'] r']|] eqn:G; [|discriminate].
        injection F as <- <- <-. destruct (IH p' eq_refl). cbn [length] in *. split; [assumption|lia]. }
    destruct (Nat.ltb_spec (length r) (length s)) as [_|L]; [|lia].
    specialize (IH (n + length p + 2)%nat r ltac:(lia)).
    destruct (re_iter fuel unescape_re (n + length p + 2) r) as [l tail].
    cbn [map concat fst snd ms_caps]. rewrite repl_value by exact Hx.
    destruct (esc_find_some s p x r _ F IH) as (G & _ & _).
    rewrite <- !app_assoc. cbn [app]. exact G.
  - cbn [map concat app]. apply esc_find_none; exact F.
Qed.

Theorem unescape_unescapes s : unescapes s (unescape s).
Proof.
  unfold unescape, re_replace_all. pose proof (iter_unescapes (S (length s)) 0 s ltac:(lia)) as H.
  destruct (re_iter (S (length s)) unescape_re 0 s) as [l tail]. exact H.
Qed.

Lemma unescapes_det s t t' : unescapes s t -> unescapes s t' -> t = t'.
Proof.
  intros H; revert t'; induction H; intros t' H'; inversion H'; subst; try reflexivity.
  - f_equal; [|auto]. rewrite (esc_value_spec _ _ H). symmetry; apply esc_value_spec; assumption.
  - exfalso. match goal with D : _ \/ _ |- _ => destruct D as [D|D]; [congruence|] end.
    eapply H3; [reflexivity|]. exists v; exact H.
  - exfalso. destruct H as [H|H]; [congruence|]. eapply H; [reflexivity|]. eexists; eassumption.
  - f_equal; auto.
Qed.

Lemma unescape_iff s t : unescape s = t <-> unescapes s t.
Proof.
  split; [intros <-; apply unescape_unescapes|].
  intros H. exact (unescapes_det _ _ _ (unescape_unescapes s) H).
Qed.

Lemma escape_unescapes s : unescapes (escape s) s.
Proof.
  induction s as [|c s IH]; cbn [escape]; [constructor|].
  destruct (N.eqb_spec c 10) as [->|H1]; [cbn [app]; apply ue_escape; [cbn; auto|exact IH]|].
  destruct (N.eqb_spec c 13) as [->|H2]; [cbn [app]; apply ue_escape; [cbn; auto|exact IH]|].
  destruct (N.eqb_spec c 9) as [->|H3]; [cbn [app]; apply ue_escape; [cbn; auto|exact IH]|].
  destruct (N.eqb_spec c 34) as [->|H4]; [cbn [app]; apply ue_escape; [cbn; auto|exact IH]|].
  destruct (N.eqb_spec c 92) as [->|H5]; [cbn [app]; apply ue_escape; [cbn; auto 6|exact IH]|].
  cbn [app]. apply ue_copy; [left; exact H5|exact IH].
Qed.
Theorem unescape_escape s : unescape (escape s) = s.
Proof. apply unescape_iff, escape_unescapes. Qed.

(** ** Message lines: what the regular expression matches *)
Lemma cls_any_one_line b : forallb cls_any b = true <-> one_line b.
Proof.
  unfold one_line. rewrite forallb_forall. unfold cls_any. split.
  - intros H Hin. apply H in Hin. discriminate.
  - intros H c Hc. destruct (N.eqb_spec c 10) as [->|]; [contradiction|reflexivity].
Qed.

Lemma r_ws_rel n s caps st' :
  mrel r_ws (MS n s caps) st' <->
  exists w s', s = w ++ s' /\ blanks w /\ st' = MS (n + length w) s' caps.
Proof.
  unfold r_ws. rewrite mrel_star_cls. split; intros (a & b & H1 & H2 & H3); exists a, b;
    (split; [exact H1|split; [|exact H3]]); apply blanks_forallb; exact H2.
Qed.

Lemma flags_rel n s caps st' :
  mrel (RSeq (ROpt (rch 126)) (ROpt (rch 124))) (MS n s caps) st' <->
  exists f s', In f [[]; lit "~"; lit "|"; lit "~|"] /\ s = f ++ s' /\ st' = MS (n + length f) s' caps.
Proof.
  rewrite mrel_seq. split.
  - intros (st1 & H1 & H2). apply mrel_opt in H1 as [->|H1].
    + apply mrel_opt in H2 as [->|H2].
      * exists [], s. cbn. rewrite Nat.add_0_r. auto.
      * apply mrel_rch in H2 as (s' & -> & ->). exists [124], s'. cbn. rewrite Nat.add_1_r. auto 6.
    + apply mrel_rch in H1 as (s' & -> & ->). apply mrel_opt in H2 as [->|H2].
      * exists [126], s'. cbn. rewrite Nat.add_1_r. auto 6.
      * apply mrel_rch in H2 as (s'' & -> & ->). exists [126; 124], s''. cbn.
        rewrite Nat.add_comm. cbn. auto 7.
  - intros (f & s' & Hf & -> & ->). cbn in Hf. destruct Hf as [<-|[<-|[<-|[<-|[]]]]]; cbn [app length].
    + rewrite Nat.add_0_r. eexists; split; apply mrel_opt; left; reflexivity.
    + rewrite Nat.add_1_r. eexists; split; [apply mrel_opt; right; apply mrel_rch; eauto|apply mrel_opt; left; reflexivity].
    + rewrite Nat.add_1_r. eexists; split; [apply mrel_opt; left; reflexivity|apply mrel_opt; right; apply mrel_rch; eauto].
    + rewrite Nat.add_comm. cbn [Nat.add]. eexists; split; apply mrel_opt; right; apply mrel_rch; eauto.
Qed.

Lemma is_nd_iff c : is_nd c = true <-> decimal_digit c.
Proof.
  unfold is_nd, decimal_digit. rewrite existsb_exists. change nd_starts with digit_zeros.
  split; intros (z & I & E); exists z; (split; [exact I|]); [apply andb_true_iff in E as [E1 E2]; lia|apply andb_true_iff; split; lia].
Qed.
Lemma tag_rel n s caps st' :
  mrel tag_re (MS n s caps) st' <->
  exists k s', keyword k /\ s = k ++ s' /\ st' = MS (n + length k) s' caps.
Proof.
  unfold tag_re. rewrite !mrel_alt, !mrel_rlit, mrel_seq. split.
  - intros [H|[H|[H|H]]].
    1-3: destruct H as (s' & -> & ->); eexists; exists s'; split; [constructor|split; reflexivity].
    destruct H as (st1 & H1 & H2). apply mrel_rlit in H1 as (s' & -> & ->).
    apply mrel_opt in H2 as [->|H2].
    + exists (lit "msgstr"), s'. split; [constructor|split; reflexivity].
    + cbn [rseq] in H2. apply mrel_seq in H2 as (st1 & H1 & H2).
      apply mrel_rch in H1 as (s1 & -> & ->).
      apply mrel_seq in H2 as (st1 & H1 & H2).
      apply mrel_alt in H1 as [H1|H1].
      * apply mrel_rch in H1 as (s2 & -> & ->). apply mrel_rch in H2 as (s3 & -> & ->).
        exists (lit "msgstr[0]"), s3. split; [constructor|split; [reflexivity|]].
        f_equal. cbn. lia.
      * apply mrel_seq in H1 as (st2 & H0 & H1).
        apply mrel_cls in H0 as (d & s2 & -> & Hd & ->).
        apply mrel_star_cls in H1 as (ds & s3 & -> & Hds & ->).
        apply mrel_rch in H2 as (s4 & -> & ->).
        exists (lit "msgstr[" ++ d :: ds ++ lit "]"), s4.
        split; [constructor; [lia|rewrite forallb_forall in Hds; intros c I; apply is_nd_iff, Hds, I]|].
        split; [cbn; rewrite <- app_assoc; reflexivity|].
        f_equal. rewrite !app_length. cbn [length]. rewrite app_length. cbn. lia.
  - intros (k & s' & Hk & -> & ->). inversion Hk; subst.
    + left; eauto.
    + right; left; eauto.
    + right; right; left; eauto.
    + right; right; right. eexists; split; [apply mrel_rlit; eauto|apply mrel_opt; left; reflexivity].
    + right; right; right. exists (MS (n + length (lit "msgstr")) (lit "[0]" ++ s') caps).
      split; [apply mrel_rlit; eexists; split; reflexivity|].
      apply mrel_opt; right. cbn [rseq]. apply mrel_seq; eexists; split; [apply mrel_rch; cbn; eauto|].
      apply mrel_seq; eexists; split; [apply mrel_alt; left; apply mrel_rch; eauto|].
      apply mrel_rch; eexists; split; [reflexivity|]. f_equal. cbn. lia.
    + right; right; right.
      exists (MS (n + length (lit "msgstr")) (91 :: d :: ds ++ 93 :: s') caps).
      split; [apply mrel_rlit; eexists; split; [|reflexivity]; cbn; rewrite <- app_assoc; reflexivity|].
      apply mrel_opt; right. cbn [rseq]. apply mrel_seq; eexists; split; [apply mrel_rch; eauto|].
      apply mrel_seq; eexists; split.
      * apply mrel_alt; right. apply mrel_seq; eexists; split.
        -- apply mrel_cls; eexists _, _; split; [reflexivity|split; [lia|reflexivity]].
        -- apply mrel_star_cls. exists ds, (93 :: s'). split; [reflexivity|split; [|reflexivity]].
           apply forallb_forall. intros c I. apply is_nd_iff. auto.
      * apply mrel_rch; eexists; split; [reflexivity|]. f_equal.
        rewrite !app_length. cbn [length]. rewrite app_length. cbn. lia.
Qed.

Lemma mark_rel n s caps st' :
  mrel (ROpt (RSeq (rch 35) (RGrp 1 (RSeq (ROpt (rch 126)) (ROpt (rch 124)))))) (MS n s caps) st' <->
  exists mark flags s', marker mark flags /\ s = mark ++ s' /\
    st' = MS (n + length mark) s' (if is_empty mark then caps else (1%nat, flags) :: caps).
Proof.
  rewrite mrel_opt, mrel_seq. split.
  - intros [->|(st1 & H1 & H2)].
    + exists [], [], s. split; [constructor|]. cbn. rewrite Nat.add_0_r; auto.
    + apply mrel_rch in H1 as (s1 & -> & ->). apply mrel_grp in H2 as (st2 & H2 & ->).
      apply flags_rel in H2 as (f & s2 & Hf & -> & ->). cbn [ms_rest]. rewrite ms_capture_app.
      exists (35 :: f), f, s2. cbn [app length is_empty].
      split; [|split; [reflexivity|f_equal; lia]].
      cbn in Hf. destruct Hf as [<-|[<-|[<-|[<-|[]]]]]; constructor.
  - intros (mark & flags & s' & Hm & -> & ->).
    assert (mark = [] /\ flags = [] \/ mark = 35 :: flags /\ In flags [[]; lit "~"; lit "|"; lit "~|"]) as [[-> ->]|[-> Hf]].
    { inversion Hm; subst; [left; auto|right..]; (split; [reflexivity|]); cbn; auto 6. }
    + left. cbn. rewrite Nat.add_0_r; reflexivity.
    + right. cbn [app is_empty length]. eexists; split; [apply mrel_rch; eauto|].
      apply mrel_grp. eexists; split; [apply flags_rel; exists flags, s'; eauto|].
      cbn [ms_rest]. rewrite ms_capture_app. f_equal. lia.
Qed.

Definition message_caps (mark flags : str) (kw : option str) (body : str) : list (nat * str) :=
  (3%nat, body) :: (match kw with Some k => [(2%nat, k)] | None => [] end)
  ++ (if is_empty mark then [] else [(1%nat, flags)]).

Lemma opt_tag_rel n s caps st' :
  mrel (ROpt (RGrp 2 tag_re)) (MS n s caps) st' <->
  exists kw s', (forall k, kw = Some k -> keyword k) /\ s = opt_str kw ++ s' /\
    st' = MS (n + length (opt_str kw)) s' ((match kw with Some k => [(2%nat, k)] | None => [] end) ++ caps).
Proof.
  rewrite mrel_opt, mrel_grp. split.
  - intros [->|(st1 & H1 & ->)].
    + exists None, s. split; [intros k [=]|]. cbn. rewrite Nat.add_0_r; auto.
    + apply tag_rel in H1 as (k & s' & Hk & -> & ->). exists (Some k), s'.
      split; [intros ? [= <-]; exact Hk|]. cbn [opt_str ms_rest]. rewrite ms_capture_app. auto.
  - intros ([k|] & s' & Hk & -> & ->).
    + right. eexists; split; [apply tag_rel; exists k, s'; eauto|].
      cbn [opt_str ms_rest]. rewrite ms_capture_app. reflexivity.
    + left. cbn. rewrite Nat.add_0_r; reflexivity.
Qed.

Definition message_tail : re :=
  rseq [ r_ws; ROpt (RSeq (rch 35) (RGrp 1 (RSeq (ROpt (rch 126)) (ROpt (rch 124)))));
         r_ws; ROpt (RGrp 2 tag_re); r_ws;
         rch 34; RGrp 3 (RStar true (RCls cls_any)); rch 34; r_ws; REol ].
Lemma message_re_eq : message_re = RSeq RBol message_tail.
Proof. reflexivity. Qed.

Lemma message_rel_inv s st' :
  mrel message_tail (MS 0 s []) st' ->
  exists mark flags kw body w1 w2 w3 w4,
    s = w1 ++ mark ++ w2 ++ opt_str kw ++ w3 ++ [34] ++ body ++ [34] ++ w4
    /\ marker mark flags /\ (forall k, kw = Some k -> keyword k)
    /\ blanks w1 /\ blanks w2 /\ blanks w3 /\ blanks w4 /\ one_line body
    /\ ms_caps st' = message_caps mark flags kw body.
Proof.
  unfold message_tail. cbn [rseq]. intros H.
  apply mrel_seq in H as (st1 & H1 & H). apply r_ws_rel in H1 as (w1 & s1 & -> & Hw1 & ->).
  apply mrel_seq in H as (st1 & H1 & H). apply mark_rel in H1 as (mark & flags & s2 & Hm & -> & ->).
  apply mrel_seq in H as (st1 & H1 & H). apply r_ws_rel in H1 as (w2 & s3 & -> & Hw2 & ->).
  apply mrel_seq in H as (st1 & H1 & H). apply opt_tag_rel in H1 as (kw & s4 & Hkw & -> & ->).
  apply mrel_seq in H as (st1 & H1 & H). apply r_ws_rel in H1 as (w3 & s5 & -> & Hw3 & ->).
  apply mrel_seq in H as (st1 & H1 & H). apply mrel_rch in H1 as (s6 & -> & ->).
  apply mrel_seq in H as (st1 & H1 & H). apply mrel_grp in H1 as (st2 & H1 & ->).
  apply mrel_star_cls in H1 as (body & s7 & -> & Hb & ->). cbn [ms_rest] in H. rewrite ms_capture_app in H.
  apply mrel_seq in H as (st1 & H1 & H). apply mrel_rch in H1 as (s8 & -> & ->).
  apply mrel_seq in H as (st1 & H1 & H). apply r_ws_rel in H1 as (w4 & s9 & -> & Hw4 & ->).
  apply mrel_eol in H as [-> ->].
  exists mark, flags, kw, body, w1, w2, w3, w4. rewrite app_nil_r. cbn [app].
  repeat (split; [first [reflexivity|assumption]|]).
  split; [apply cls_any_one_line; exact Hb|].
  cbn [ms_caps]. unfold message_caps. destruct (is_empty mark); reflexivity.
Qed.
Lemma message_rel_intro s flags kw body :
  quoted_line s flags kw body -> exists st', mrel message_tail (MS 0 s []) st'.
Proof.
  intros (mark & w1 & w2 & w3 & w4 & -> & Hm & Hk & H1 & H2 & H3 & H4 & Hb).
  eexists. unfold message_tail. cbn [rseq].
  apply mrel_seq; eexists; split; [apply r_ws_rel; eauto|].
  apply mrel_seq; eexists; split; [apply mark_rel; exists mark, flags; eexists; split; [exact Hm|split; reflexivity]|].
  apply mrel_seq; eexists; split; [apply r_ws_rel; eauto|].
  apply mrel_seq; eexists; split; [apply opt_tag_rel; exists kw; eexists; split; [exact Hk|split; reflexivity]|].
  apply mrel_seq; eexists; split; [apply r_ws_rel; eauto|].
  apply mrel_seq; eexists; split; [apply mrel_rch; cbn [app]; eauto|].
  apply mrel_seq; eexists; split.
  { apply mrel_grp; eexists; split; [apply mrel_star_cls; exists body; eexists; split; [reflexivity|split; [|reflexivity]]|reflexivity].
    apply cls_any_one_line; exact Hb. }
  cbn [ms_rest]. rewrite ms_capture_app.
  apply mrel_seq; eexists; split; [apply mrel_rch; eauto|].
  apply mrel_seq; eexists; split; [apply r_ws_rel; exists w4, []; rewrite app_nil_r; eauto|].
  apply mrel_eol; split; reflexivity.
Qed.

(** ** The decomposition of a quoted line is unique *)
Lemma is_nd_not_ws c : is_nd c = true -> is_ws c = false /\ c <> 34.
Proof.
  unfold is_nd. rewrite existsb_exists. intros (a & Ha & E). 
  assert (forallb (fun a => forallb (fun i => negb (is_ws (a + i)) && negb (a + i =? 34)) [0;1;2;3;4;5;6;7;8;9]) nd_starts = true) as T
    by (vm_compute; reflexivity).
  rewrite forallb_forall in T. specialize (T a Ha). rewrite forallb_forall in T.
  assert (exists i, In i [0;1;2;3;4;5;6;7;8;9] /\ c = a + i) as (i & Hi & ->).
  { exists (c - a). split; [|lia]. assert (c - a <= 9) as L by lia. revert L. generalize (c - a). intros i L. cbn. lia. }
  specialize (T i Hi). apply andb_true_iff in T as [T1 T2]. split; [destruct (is_ws _); [discriminate|reflexivity]|lia].
Qed.

Definition kwc (c : char) : bool := negb (is_ws c) && negb (c =? 34).
Lemma keyword_chars k : keyword k -> forallb kwc k = true.
Proof.
  intros H; inversion H; subst; try (vm_compute; reflexivity).
  rewrite forallb_app. change (forallb kwc (lit "msgstr[")) with true. cbn [andb forallb].
  rewrite forallb_app. change (forallb kwc (lit "]")) with true. rewrite andb_true_r.
  apply andb_true_iff; split.
  - unfold kwc. assert (d =? 34 = false) as -> by lia. assert (is_ws d = false) as ->; [|reflexivity].
    unfold is_ws. lia.
  - apply forallb_forall. intros c Hc. destruct (is_nd_not_ws c (proj2 (is_nd_iff c) (H1 c Hc))) as [E1 E2].
    unfold kwc. rewrite E1. apply N.eqb_neq in E2; rewrite E2; reflexivity.
Qed.
Lemma keyword_head k : keyword k -> exists k', k = 109 :: k'.
Proof. intros H; inversion H; subst; cbn; eauto. Qed.

(** from the keyword on *)
Definition core (kw : option str) (w3 body w4 : str) : str := opt_str kw ++ w3 ++ [34] ++ body ++ [34] ++ w4.

Lemma core_head kw w3 body w4 :
  (forall k, kw = Some k -> keyword k) ->
  (exists r, core kw w3 body w4 = 109 :: r) \/ kw = None.
Proof.
  destruct kw as [k|]; [|auto]. intros H; left. destruct (keyword_head k (H k eq_refl)) as (k' & ->).
  unfold core; cbn; eauto.
Qed.

Lemma core_unique kw w3 body w4 kw' w3' body' w4' :
  (forall k, kw = Some k -> keyword k) -> (forall k, kw' = Some k -> keyword k) ->
  blanks w3 -> blanks w3' -> blanks w4 -> blanks w4' ->
  core kw w3 body w4 = core kw' w3' body' w4' -> kw = kw' /\ body = body'.
Proof.
  intros Hk Hk' H3 H3' H4 H4' E. unfold core in E.
  assert (forall k0 : option str, (forall k, k0 = Some k -> keyword k) -> forallb kwc (opt_str k0) = true) as K.
  { intros [k|] H; [apply keyword_chars, H; reflexivity|reflexivity]. }
  assert (forall w r, blanks w -> no_start kwc (w ++ [34] ++ r)) as W.
  { intros [|c w] r H; cbn; [reflexivity|]. unfold kwc.
    assert (is_ws c = true) as -> by (apply is_ws_white, H; left; reflexivity). reflexivity. }
  destruct (run_unique kwc _ _ _ _ (K _ Hk) (K _ Hk') (W w3 (body ++ [34] ++ w4) H3) (W w3' (body' ++ [34] ++ w4') H3') E) as [Ek E1].
  assert (kw = kw') as ->.
  { destruct kw as [k|], kw' as [k'|]; cbn in Ek; try reflexivity.
    - congruence.
    - destruct (keyword_head k (Hk k eq_refl)) as (? & ->); discriminate.
    - destruct (keyword_head k' (Hk' k' eq_refl)) as (? & ->); discriminate. }
  split; [reflexivity|].
  apply blanks_forallb in H3, H3', H4, H4'.
  destruct (run_unique is_ws _ _ ([34] ++ body ++ [34] ++ w4) ([34] ++ body' ++ [34] ++ w4') H3 H3' eq_refl eq_refl E1) as [_ E2].
  cbn [app] in E2. injection E2 as E2. apply (f_equal (@rev _)) in E2.
  rewrite !rev_app_distr in E2. cbn [rev] in E2. rewrite <- !app_assoc in E2.
  rewrite <- forallb_rev in H4, H4'.
  destruct (run_unique is_ws _ _ ([34] ++ rev body) ([34] ++ rev body') H4 H4' eq_refl eq_refl E2) as [_ E3].
  cbn [app] in E3. injection E3 as E3. apply (f_equal (@rev _)) in E3. rewrite !rev_involutive in E3. exact E3.
Qed.

Lemma core_no_ws kw w3 body w4 : (forall k, kw = Some k -> keyword k) ->
  exists w r, core kw w3 body w4 = w ++ r /\ (kw <> None -> w = []) /\ (kw = None -> w = w3) /\
  (exists x r', r = x :: r' /\ (x = 34 \/ x = 109)).
Proof.
  intros Hk. destruct kw as [k|].
  - destruct (keyword_head k (Hk k eq_refl)) as (k' & ->). exists [], (core (Some (109 :: k')) w3 body w4).
    repeat split; try congruence. unfold core; cbn; eauto.
  - exists w3, ([34] ++ body ++ [34] ++ w4). repeat split; try congruence. cbn; eauto.
Qed.

Lemma flags_unique f f' z z' y y' t t' :
  In f [[]; lit "~"; lit "|"; lit "~|"] -> In f' [[]; lit "~"; lit "|"; lit "~|"] ->
  forallb is_ws z = true -> forallb is_ws z' = true ->
  (y = 34 \/ y = 109) -> (y' = 34 \/ y' = 109) ->
  f ++ z ++ y :: t = f' ++ z' ++ y' :: t' -> f = f' /\ y :: t = y' :: t'.
Proof.
  set (p := fun c => (c =? 126) || (c =? 124)).
  assert (forall g, In g [[]; lit "~"; lit "|"; lit "~|"] -> forallb p g = true) as F.
  { intros g Hg. cbn in Hg. destruct Hg as [<-|[<-|[<-|[<-|[]]]]]; reflexivity. }
  assert (forall z y t, forallb is_ws z = true -> (y = 34 \/ y = 109) -> no_start p (z ++ y :: t)) as S.
  { intros [|c u] v w Hz Hy; cbn [app no_start].
    - destruct Hy as [->| ->]; reflexivity.
    - cbn [forallb] in Hz; apply andb_true_iff in Hz as [Hz _]. unfold p, is_ws in *. lia. }
  intros Hf Hf' Hz Hz' Hy Hy' E.
  destruct (run_unique p _ _ _ _ (F _ Hf) (F _ Hf') (S z y t Hz Hy) (S z' y' t' Hz' Hy') E) as [-> E2].
  split; [reflexivity|].
  refine (proj2 (run_unique is_ws _ _ (y :: t) (y' :: t') Hz Hz' _ _ E2)); cbn.
  - destruct Hy as [->| ->]; reflexivity.
  - destruct Hy' as [->| ->]; reflexivity.
Qed.

Lemma quoted_line_unique s flags kw body flags' kw' body' :
  quoted_line s flags kw body -> quoted_line s flags' kw' body' ->
  flags = flags' /\ kw = kw' /\ body = body'.
Proof.
  intros (mark & w1 & w2 & w3 & w4 & E & Hm & Hk & H1 & H2 & H3 & H4 & _)
         (mark' & w1' & w2' & w3' & w4' & E' & Hm' & Hk' & H1' & H2' & H3' & H4' & _).
  (* move leading blanks of the core into w2 *)
  change (s = w1 ++ mark ++ w2 ++ core kw w3 body w4) in E.
  change (s = w1' ++ mark' ++ w2' ++ core kw' w3' body' w4') in E'.
  destruct (core_no_ws kw w3 body w4 Hk) as (v & r & Ev & Hv1 & Hv2 & (x & r0 & -> & Hx)).
  destruct (core_no_ws kw' w3' body' w4' Hk') as (v' & r' & Ev' & Hv1' & Hv2' & (x' & r0' & -> & Hx')).
  assert (blanks v) as Bv by (destruct kw; [rewrite Hv1 by discriminate; intros ? []|rewrite Hv2 by reflexivity; exact H3]).
  assert (blanks v') as Bv' by (destruct kw'; [rewrite Hv1' by discriminate; intros ? []|rewrite Hv2' by reflexivity; exact H3']).
  assert (is_ws x = false) as Nx by (destruct Hx; subst; reflexivity).
  assert (is_ws x' = false) as Nx' by (destruct Hx'; subst; reflexivity).
  assert (flags = flags' /\ x :: r0 = x' :: r0') as [<- Er].
  { rewrite E in E'. rewrite Ev, Ev' in E'.
    apply blanks_forallb in H1, H2, H1', H2', Bv, Bv'.
    assert (forall m f, marker m f -> m = [] /\ f = [] \/ m = 35 :: f /\ In f [[]; lit "~"; lit "|"; lit "~|"]) as MK.
    { intros m f Hmm. inversion Hmm; subst; [left; auto|right..]; (split; [reflexivity|]); cbn; auto 6. }
    destruct (MK _ _ Hm) as [[-> ->]|[-> Hf]], (MK _ _ Hm') as [[-> ->]|[-> Hf']]; cbn [app] in E'.
    - split; [reflexivity|]. rewrite !app_assoc in E'.
      refine (proj2 (run_unique is_ws _ _ (x :: r0) (x' :: r0') _ _ Nx Nx' E')); repeat (apply forallb_app_true; split); assumption.
    - exfalso. rewrite !(app_assoc w1), !(app_assoc (w1 ++ w2)) in E'.
      assert (x :: r0 = 35 :: flags' ++ w2' ++ v' ++ x' :: r0') as EE.
      { apply (proj2 (run_unique is_ws ((w1 ++ w2) ++ v) w1' (x :: r0) (35 :: flags' ++ w2' ++ v' ++ x' :: r0')
                 ltac:(repeat (apply forallb_app_true; split); assumption) H1' Nx eq_refl E')). }
      injection EE as -> _. lia.
    - exfalso. rewrite !(app_assoc w1'), !(app_assoc (w1' ++ w2')) in E'.
      assert (x' :: r0' = 35 :: flags ++ w2 ++ v ++ x :: r0) as EE.
      { apply (proj2 (run_unique is_ws ((w1' ++ w2') ++ v') w1 (x' :: r0') (35 :: flags ++ w2 ++ v ++ x :: r0)
                 ltac:(repeat (apply forallb_app_true; split); assumption) H1 Nx' eq_refl (eq_sym E'))). }
      injection EE as -> _. lia.
    - destruct (run_unique is_ws _ _ (35 :: flags ++ w2 ++ v ++ x :: r0) (35 :: flags' ++ w2' ++ v' ++ x' :: r0') H1 H1' eq_refl eq_refl E') as [_ EE].
      injection EE as EE. rewrite !(app_assoc w2), !(app_assoc w2') in EE.
      eapply flags_unique; [..|exact EE]; try assumption; apply forallb_app_true; split; assumption. }
  split; [reflexivity|].
  assert (core kw w3 body w4 = v ++ x :: r0) as C1 by exact Ev.
  assert (core kw' w3' body' w4' = v' ++ x :: r0) as C2 by (rewrite Er; exact Ev').
  destruct kw as [k|], kw' as [k'|].
  - rewrite Hv1 in C1 by discriminate. rewrite Hv1' in C2 by discriminate.
    apply (core_unique _ w3 body w4 _ w3' body' w4'); try assumption. cbn [app] in *; congruence.
  - exfalso. destruct (keyword_head k (Hk k eq_refl)) as (? & ->). rewrite Hv1 in C1 by discriminate.
    rewrite Hv2' in C2 by reflexivity. unfold core in C1, C2. cbn [opt_str app] in C1, C2. injection C1 as <- C1.
    apply app_inv_head in C2. discriminate C2.
  - exfalso. destruct (keyword_head k' (Hk' k' eq_refl)) as (? & ->). rewrite Hv1' in C2 by discriminate.
    rewrite Hv2 in C1 by reflexivity. unfold core in C1, C2. cbn [opt_str app] in C1, C2. injection C2 as <- C2.
    apply app_inv_head in C1. discriminate C1.
  - split; [reflexivity|]. rewrite Hv2 in C1 by reflexivity. rewrite Hv2' in C2 by reflexivity.
    unfold core in C1, C2. cbn [opt_str app] in C1, C2. apply app_inv_head in C1, C2.
    apply (core_unique None [] body w4 None [] body' w4'); try assumption; try (intros ? []); try discriminate.
    unfold core. cbn [opt_str app]. congruence.
Qed.

(** ** parse_line *)
Lemma message_captures_some s c :
  re_captures message_re s = Some c ->
  exists mark flags kw body, quoted_line s flags kw body /\ marker mark flags /\ c = message_caps mark flags kw body.
Proof.
  rewrite message_re_eq, captures_bol. intros H.
  destruct (mtch message_tail (MS 0 s []) Some) as [st|] eqn:E; [|discriminate]. injection H as <-.
  apply mtch_some in E. apply message_rel_inv in E as (mark & flags & kw & body & w1 & w2 & w3 & w4 & H & Hm & Hr).
  exists mark, flags, kw, body. split; [|split; [exact Hm|apply Hr]].
  exists mark, w1, w2, w3, w4. tauto.
Qed.
Lemma message_captures_none s :
  re_captures message_re s = None -> forall flags kw body, ~ quoted_line s flags kw body.
Proof.
  rewrite message_re_eq, captures_bol. intros H flags kw body Hq.
  destruct (mtch message_tail (MS 0 s []) Some) as [st|] eqn:E; [discriminate|].
  apply message_rel_intro in Hq as (st' & Hq). exact (mtch_none _ _ E _ Hq).
Qed.

Lemma quoted_line_not_blank s flags kw body : quoted_line s flags kw body -> ~ blanks s.
Proof.
  intros (mark & w1 & w2 & w3 & w4 & -> & _) H.
  assert (white 34) as W.
  { apply H. rewrite !in_app_iff. right; right; right; right; right. left; left; reflexivity. }
  apply is_ws_white in W. discriminate W.
Qed.

Lemma exists_nonblank s : existsb (fun c => negb (is_ws c)) s = negb (forallb is_ws s).
Proof.
  induction s as [|c s IH]; cbn; [reflexivity|]. rewrite IH. destruct (is_ws c); reflexivity.
Qed.

Lemma cap_flags mark flags kw body : marker mark flags ->
  unwrap_or_default (cap_get 1 (message_caps mark flags kw body)) = flags.
Proof.
  intros H; inversion H; subst; destruct kw; reflexivity.
Qed.
Lemma cap_kw mark flags kw body : cap_get 2 (message_caps mark flags kw body) = kw.
Proof. unfold message_caps. destruct kw; cbn; [reflexivity|]. destruct (is_empty mark); reflexivity. Qed.
Lemma tag_reported mark flags k : marker mark flags ->
  (if ends_with 124 flags then 124 :: k else k) = reported_tag flags k.
Proof. intros H; inversion H; reflexivity. Qed.

Definition quoted_result (n : N) (flags : str) (kw : option str) (body : str) : po_line :=
  match kw with
  | Some k => PMessage n flags (reported_tag flags k) (unescape body)
  | None => PCont n flags (unescape body)
  end.

Lemma parse_line_quoted s n flags kw body :
  quoted_line s flags kw body -> parse_line s n = Some (quoted_result n flags kw body).
Proof.
  intros H. unfold parse_line. rewrite exists_nonblank, negb_involutive.
  destruct (forallb is_ws s) eqn:B.
  { apply blanks_forallb in B. exfalso; exact (quoted_line_not_blank _ _ _ _ H B). }
  destruct (re_captures message_re s) as [c|] eqn:E.
  - apply message_captures_some in E as (mark & f & k & b & Hq & Hm & ->).
    destruct (quoted_line_unique _ _ _ _ _ _ _ H Hq) as (<- & <- & <-).
    rewrite cap_flags by exact Hm. rewrite cap_kw.
    unfold quoted_result. destruct kw as [k|]; [|reflexivity].
    rewrite (tag_reported mark) by exact Hm. reflexivity.
  - exfalso. exact (message_captures_none s E _ _ _ H).
Qed.

(** The part of the comment expression after the number sign. *)
Definition comment_rest : re :=
  rseq [ ROpt (RGrp 1 (RCls cls_any)); r_ws; RGrp 2 (RStar true (RCls cls_any)); REol ].
Lemma comment_re_eq : comment_re = RSeq RBol (RSeq r_ws (RSeq (rch 35) comment_rest)).
Proof. reflexivity. Qed.

Lemma content_match n w c caps :
  blanks w -> no_start is_ws c -> one_line c ->
  mtch (RSeq r_ws (RSeq (RGrp 2 (RStar true (RCls cls_any))) REol)) (MS n (w ++ c) caps) Some
  = Some (MS (n + length w + length c) [] ((2%nat, c) :: caps)).
Proof.
  intros Hw Hn Hc. apply blanks_forallb in Hw.
  assert (forall m, mtch (RSeq (RGrp 2 (RStar true (RCls cls_any))) REol) (MS m c caps) Some
            = Some (MS (m + length c) [] ((2%nat, c) :: caps))) as C.
  { intros m. rewrite mtch_seq, mtch_grp. cbn [ms_rest].
    pose proof (ms_capture_app 2 c (m + length c) [] caps) as CC. rewrite app_nil_r in CC.
    pose proof (star_greedy_max cls_any c m [] caps
                  (fun st' => mtch REol (ms_capture 2 c st') Some)
                  (proj2 (cls_any_one_line c) Hc) I) as G.
    cbv beta in G. rewrite CC, mtch_eol_nil, app_nil_r in G. apply G. discriminate. }
  rewrite mtch_seq. unfold r_ws.
  pose proof (star_greedy_max is_ws w n c caps
                (fun st' => mtch (RSeq (RGrp 2 (RStar true (RCls cls_any))) REol) st' Some) Hw Hn) as G.
  cbv beta in G. rewrite C in G. apply G. discriminate.
Qed.

Lemma comment_rest_nil n : mtch comment_rest (MS n [] []) Some = Some (MS n [] [(2%nat, [])]).
Proof. reflexivity. Qed.
Lemma comment_rest_cons n k w c :
  blanks w -> no_start is_ws c -> one_line (k :: w ++ c) ->
  mtch comment_rest (MS n (k :: w ++ c) []) Some
  = Some (MS (S n + length w + length c) [] [(2%nat, c); (1%nat, [k])]).
Proof.
  intros Hw Hn Hl. unfold comment_rest. cbn [rseq].
  assert (one_line c) as Hc.
  { intros H; apply Hl; right; apply in_app_iff; right; exact H. }
  assert (cls_any k = true) as Hk.
  { unfold cls_any. destruct (N.eqb_spec k 10) as [->|]; [|reflexivity]. exfalso; apply Hl; left; reflexivity. }
  pose proof (content_match (S n) w c [(1%nat, [k])] Hw Hn Hc) as C.
  remember (RSeq r_ws (RSeq (RGrp 2 (RStar true (RCls cls_any))) REol)) as R eqn:ER.
  rewrite mtch_seq, mtch_opt, mtch_grp, mtch_cls_cons, Hk. cbn [ms_rest].
  change (k :: w ++ c) with ([k] ++ (w ++ c)). rewrite ms_capture_app. cbv beta.
  match type of C with ?L = _ => match goal with |- orelse ?X _ = _ => change X with L end end.
  rewrite C. reflexivity.
Qed.

Lemma comment_match n w rest x :
  blanks w -> mtch comment_rest (MS (S (n + length w)) rest []) Some = Some x ->
  mtch (RSeq r_ws (RSeq (rch 35) comment_rest)) (MS n (w ++ 35 :: rest) []) Some = Some x.
Proof.
  intros Hw H. apply blanks_forallb in Hw.
  rewrite mtch_seq. unfold r_ws.
  pose proof (star_greedy_max is_ws w n (35 :: rest) []
                (fun st' => mtch (RSeq (rch 35) comment_rest) st' Some) Hw eq_refl) as G.
  cbv beta in G. rewrite mtch_seq, mtch_rch_cons, N.eqb_refl, H in G. apply G. discriminate.
Qed.

Lemma split_ws s : exists w c, s = w ++ c /\ blanks w /\ no_start is_ws c.
Proof.
  destruct (trim_start_decomp s) as (w & E & Hw & Hn). exists w, (trim_start s).
  split; [exact E|split; [apply blanks_forallb; exact Hw|exact Hn]].
Qed.

Lemma comment_captures_some s c :
  one_line s -> re_captures comment_re s = Some c ->
  exists kind content, comment_shape s kind content
    /\ match cap_get 1 c with Some (k :: _) => k | _ => 32 end = kind
    /\ unwrap_or_default (cap_get 2 c) = content.
Proof.
  intros Hl. rewrite comment_re_eq, captures_bol. intros H.
  destruct (mtch (RSeq r_ws (RSeq (rch 35) comment_rest)) (MS 0 s []) Some) as [st|] eqn:E; [|discriminate].
  injection H as <-.
  pose proof (mtch_some _ _ _ E) as M.
  apply mrel_seq in M as (st1 & M1 & M). apply r_ws_rel in M1 as (w & s1 & -> & Hw & ->).
  apply mrel_seq in M as (st1 & M1 & _). apply mrel_rch in M1 as (rest & -> & ->).
  destruct rest as [|k rest].
  - pose proof (eq_trans (eq_sym E) (comment_match 0 w [] _ Hw (comment_rest_nil _))) as X. injection X as ->.
    exists 32, []. split; [|split; reflexivity]. exists w. split; [exact Hw|left; auto].
  - destruct (split_ws rest) as (w2 & cc & -> & Hw2 & Hn).
    assert (one_line (k :: w2 ++ cc)) as Hl'.
    { intros HI; apply Hl. apply in_app_iff; right; right; exact HI. }
    pose proof (eq_trans (eq_sym E) (comment_match 0 w (k :: w2 ++ cc) _ Hw (comment_rest_cons _ k w2 cc Hw2 Hn Hl'))) as X.
    injection X as ->. exists k, cc. split; [|split; reflexivity].
    exists w. split; [exact Hw|right]. exists w2. split; [exact Hw2|].
    split; [apply not_white_first_iff; exact Hn|reflexivity].
Qed.
Lemma comment_captures_none s :
  one_line s -> re_captures comment_re s = None -> forall kind content, ~ comment_shape s kind content.
Proof.
  intros Hl. rewrite comment_re_eq, captures_bol. intros H kind content (w & Hw & D).
  destruct (mtch (RSeq r_ws (RSeq (rch 35) comment_rest)) (MS 0 s []) Some) as [st|] eqn:E; [discriminate|].
  destruct D as [(-> & _ & _)|(w2 & Hw2 & Hn & ->)].
  - pose proof (eq_trans (eq_sym E) (comment_match 0 w [] _ Hw (comment_rest_nil _))) as X. discriminate X.
  - apply not_white_first_iff in Hn.
    assert (one_line (kind :: w2 ++ content)) as Hl'.
    { intros HI; apply Hl. apply in_app_iff; right; right; exact HI. }
    pose proof (eq_trans (eq_sym E) (comment_match 0 w _ _ Hw (comment_rest_cons _ kind w2 content Hw2 Hn Hl'))) as X. discriminate X.
Qed.

Lemma comment_shape_not_blank s kind content : comment_shape s kind content -> ~ blanks s.
Proof.
  intros (w & _ & D) B.
  assert (white 35) as W.
  { apply B. destruct D as [(-> & _)|(w2 & _ & _ & ->)]; apply in_app_iff; right; left; reflexivity. }
  apply is_ws_white in W. discriminate W.
Qed.

Lemma comment_shape_unique s k c k' c' : comment_shape s k c -> comment_shape s k' c' -> k = k' /\ c = c'.
Proof.
  intros (w & Hw & D) (w' & Hw' & D'). apply blanks_forallb in Hw, Hw'.
  destruct D as [(E & -> & ->)|(w2 & H2 & Hn & E)], D' as [(E' & -> & ->)|(w2' & H2' & Hn' & E')]; rewrite E in E'.
  - auto.
  - exfalso. pose proof (proj2 (run_unique is_ws _ _ [35] ([35; k'] ++ w2' ++ c') Hw Hw' eq_refl eq_refl E')). discriminate.
  - exfalso. pose proof (proj2 (run_unique is_ws _ _ ([35; k] ++ w2 ++ c) [35] Hw Hw' eq_refl eq_refl E')). discriminate.
  - pose proof (proj2 (run_unique is_ws _ _ ([35; k] ++ w2 ++ c) ([35; k'] ++ w2' ++ c') Hw Hw' eq_refl eq_refl E')) as EE.
    cbn [app] in EE. injection EE as <- EE. split; [reflexivity|].
    apply not_white_first_iff in Hn, Hn'. apply blanks_forallb in H2, H2'.
    exact (proj2 (run_unique is_ws _ _ _ _ H2 H2' Hn Hn' EE)).
Qed.

(** The complete description of [parse_line]. *)
Inductive line_spec (s : str) (n : N) : option po_line -> Prop :=
| ls_blank : blanks s -> line_spec s n (Some PBlank)
| ls_quoted flags kw body : quoted_line s flags kw body ->
    line_spec s n (Some (quoted_result n flags kw body))
| ls_comment kind content : comment_shape s kind content ->
    (forall flags kw body, ~ quoted_line s flags kw body) ->
    line_spec s n (Some (PComment n kind content))
| ls_bad : ~ blanks s -> (forall flags kw body, ~ quoted_line s flags kw body) ->
    (forall kind content, ~ comment_shape s kind content) -> line_spec s n None.

Theorem parse_line_spec s n : one_line s -> line_spec s n (parse_line s n).
Proof.
  intros Hl. destruct (forallb is_ws s) eqn:B.
  - unfold parse_line. rewrite exists_nonblank, negb_involutive, B. constructor. apply blanks_forallb; exact B.
  - destruct (re_captures message_re s) as [c|] eqn:E.
    + apply message_captures_some in E as (mark & f & k & b & Hq & _).
      rewrite (parse_line_quoted s n f k b Hq). constructor; exact Hq.
    + pose proof (message_captures_none s E) as NQ.
      unfold parse_line. rewrite exists_nonblank, negb_involutive, B, E.
      destruct (re_captures comment_re s) as [c|] eqn:C.
      * apply comment_captures_some in C as (kind & content & Hs & E1 & E2); [|exact Hl].
        subst kind content. exact (ls_comment s n _ _ Hs NQ).
      * constructor; [|exact NQ|exact (comment_captures_none s Hl C)].
        rewrite blanks_forallb. congruence.
Qed.

Theorem line_spec_det s n r r' : line_spec s n r -> line_spec s n r' -> r = r'.
Proof.
  intros H H'.
  destruct H as [B|f k b Q|kd ct C NQ|NB NQ NC], H' as [B'|f' k' b' Q'|kd' ct' C' NQ'|NB' NQ' NC'];
    try reflexivity;
    try contradiction;
    try (exfalso; first [ exact (quoted_line_not_blank _ _ _ _ Q B') | exact (quoted_line_not_blank _ _ _ _ Q' B)
                        | exact (comment_shape_not_blank _ _ _ C B') | exact (comment_shape_not_blank _ _ _ C' B)
                        | exact (NQ' _ _ _ Q) | exact (NQ _ _ _ Q') | exact (NC' _ _ C) | exact (NC _ _ C') ]; fail).
  - destruct (quoted_line_unique _ _ _ _ _ _ _ Q Q') as (-> & -> & ->). reflexivity.
  - destruct (comment_shape_unique _ _ _ _ _ C C') as (-> & ->). reflexivity.
Qed.

Theorem parse_line_iff s n r : one_line s -> (parse_line s n = r <-> line_spec s n r).
Proof.
  intros Hl; split.
  - intros <-. apply parse_line_spec; exact Hl.
  - intros H. exact (line_spec_det _ _ _ _ (parse_line_spec s n Hl) H).
Qed.
