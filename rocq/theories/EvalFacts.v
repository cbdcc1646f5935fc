(** Evaluation of formulas. *)
From Coq Require Import String Arith NArith ZArith Bool List Lia.
From Coq Require Import ZifyBool ZifyNat ZifyN.
From Verif Require Import ModelBase ModelFormula ModelData SpecLine SpecFormula BaseFacts FormulaFacts LexFacts FormulaThms.
Import ListNotations.
Local Open Scope Z_scope.

Lemma wrap64_id z : in64 z -> wrap64 z = z.
Proof. unfold in64, min64, max64, wrap64. intros H. rewrite Z.mod_small; lia. Qed.
Lemma wrap64_in z : in64 (wrap64 z).
Proof.
  unfold in64, min64, max64, wrap64.
  pose proof (Z.mod_pos_bound (z + 9223372036854775808) 18446744073709551616 ltac:(lia)). lia.
Qed.
Lemma wrap64_mod z : (wrap64 z) mod 2 ^ 64 = z mod 2 ^ 64.
Proof.
  unfold wrap64. change (2 ^ 64) with 18446744073709551616.
  rewrite Zminus_mod, Zmod_mod, <- Zminus_mod. f_equal. lia.
Qed.
(** The unique 64-bit number congruent to [z]. *)
Lemma wrap64_unique z v : in64 v -> v mod 2 ^ 64 = z mod 2 ^ 64 -> v = wrap64 z.
Proof.
  intros Hv E. rewrite <- (wrap64_id v Hv). unfold wrap64. change (2 ^ 64) with 18446744073709551616 in E.
  rewrite (Zplus_mod v), (Zplus_mod z), E. reflexivity.
Qed.
Lemma fits_in z v : fits z = Some v -> v = z /\ in64 z.
Proof. unfold fits, in64. destruct ((min64 <=? z) && (z <=? max64)) eqn:E; [|discriminate]. intros [= <-]. lia. Qed.
Lemma fits_wrap z v : fits z = Some v -> wrap64 z = v /\ in64 v.
Proof. intros H. apply fits_in in H as [-> H]. split; [apply wrap64_id|]; assumption. Qed.

Lemma rem_in l r : in64 l -> r <> 0 -> in64 (Z.rem l r).
Proof.
  unfold in64, min64, max64. intros H Hr. pose proof (Z.quot_rem' l r) as E.
  destruct (Z_le_dec 0 l).
  - pose proof (Z.rem_nonneg l r Hr ltac:(lia)). 
    assert (0 <= r * Z.quot l r); [|lia].
    pose proof (Z.rem_bound_abs l r Hr). 
    destruct (Z_lt_dec r 0).
    + replace r with (- - r) in * by lia. set (s := - r) in *. rewrite Z.quot_opp_r by lia.
      pose proof (Z.quot_pos l s ltac:(lia) ltac:(lia)). nia.
    + pose proof (Z.quot_pos l r ltac:(lia) ltac:(lia)). nia.
  - pose proof (Z.rem_nonpos l r Hr ltac:(lia)).
    assert (r * Z.quot l r <= 0); [|lia].
    replace l with (- - l) in * by lia. set (k := - l) in *. rewrite Z.quot_opp_l by lia.
    destruct (Z_lt_dec r 0).
    + replace r with (- - r) in * by lia. set (s := - r) in *. rewrite Z.quot_opp_r by lia.
      pose proof (Z.quot_pos k s ltac:(lia) ltac:(lia)). nia.
    + pose proof (Z.quot_pos k r ltac:(lia) ltac:(lia)). nia.
Qed.

Lemma b2z_in b : in64 (b2z b).
Proof. unfold in64, min64, max64; destruct b; cbn; lia. Qed.

Lemma value_in e : forall n v, value e n = Some v -> in64 v.
Proof.
  induction e as [|w|op x IH|op x IHx y IHy|x IHx y IHy z IHz]; intros n v E; cbn [value] in E.
  - apply fits_in in E as [-> H]; exact H.
  - apply fits_in in E as [-> H]; exact H.
  - destruct op; destruct (value x n) as [u|]; try discriminate E.
    + apply fits_in in E as [-> H]; exact H.
    + injection E as <-. apply b2z_in.
  - destruct op; destruct (value x n) as [l|] eqn:El; try discriminate E; cbn [bin_value] in E.
    1-5,8-13: destruct (value y n) as [r|] eqn:Er; [|discriminate E].
    1-3: apply fits_in in E as [-> H]; exact H.
    + destruct (r =? 0); [discriminate E|]. apply fits_in in E as [-> H]; exact H.
    + destruct (r =? 0) eqn:R; [discriminate E|]. injection E as <-. apply rem_in; [eauto|lia].
    + injection E as <-; apply b2z_in.
    + injection E as <-; apply b2z_in.
    + injection E as <-; apply b2z_in.
    + injection E as <-; apply b2z_in.
    + injection E as <-; apply b2z_in.
    + injection E as <-; apply b2z_in.
    + destruct (l =? 0); [injection E as <-; apply (b2z_in false)|].
      destruct (value y n); [|discriminate E]. injection E as <-; apply b2z_in.
    + destruct (negb (l =? 0)); [injection E as <-; apply (b2z_in true)|].
      destruct (value y n); [|discriminate E]. injection E as <-; apply b2z_in.
  - destruct (value x n) as [c|]; [|discriminate E]. destruct (c =? 0); eauto.
Qed.

(** C34 *)
Theorem execute_value checks e n v : value e n = Some v -> execute checks e n = Some v.
Proof.
  revert v. induction e as [|w|op x IH|op x IHx y IHy|x IHx y IHy z IHz]; intros v E; cbn [value execute] in *.
  - apply fits_in in E as [-> _]; reflexivity.
  - apply fits_in in E as [-> _]; reflexivity.
  - destruct op; destruct (value x n) as [u|] eqn:Eu; try discriminate E; rewrite (IH _ eq_refl).
    + apply fits_in in E as [-> H]. replace (checks && (u =? i64_min_z)) with false.
      * rewrite wrap64_id by exact H. reflexivity.
      * symmetry. apply andb_false_iff. right. unfold in64, min64, max64, i64_min_z in *. lia.
    + injection E as <-. reflexivity.
  - destruct op; destruct (value x n) as [l|] eqn:El; try discriminate E; cbn [bin_value] in E; rewrite (IHx _ eq_refl).
    1-5,8-13: destruct (value y n) as [r|] eqn:Er; [|discriminate E]; rewrite (IHy _ eq_refl).
    1-3: apply fits_wrap in E as [-> _]; reflexivity.
    + destruct (r =? 0); [discriminate E|]. cbn [negb]. apply fits_wrap in E as [-> _]; reflexivity.
    + destruct (r =? 0) eqn:R; [discriminate E|]. cbn [negb]. injection E as <-. 
      rewrite wrap64_id; [reflexivity|]. apply rem_in; [exact (value_in _ _ _ El)|lia].
    + injection E as <-; reflexivity.
    + injection E as <-; reflexivity.
    + injection E as <-; reflexivity.
    + injection E as <-; reflexivity.
    + injection E as <-. rewrite Z.gtb_ltb. reflexivity.
    + injection E as <-. rewrite Z.geb_leb. reflexivity.
    + destruct (l =? 0); cbn [negb]; [injection E as <-; reflexivity|].
      destruct (value y n) as [r|] eqn:Er; [|discriminate E]. rewrite (IHy _ eq_refl). injection E as <-. reflexivity.
    + destruct (l =? 0); cbn [negb] in *; [|injection E as <-; reflexivity].
      destruct (value y n) as [r|] eqn:Er; [|discriminate E]. rewrite (IHy _ eq_refl). injection E as <-. reflexivity.
  - destruct (value x n) as [c|]; [|discriminate E]. rewrite (IHx _ eq_refl).
    destruct (c =? 0); cbn [negb]; eauto.
Qed.

(** * Machine arithmetic *)
Lemma congruent_wrap v z : congruent v z <-> v = wrap64 z.
Proof.
  split.
  - intros [H E]. apply wrap64_unique; assumption.
  - intros ->. split; [apply wrap64_in|apply wrap64_mod].
Qed.

Lemma quot_in l r : in64 l -> r <> 0 -> ~ (l = min64 /\ r = -1) -> in64 (Z.quot l r).
Proof.
  unfold in64, min64, max64. intros H Hr Hn.
  assert (Z.abs (Z.quot l r) <= Z.abs l) as Ha.
  { rewrite <- Z.quot_abs by exact Hr. apply Z.quot_le_upper_bound; [lia|]. nia. }
  destruct (Z.eq_dec l (- 2 ^ 63)) as [->|Hl]; [|lia].
  destruct (Z.eq_dec r 1) as [->|Hr1]; [rewrite Z.quot_1_r; lia|].
  assert (Z.abs (Z.quot (- 2 ^ 63) r) <= 2 ^ 62).
  { rewrite <- Z.quot_abs by exact Hr. apply Z.quot_le_upper_bound; [lia|]. nia. }
  lia.
Qed.

Lemma bin_machine op l r : in64 l -> in64 r ->
  forall v, machine_bin op l r v <->
  v = match op with
      | BAdd => wrap64 (l + r) | BSub => wrap64 (l - r) | BMul => wrap64 (l * r)
      | BDiv => if negb (r =? 0) then wrap64 (Z.quot l r) else get_infinity l
      | BMod => if negb (r =? 0) then wrap64 (Z.rem l r) else l
      | BAnd => b2z (negb (l =? 0) && negb (r =? 0))
      | BOr => b2z (negb (l =? 0) || negb (r =? 0))
      | BEq => b2z (l =? r) | BNe => b2z (negb (l =? r)) | BLt => b2z (l <? r)
      | BLte => b2z (l <=? r) | BGt => b2z (r <? l) | BGte => b2z (r <=? l)
      end.
Proof.
  intros Hl Hr v. destruct op; cbn [machine_bin]; try apply congruent_wrap.
  - destruct (Z.eqb_spec r 0) as [->|Hn]; cbn [negb].
    + unfold get_infinity, i64_min_z, i64_max_z, min64, max64 in *. destruct (Z.ltb_spec l 0); lia.
    + destruct (Z.eq_dec l min64) as [->|H1].
      * destruct (Z.eq_dec r (-1)) as [->|H2].
        -- change (wrap64 (min64 ÷ -1)) with min64. unfold min64 in *. lia.
        -- rewrite wrap64_id by (apply quot_in; [exact Hl|exact Hn|tauto]). tauto.
      * rewrite wrap64_id by (apply quot_in; [exact Hl|exact Hn|tauto]). tauto.
  - destruct (Z.eqb_spec r 0) as [->|Hn]; cbn [negb]; [tauto|].
    rewrite wrap64_id by (apply rem_in; assumption). tauto.
  - destruct (Z.eqb_spec l 0), (Z.eqb_spec r 0); cbn; lia.
  - destruct (Z.eqb_spec l 0), (Z.eqb_spec r 0); cbn; lia.
  - destruct (Z.eqb_spec l r); cbn; lia.
  - destruct (Z.eqb_spec l r); cbn; lia.
  - destruct (Z.ltb_spec l r); cbn; lia.
  - destruct (Z.leb_spec l r); cbn; lia.
  - destruct (Z.ltb_spec r l); cbn; lia.
  - destruct (Z.leb_spec r l); cbn; lia.
Qed.

Lemma literals_in e : literals_ok e -> match e with NNum v => in64 v | _ => True end.
Proof. destruct e; cbn; auto. unfold in64, min64, max64. lia. Qed.

Lemma machine_bin_in op l r v : in64 l -> in64 r -> machine_bin op l r v -> in64 v.
Proof.
  intros Hl Hr M. pose proof (b2z_in true) as B1. pose proof (b2z_in false) as B0. cbn in B1, B0.
  destruct op; cbn [machine_bin] in M;
    try (destruct M as [M _]; exact M);
    repeat match goal with H : _ \/ _ |- _ => destruct H end;
    repeat match goal with H : _ /\ _ |- _ => destruct H end; subst; try assumption;
    try (unfold in64, min64, max64; lia).
  - apply quot_in; assumption.
  - apply rem_in; assumption.
Qed.

Lemma runs_in n e v : in64 n -> literals_ok e -> runs n e v -> in64 v.
Proof.
  intros Hn Hl R. induction R; cbn [literals_ok] in Hl.
  - exact Hn.
  - unfold in64, min64, max64 in *. lia.
  - destruct op; cbn [machine_un] in *.
    + match goal with H : congruent _ _ |- _ => destruct H; assumption end.
    + destruct H as [[_ ->]|[_ ->]]; unfold in64, min64, max64; lia.
  - destruct Hl. eapply machine_bin_in; [| |eassumption]; auto.
  - tauto.
  - tauto.
Qed.

(** C35: evaluation without overflow checks *)
Theorem execute_runs e n v : in64 n -> literals_ok e -> (execute false e n = Some v <-> runs n e v).
Proof.
  intros Hn. revert v.
  assert (forall e, literals_ok e -> exists v, execute false e n = Some v /\ runs n e v /\ forall v', runs n e v' -> v' = v) as Main.
  { clear e. induction e as [|w|op x IH|op x IHx y IHy|x IHx y IHy z IHz]; cbn [literals_ok]; intros Hl.
    - exists n. split; [reflexivity|]. split; [constructor|]. intros v' R; inversion R; reflexivity.
    - exists w. split; [reflexivity|]. split; [constructor|]. intros v' R; inversion R; reflexivity.
    - destruct (IH Hl) as (r & E & R & U). cbn [execute]. rewrite E.
      destruct op; cbn [andb].
      + exists (wrap64 (- r)). split; [reflexivity|]. split.
        * econstructor; [exact R|]. apply congruent_wrap; reflexivity.
        * intros v' R'. inversion R' as [| |? ? r' ? R1 M| | |]; subst. rewrite (U _ R1) in M.
          apply congruent_wrap; exact M.
      + exists (bool_to_num (r =? 0)). split; [reflexivity|].
        assert (forall u, machine_un UNot r u <-> u = bool_to_num (r =? 0)) as M0.
        { intros u. cbn [machine_un]. unfold bool_to_num. destruct (Z.eqb_spec r 0); lia. }
        split.
        * econstructor; [exact R|]. apply M0; reflexivity.
        * intros v' R'. inversion R' as [| |? ? r' ? R1 M| | |]; subst. rewrite (U _ R1) in M. apply M0; exact M.
    - destruct Hl as [Hl1 Hl2]. destruct (IHx Hl1) as (l & El & Rl & Ul). destruct (IHy Hl2) as (r & Er & Rr & Ur).
      pose proof (runs_in _ _ _ Hn Hl1 Rl) as Il. pose proof (runs_in _ _ _ Hn Hl2 Rr) as Ir.
      pose proof (bin_machine op l r Il Ir) as BM.
      match type of BM with forall v, _ <-> v = ?w => exists w end. split.
      + cbn [execute]. rewrite El, Er.
        destruct op; try reflexivity.
        * destruct (l =? 0); cbn [negb andb]; reflexivity.
        * destruct (l =? 0); cbn [negb orb]; reflexivity.
      + split.
        * econstructor; [exact Rl|exact Rr|]. apply BM; reflexivity.
        * intros v' R'. inversion R' as [| | |? ? ? l' r' ? R1 R2 M| |]; subst.
          rewrite (Ul _ R1), (Ur _ R2) in M. apply BM; exact M.
    - destruct Hl as (Hl1 & Hl2 & Hl3). destruct (IHx Hl1) as (c & Ec & Rc & Uc).
      destruct (IHy Hl2) as (a & Ea & Ra & Ua). destruct (IHz Hl3) as (b & Eb & Rb & Ub).
      cbn [execute]. rewrite Ec. destruct (Z.eqb_spec c 0) as [->|Hc]; cbn [negb].
      + exists b. split; [exact Eb|]. split; [apply r_else; assumption|].
        intros v' R'. inversion R'; subst; auto. exfalso. match goal with H : ?c <> 0 |- _ => apply H, Uc; assumption end.
      + exists a. split; [exact Ea|]. split; [eapply r_then; eassumption|].
        intros v' R'. inversion R'; subst; auto. exfalso. apply Hc. symmetry. apply Uc; assumption. }
  intros v Hl. destruct (Main e Hl) as (w & E & R & U). rewrite E. split.
  - intros [= <-]. exact R.
  - intros R'. rewrite (U _ R'). reflexivity.
Qed.

Theorem execute_total e n : in64 n -> literals_ok e -> exists v, execute false e n = Some v /\ in64 v.
Proof.
  intros Hn Hl. 
  assert (exists v, execute false e n = Some v) as (v & E).
  { clear Hn Hl. induction e as [|w|op x (u & Eu)|op x (l & El) y (r & Er)|x (c & Ec) y (a & Ea) z (b & Eb)]; cbn [execute].
    - eauto.
    - eauto.
    - rewrite Eu. destruct op; cbn [andb]; eauto.
    - rewrite El, Er. destruct op; eauto; destruct (l =? 0); cbn [negb]; eauto.
    - rewrite Ec. destruct (c =? 0); cbn [negb]; eauto. }
  exists v. split; [exact E|]. apply execute_runs in E; try assumption. exact (runs_in _ _ _ Hn Hl E).
Qed.

(** With checks: the same value, unless it panics; no panic without unary minus. *)
Theorem execute_checks e n v : execute true e n = Some v -> execute false e n = Some v.
Proof.
  revert v. induction e as [|w|op x IH|op x IHx y IHy|x IHx y IHy z IHz]; intros v; cbn [execute]; auto.
  - destruct (execute true x n) as [u|]; [|discriminate]. rewrite (IH _ eq_refl).
    destruct op; auto. destruct (u =? i64_min_z); cbn [andb]; [discriminate|auto].
  - destruct (execute true x n) as [l|]; [|discriminate]. rewrite (IHx _ eq_refl).
    destruct (execute true y n) as [r|].
    + rewrite (IHy _ eq_refl). auto.
    + destruct op; try discriminate; destruct (negb (l =? 0)); try discriminate; auto.
  - destruct (execute true x n) as [c|]; [|discriminate]. rewrite (IHx _ eq_refl).
    destruct (negb (c =? 0)); auto.
Qed.
Theorem execute_no_neg e n : no_neg e -> exists v, execute true e n = Some v.
Proof.
  induction e as [|w|op x IH|op x IHx y IHy|x IHx y IHy z IHz]; cbn [no_neg execute]; intros H; eauto.
  - destruct op; [contradiction|]. destruct (IH H) as (u & ->). eauto.
  - destruct H as [H1 H2]. destruct (IHx H1) as (l & ->), (IHy H2) as (r & ->).
    destruct op; eauto; destruct (l =? 0); cbn [negb]; eauto.
  - destruct H as (H1 & H2 & H3). destruct (IHx H1) as (c & ->), (IHy H2) as (a & Ea), (IHz H3) as (b & Eb).
    destruct (c =? 0); cbn [negb]; eauto.
Qed.

(** * Plural index *)
Local Open Scope N_scope.
Definition word64 (pf : platform) : Prop := usize_bits pf = 64.

Lemma count_in64 count : (count < 2 ^ 63) -> in64 (Z.of_N count) /\ wrap64 (Z.of_N count) = Z.of_N count.
Proof.
  intros H. assert (in64 (Z.of_N count)) as I.
  { unfold in64, min64, max64. change (2 ^ 63) with 9223372036854775808 in H. lia. }
  split; [exact I|apply wrap64_id; exact I].
Qed.

Lemma execute_in checks e n v : in64 n -> literals_ok e -> execute checks e n = Some v -> in64 v.
Proof.
  intros Hn Hl E. assert (execute false e n = Some v) as E' by (destruct checks; [apply execute_checks; exact E|exact E]).
  apply execute_runs in E'; try assumption. exact (runs_in _ _ _ Hn Hl E').
Qed.

Theorem get_value_bound pf f count i : forms_get_value pf f count = Some (Some i) -> i < pf_count f.
Proof.
  unfold forms_get_value. destruct (formula_execute pf (pf_formula f) count) as [[v|]|]; try discriminate.
  destruct (N.ltb_spec v (pf_count f)); [|discriminate]. intros [= <-]. assumption.
Qed.

Theorem get_value_iff pf f count : word64 pf -> literals_ok (pf_formula f) -> forall i,
  forms_get_value pf f count = Some (Some i) <->
  execute (overflow_checks pf) (pf_formula f) (wrap64 (Z.of_N count)) = Some (Z.of_N i) /\ i < pf_count f.
Proof.
  intros Hw Hl i. unfold forms_get_value, formula_execute. rewrite Hw.
  destruct (execute (overflow_checks pf) (pf_formula f) (wrap64 (Z.of_N count))) as [v|] eqn:E.
  - apply execute_in in E; [|apply wrap64_in|exact Hl]. unfold in64, min64, max64 in E.
    destruct (v <? 0)%Z eqn:Ev.
    + split; [discriminate|]. intros [[= H] _]. lia.
    + change (2 ^ 64) with 18446744073709551616. rewrite N.mod_small by lia.
      destruct (N.ltb_spec (Z.to_N v) (pf_count f)).
      * split; [intros [= <-]; split; [f_equal; lia|assumption]|intros [[= H1] _]; do 2 f_equal; lia].
      * split; [discriminate|]. intros [[= H1] H2]. lia.
  - split; [discriminate|intros [[=] _]].
Qed.

Theorem get_value_none pf f count : word64 pf -> literals_ok (pf_formula f) ->
  forms_get_value pf f count = Some None <->
  exists v, execute (overflow_checks pf) (pf_formula f) (wrap64 (Z.of_N count)) = Some v
            /\ (v < 0 \/ Z.of_N (pf_count f) <= v)%Z.
Proof.
  intros Hw Hl. unfold forms_get_value, formula_execute. rewrite Hw.
  destruct (execute (overflow_checks pf) (pf_formula f) (wrap64 (Z.of_N count))) as [v|] eqn:E.
  - apply execute_in in E; [|apply wrap64_in|exact Hl]. unfold in64, min64, max64 in E.
    destruct (v <? 0)%Z eqn:Ev.
    + split; [|reflexivity]. intros _. exists v. split; [reflexivity|lia].
    + change (2 ^ 64) with 18446744073709551616. rewrite N.mod_small by lia.
      destruct (N.ltb_spec (Z.to_N v) (pf_count f)).
      * split; [discriminate|]. intros (w & [= <-] & H1). lia.
      * split; [|reflexivity]. intros _. exists v. split; [reflexivity|lia].
  - split; [discriminate|intros (v & [=] & _)].
Qed.

Theorem get_value_math pf f count v : word64 pf -> literals_ok (pf_formula f) -> count < 2 ^ 63 ->
  value (pf_formula f) (Z.of_N count) = Some v ->
  forms_get_value pf f count =
  Some (if (0 <=? v)%Z && (v <? Z.of_N (pf_count f))%Z then Some (Z.to_N v) else None).
Proof.
  intros Hw Hl Hc Hv. apply (execute_value (overflow_checks pf)) in Hv.
  destruct (count_in64 count Hc) as [_ Ew]. rewrite <- Ew in Hv.
  destruct ((0 <=? v)%Z && (v <? Z.of_N (pf_count f))%Z) eqn:E.
  - apply get_value_iff; try assumption. split; [rewrite Hv; f_equal; lia|lia].
  - apply get_value_none; try assumption. exists v. split; [exact Hv|lia].
Qed.

Theorem get_value_no_panic pf f count :
  overflow_checks pf = false \/ no_neg (pf_formula f) -> literals_ok (pf_formula f) ->
  forms_get_value pf f count <> None.
Proof.
  intros H Hl. unfold forms_get_value, formula_execute.
  assert (exists v, execute (overflow_checks pf) (pf_formula f) (wrap64 (Z.of_N count)) = Some v) as (v & ->).
  { destruct (overflow_checks pf).
    - destruct H as [H|H]; [discriminate H|]. apply execute_no_neg; exact H.
    - destruct (execute_total (pf_formula f) (wrap64 (Z.of_N count)) (wrap64_in _) Hl) as (v & E & _). eauto. }
  destruct (v <? 0)%Z; [discriminate|]. destruct (_ <? _); discriminate.
Qed.

(** * Plurals *)
Theorem plural_get_iff pf p count r :
  plural_get pf p count = Some r <->
  match pl_forms p with
  | None => r = None
  | Some f => exists o, forms_get_value pf f count = Some o
              /\ r = match o with None => None | Some i => nth_error (pl_values p) (N.to_nat i) end
  end.
Proof.
  unfold plural_get. destruct (pl_forms p) as [f|].
  - destruct (forms_get_value pf f count) as [[i|]|].
    + split; [intros [= <-]; eauto|intros (o & [= <-] & ->); reflexivity].
    + split; [intros [= <-]; eauto|intros (o & [= <-] & ->); reflexivity].
    + split; [discriminate|intros (o & [=] & _)].
  - split; [intros [= <-]; reflexivity|intros ->; reflexivity].
Qed.
