(** Decimal numerals: [dec_str] writes the digits of a number. *)
From Coq Require Import String Arith NArith ZArith Bool List Lia.
From Coq Require Decimal DecimalFacts DecimalN.
From Verif Require Import ModelBase ModelLine ModelFormula ModelData ModelReader SpecLine SpecFormula SpecBlock BaseFacts FormulaThms.
Import ListNotations.
Local Open Scope N_scope.

Lemma digits_value_snoc s d : digits_value (s ++ [d]) = (digits_value s * 10 + (Z.of_N d - 48))%Z.
Proof. unfold digits_value. rewrite fold_left_app. reflexivity. Qed.
Lemma digits_value_nonneg s : (forall c, In c s -> 48 <= c <= 57) -> (0 <= digits_value s)%Z.
Proof.
  induction s as [|d s IH] using rev_ind; intros H; [cbn; lia|]. rewrite digits_value_snoc.
  assert (48 <= d <= 57) by (apply H, in_or_app; right; left; reflexivity).
  assert (0 <= digits_value s)%Z by (apply IH; intros c I; apply H, in_or_app; left; exact I). lia.
Qed.
Lemma digits_value_pos s : (forall c, In c s -> 48 <= c <= 57) -> (exists d r, s = d :: r /\ d <> 48) -> (0 < digits_value s)%Z.
Proof.
  induction s as [|x s IH] using rev_ind; intros H (d & r & E & N); [discriminate|]. rewrite digits_value_snoc.
  assert (48 <= x <= 57) by (apply H, in_or_app; right; left; reflexivity).
  destruct s as [|y s].
  - cbn [app] in E. injection E as -> _. cbn. lia.
  - assert (0 < digits_value (y :: s))%Z; [|lia]. apply IH.
    + intros c I; apply H, in_or_app; left; exact I.
    + cbn [app] in E. injection E as -> _. eauto.
Qed.
Lemma dec_str_first n r : dec_str n = 48 :: r -> r = [].
Proof.
  unfold dec_str. intros E. destruct (N.to_uint n) as [|u|u|u|u|u|u|u|u|u|u] eqn:U; try discriminate. cbn [uint_str] in E. injection E as <-.
  assert (Decimal.unorm (Decimal.D0 u) = Decimal.D0 u) as K.
  { rewrite <- U. rewrite <- DecimalN.Unsigned.to_of, DecimalN.Unsigned.of_to. reflexivity. }
  rewrite DecimalFacts.unorm_D0 in K. destruct (uint_str u) eqn:E; [reflexivity|]. exfalso.
  assert (u <> Decimal.Nil) as NN by (intros ->; discriminate).
  pose proof (DecimalFacts.nb_digits_unorm u NN) as L. rewrite K in L. cbn in L. lia.
Qed.
Lemma decimal_value s : s <> [] -> (forall c, In c s -> 48 <= c <= 57) -> (forall r, s = 48 :: r -> r = []) ->
  decimal (Z.to_N (digits_value s)) s.
Proof.
  induction s as [|d s IH] using rev_ind; intros NE D Z0; [contradiction|].
  assert (48 <= d <= 57) as Hd by (apply D, in_or_app; right; left; reflexivity).
  assert (forall c, In c s -> 48 <= c <= 57) as Ds by (intros c I; apply D, in_or_app; left; exact I).
  destruct s as [|x s].
  - cbn [app]. unfold digits_value; cbn [fold_left]. assert (exists e, d = 48 + e /\ e < 10) as (e & -> & He) by (exists (d - 48); lia).
    replace (Z.to_N (0 * 10 + (Z.of_N (48 + e) - 48))) with e by lia. constructor; exact He.
  - rewrite digits_value_snoc.
    assert (x <> 48) as Nx by (intros ->; specialize (Z0 (s ++ [d]) eq_refl); destruct s; discriminate).
    assert (0 < digits_value (x :: s))%Z as P by (apply digits_value_pos; [exact Ds|eauto]).
    assert (exists e, d = 48 + e /\ e < 10) as (e & -> & He) by (exists (d - 48); lia).
    set (v := digits_value (x :: s)) in *.
    replace (Z.to_N (v * 10 + (Z.of_N (48 + e) - 48))) with (10 * Z.to_N v + e) by lia.
    constructor; [lia|exact He|]. apply IH; [discriminate|exact Ds|].
    intros r [= E _]. contradiction.
Qed.
Lemma decimal_dec n : decimal n (dec_str n).
Proof.
  pose proof (decimal_value (dec_str n) (dec_str_nonempty n) (dec_str_digits n) (dec_str_first n)) as H.
  rewrite digits_value_dec, N2Z.id in H. exact H.
Qed.
Lemma decimal_det n s : decimal n s -> forall s', decimal n s' -> s = s'.
Proof.
  assert (forall m s, 10 <= m -> decimal m s -> exists m' d s', m = 10 * m' + d /\ 0 < m' /\ d < 10 /\ decimal m' s' /\ s = s' ++ [48 + d]) as K.
  { intros m s0 L H. destruct H as [d Hd|m' d s' Hm Hd H]; [lia|]. exists m', d, s'. auto. }
  induction 1 as [d Hd|m d s Hm Hd H IH]; intros s' H'.
  - remember d as d' eqn:E in H'. destruct H' as [d1 Hd1|m1 d1 s1 Hm1 Hd1 H1]; subst; [reflexivity|lia].
  - destruct (K (10 * m + d) s' ltac:(lia) H') as (m' & d' & s1 & E & Hm' & Hd' & H1 & ->).
    assert (m' = m /\ d' = d) as [-> ->] by lia. rewrite (IH _ H1). reflexivity.
Qed.
Theorem decimal_iff n s : decimal n s <-> s = dec_str n.
Proof. split; [intros H; exact (decimal_det _ _ H _ (decimal_dec n))|intros ->; apply decimal_dec]. Qed.
Lemma msgstr_kw_iff i kw : msgstr_kw i kw <-> kw = msgstr_tag i.
Proof.
  unfold msgstr_kw, msgstr_tag. split.
  - intros (ds & D & ->). apply decimal_iff in D as ->. reflexivity.
  - intros ->. exists (dec_str i). split; [apply decimal_dec|reflexivity].
Qed.
Lemma msgstr_tag_inj i j : msgstr_tag i = msgstr_tag j -> i = j.
Proof.
  unfold msgstr_tag. intros E. apply app_inv_head in E. apply app_inj_tail in E as [E _]. apply dec_str_inj, E.
Qed.
