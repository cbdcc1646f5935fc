(** The escapes of the model are those of [SpecEscape]. *)
From Coq Require Import String Arith NArith ZArith Bool List Lia.
From Coq Require Hexadecimal HexadecimalFacts HexadecimalN.
From Verif Require Import ModelBase ModelLine ModelFormula ModelData ModelDebug SpecEscape.
Import ListNotations.
Local Open Scope N_scope.

Definition hex_code (c : char) : N := if c <? 58 then c - 48 else c - 87.
Definition hex_number (s : str) : N := fold_left (fun a c => 16 * a + hex_code c) s 0.
Definition hex_ok (c : char) : Prop := 48 <= c <= 57 \/ 97 <= c <= 102.
Lemma hex_letter_code c : hex_ok c -> hex_letter (hex_code c) c /\ hex_code c < 16.
Proof.
  intros H. assert (exists k, (k < 16)%nat /\ nth_error (lit "0123456789abcdef") k = Some c) as (k & K & E).
  { destruct H as [H|H]; [exists (N.to_nat (c - 48))|exists (N.to_nat (c - 87))]; (split; [lia|]).
    - assert (c = 48 + (c - 48)) as E by lia. rewrite E at 2. generalize dependent (c - 48). intros x E. assert (x < 10) as L by lia. clear - L.
      assert (In x [0;1;2;3;4;5;6;7;8;9]) as I by (cbn; lia). cbn in I. repeat (destruct I as [<-|I]; [reflexivity|]). contradiction.
    - assert (c = 87 + (c - 87)) as E by lia. rewrite E at 2. generalize dependent (c - 87). intros x E. assert (10 <= x < 16) as L by lia. clear - L.
      assert (In x [10;11;12;13;14;15]) as I by (cbn; lia). cbn in I. repeat (destruct I as [<-|I]; [reflexivity|]). contradiction. }
  do 16 (destruct k as [|k]; [injection E as <-; split; reflexivity|]). lia.
Qed.
Lemma hex_letter_det d c c' : hex_letter d c -> hex_letter d c' -> c = c'.
Proof. unfold hex_letter. congruence. Qed.
Lemma hex_letter_lt d c : hex_letter d c -> d < 16.
Proof.
  unfold hex_letter. intros H. assert (N.to_nat d < length (lit "0123456789abcdef"))%nat as L by (apply nth_error_Some; rewrite H; discriminate).
  change (length (lit "0123456789abcdef")) with 16%nat in L. lia.
Qed.
Lemma hex_number_snoc s c : hex_number (s ++ [c]) = 16 * hex_number s + hex_code c.
Proof. unfold hex_number. rewrite fold_left_app. reflexivity. Qed.
Lemma hex_chars_ok u c : In c (hex_chars u) -> hex_ok c.
Proof. unfold hex_ok. induction u; cbn [hex_chars In]; intros H; try contradiction; destruct H as [<-|H]; auto; lia. Qed.
Lemma hex_chars_acc u : forall p, fold_left (fun a c => 16 * a + hex_code c) (hex_chars u) (N.pos p) = N.pos (Pos.of_hex_uint_acc u p).
Proof.
  induction u; intros p; cbn [hex_chars fold_left Pos.of_hex_uint_acc]; [reflexivity|..]; rewrite <- IHu; f_equal; change (hex_code ?x) with (hex_code x); cbn [hex_code]; unfold hex_code;
    match goal with |- _ + (if ?b then _ else _) = _ => let v := eval vm_compute in b in change b with v end; cbn iota;
    match goal with |- _ + (?a - ?b) = _ => let v := eval vm_compute in (a - b) in change (a - b) with v end; lia.
Qed.
Lemma hex_chars_number u : hex_number (hex_chars u) = N.of_hex_uint u.
Proof.
  unfold hex_number, N.of_hex_uint. induction u; cbn [hex_chars fold_left Pos.of_hex_uint]; [reflexivity|exact IHu|..];
    match goal with |- fold_left _ _ ?a = _ => let v := eval vm_compute in a in change a with v end; apply hex_chars_acc.
Qed.
Lemma hex_str_number n : hex_number (hex_str n) = n.
Proof. unfold hex_str. rewrite hex_chars_number. apply HexadecimalN.Unsigned.of_to. Qed.
Lemma hex_str_nonempty n : hex_str n <> [].
Proof.
  unfold hex_str. destruct (N.to_hex_uint n) eqn:U; try discriminate. exfalso.
  assert (N.of_hex_uint (N.to_hex_uint n) = 0) as E by (rewrite U; reflexivity).
  rewrite HexadecimalN.Unsigned.of_to in E. subst. discriminate.
Qed.
Lemma hex_str_first n r : hex_str n = 48 :: r -> r = [].
Proof.
  unfold hex_str. intros E. destruct (N.to_hex_uint n) as [|u|u|u|u|u|u|u|u|u|u|u|u|u|u|u|u] eqn:U; try discriminate. cbn [hex_chars] in E. injection E as <-.
  assert (Hexadecimal.unorm (Hexadecimal.D0 u) = Hexadecimal.D0 u) as K.
  { rewrite <- U. rewrite <- HexadecimalN.Unsigned.to_of, HexadecimalN.Unsigned.of_to. reflexivity. }
  rewrite HexadecimalFacts.unorm_D0 in K. destruct (hex_chars u) eqn:E; [reflexivity|]. exfalso.
  assert (u <> Hexadecimal.Nil) as NN by (intros ->; discriminate).
  pose proof (HexadecimalFacts.nb_digits_unorm u NN) as L. rewrite K in L. cbn in L. lia.
Qed.
Lemma hex_number_pos s : (exists d r, s = d :: r /\ d <> 48 /\ hex_ok d) -> 0 < hex_number s.
Proof.
  induction s as [|x s IH] using rev_ind; intros (d & r & E & N & O); [discriminate|]. rewrite hex_number_snoc.
  destruct s as [|y s].
  - cbn [app] in E. injection E as -> _. cbn. unfold hex_code, hex_ok in *. destruct (d <? 58) eqn:L; [apply N.ltb_lt in L|apply N.ltb_ge in L]; lia.
  - assert (0 < hex_number (y :: s)); [|lia]. apply IH. cbn [app] in E. injection E as -> _. eauto.
Qed.
Lemma hexadecimal_value s : s <> [] -> (forall c, In c s -> hex_ok c) -> (forall r, s = 48 :: r -> r = []) -> hexadecimal (hex_number s) s.
Proof.
  induction s as [|d s IH] using rev_ind; intros NE D Z0; [contradiction|].
  assert (hex_ok d) as Hd by (apply D, in_or_app; right; left; reflexivity).
  assert (forall c, In c s -> hex_ok c) as Ds by (intros c I; apply D, in_or_app; left; exact I).
  destruct (hex_letter_code d Hd) as [Ld _]. rewrite hex_number_snoc. destruct s as [|x s].
  - apply hx_digit. exact Ld.
  - assert (x <> 48) as Nx by (intros ->; specialize (Z0 (s ++ [d]) eq_refl); destruct s; discriminate).
    apply hx_more; [|exact Ld|].
    + apply hex_number_pos. exists x, s. split; [reflexivity|]. split; [exact Nx|]. apply Ds. left; reflexivity.
    + apply IH; [discriminate|exact Ds|]. intros r [= E _]. contradiction.
Qed.
Lemma hexadecimal_hex n : hexadecimal n (hex_str n).
Proof.
  pose proof (hexadecimal_value (hex_str n) (hex_str_nonempty n) (hex_chars_ok _) (hex_str_first n)) as H. rewrite hex_str_number in H. exact H.
Qed.
Lemma hexadecimal_det n s : hexadecimal n s -> forall s', hexadecimal n s' -> s = s'.
Proof.
  assert (forall m s, 16 <= m -> hexadecimal m s -> exists m' d c s', m = 16 * m' + d /\ 0 < m' /\ hex_letter d c /\ hexadecimal m' s' /\ s = s' ++ [c]) as K.
  { intros m s0 L H. destruct H as [d c Hd|m' d c s' Hm Hd H]; [apply hex_letter_lt in Hd; lia|]. exists m', d, c, s'. auto. }
  induction 1 as [d c Hd|m d c s Hm Hd H IH]; intros s' H'.
  - remember d as d' eqn:E in H'. destruct H' as [d1 c1 Hd1|m1 d1 c1 s1 Hm1 Hd1 H1]; subst.
    + rewrite (hex_letter_det _ _ _ Hd Hd1). reflexivity.
    + apply hex_letter_lt in Hd. lia.
  - destruct (K (16 * m + d) s' ltac:(lia) H') as (m' & d' & c' & s1 & E & Hm' & Hd' & H1 & ->).
    pose proof (hex_letter_lt _ _ Hd). pose proof (hex_letter_lt _ _ Hd').
    assert (m' = m /\ d' = d) as [-> ->] by lia. rewrite (IH _ H1), (hex_letter_det _ _ _ Hd Hd'). reflexivity.
Qed.

Section Escapes.
Variable shown : char -> bool.
Lemma escape_as_stated q c : (forall d, In (q, d) (special q) -> d = q) -> escape_text shown q c (debug_escape shown q c).
Proof.
  intros Q. unfold debug_escape.
  destruct (c =? 0) eqn:E0; [apply N.eqb_eq in E0 as ->; apply et_code; cbn; auto|].
  destruct (c =? 9) eqn:E9; [apply N.eqb_eq in E9 as ->; apply et_code; cbn; auto|].
  destruct (c =? 13) eqn:E13; [apply N.eqb_eq in E13 as ->; apply et_code; cbn; auto|].
  destruct (c =? 10) eqn:E10; [apply N.eqb_eq in E10 as ->; apply et_code; cbn; auto|].
  destruct (c =? 92) eqn:E92; [apply N.eqb_eq in E92 as ->; apply et_code; cbn; auto 6|].
  destruct (c =? q) eqn:Eq; [apply N.eqb_eq in Eq as ->; apply et_code; cbn; auto 7|].
  apply N.eqb_neq in E0, E9, E13, E10, E92, Eq.
  assert (~ In c (map fst (special q))) as NI by (cbn; intuition congruence).
  destruct (shown c) eqn:S; [apply et_shown; assumption|apply et_number; [assumption|assumption|apply hexadecimal_hex]].
Qed.
Lemma escape_text_det q c s t : In q [34; 39] -> escape_text shown q c s -> escape_text shown q c t -> s = t.
Proof.
  intros Q H1 H2.
  destruct H1 as [c d I|c N1 S1|c ds N1 S1 X1]; inversion H2 as [c' d' I'|c' N2 S2|c' ds' N2 S2 X2]; subst; try congruence;
    try (exfalso; match goal with [N : ~ In ?c _, J : In (?c, _) _ |- _] => apply N; exact (in_map fst _ _ J) end; fail).
  - assert (d = d') as ->; [|reflexivity]. cbn in Q. destruct Q as [<-|[<-|[]]]; cbn in I, I';
      repeat (destruct I as [I|I]; [injection I as <- <-; repeat (destruct I' as [I'|I']; [first [discriminate I'|injection I' as <-; reflexivity]|]); contradiction|]); contradiction.
  - rewrite (hexadecimal_det _ _ X1 _ X2). reflexivity.
Qed.
Theorem escape_exact q c s : In q [34; 39] -> (debug_escape shown q c = s <-> escape_text shown q c s).
Proof.
  intros Q. assert (escape_text shown q c (debug_escape shown q c)) as H.
  { apply escape_as_stated. intros d I. cbn in Q. destruct Q as [<-|[<-|[]]]; cbn in I; intuition congruence. }
  split; [intros <-; exact H|]. intros H'. exact (escape_text_det q c _ _ Q H H').
Qed.
Theorem strings_exact s t : debug_str shown s = t <-> quoted_text shown s t.
Proof.
  assert (forall c x, debug_escape shown 34 c = x <-> escape_text shown 34 c x) as E by (intros c x; apply escape_exact; left; reflexivity).
  unfold debug_str, quoted_text. split.
  - intros <-. exists (map (debug_escape shown 34) s). rewrite flat_map_concat_map. split; [|reflexivity].
    induction s as [|c s IH]; cbn [map]; [apply Forall2_nil|]. apply Forall2_cons; [apply E; reflexivity|exact IH].
  - intros (ts & F & ->). rewrite flat_map_concat_map. do 3 f_equal.
    induction F as [|c x s ts H F IH]; cbn [map]; [reflexivity|]. apply E in H. rewrite H, IH. reflexivity.
Qed.
Theorem char_exact c t : debug_char shown c = t <-> exists x, escape_text shown 39 c x /\ t = [39] ++ x ++ [39].
Proof.
  assert (forall x, debug_escape shown 39 c = x <-> escape_text shown 39 c x) as E by (intros x; apply escape_exact; right; left; reflexivity).
  unfold debug_char. split.
  - intros <-. eexists. split; [apply E; reflexivity|reflexivity].
  - intros (x & H & ->). apply E in H. rewrite H. reflexivity.
Qed.
End Escapes.
