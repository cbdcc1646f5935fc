(** Facts about UTF-8 and the byte source. *)
From Coq Require Import String Arith NArith ZArith Bool List Lia.
From Verif Require Import ModelBase ModelUtf8 ModelLine ModelData ModelSource SpecLine SpecSource BaseFacts LineFacts.
Import ListNotations.
Local Open Scope N_scope.
Ltac Zify.zify_post_hook ::= Z.to_euclidean_division_equations.

(** * UTF-8 *)
Lemma scalars_cons c s : scalars (c :: s) <-> scalar c /\ scalars s.
Proof.
  unfold scalars. cbn [In]. split.
  - intros H; split; [apply H; auto|intros x Hx; apply H; auto].
  - intros [H1 H2] x [<-|Hx]; auto.
Qed.
Lemma scalars_app a b : scalars (a ++ b) <-> scalars a /\ scalars b.
Proof.
  unfold scalars. split.
  - intros H; split; intros c Hc; apply H, in_app_iff; auto.
  - intros [H1 H2] c Hc. apply in_app_iff in Hc as [Hc|Hc]; auto.
Qed.
Lemma utf8_app a b : utf8 (a ++ b) = utf8 a ++ utf8 b.
Proof. apply flat_map_app. Qed.

Lemma decode_char c r : scalar c -> utf8_decode (encode_char c ++ r) = option_map (cons c) (utf8_decode r).
Proof.
  intros Hc. unfold scalar in Hc. unfold encode_char.
  destruct (N.ltb_spec c 128) as [H1|H1].
  - cbn [app utf8_decode]. destruct (N.ltb_spec c 128); [reflexivity|lia].
  - destruct (N.ltb_spec c 2048) as [H2|H2].
    + cbn [app utf8_decode]. unfold in_range, is_cont, in_range.
      assert (192 + c / 64 <? 128 = false) as -> by lia.
      assert ((194 <=? 192 + c / 64) && (192 + c / 64 <=? 223) = true) as -> by lia.
      assert ((128 <=? 128 + c mod 64) && (128 + c mod 64 <=? 191) = true) as -> by lia.
      assert ((192 + c / 64 - 192) * 64 + (128 + c mod 64 - 128) = c) as -> by lia. reflexivity.
    + destruct (N.ltb_spec c 65536) as [H3|H3].
      * cbn [app utf8_decode]. unfold in_range, is_cont, in_range.
        assert (224 + c / 4096 <? 128 = false) as -> by lia.
        assert ((194 <=? 224 + c / 4096) && (224 + c / 4096 <=? 223) = false) as -> by lia.
        assert ((224 <=? 224 + c / 4096) && (224 + c / 4096 <=? 239) = true) as -> by lia.
        assert ((if 224 + c / 4096 =? 224 then (160 <=? 128 + c / 64 mod 64) && (128 + c / 64 mod 64 <=? 191)
                 else if 224 + c / 4096 =? 237 then (128 <=? 128 + c / 64 mod 64) && (128 + c / 64 mod 64 <=? 159)
                 else (128 <=? 128 + c / 64 mod 64) && (128 + c / 64 mod 64 <=? 191))
                && ((128 <=? 128 + c mod 64) && (128 + c mod 64 <=? 191)) = true) as ->.
        { destruct (N.eqb_spec (224 + c / 4096) 224); [lia|].
          destruct (N.eqb_spec (224 + c / 4096) 237); lia. }
        assert ((224 + c / 4096 - 224) * 4096 + (128 + c / 64 mod 64 - 128) * 64 + (128 + c mod 64 - 128) = c) as -> by lia.
        reflexivity.
      * cbn [app utf8_decode]. unfold in_range, is_cont, in_range.
        assert (240 + c / 262144 <? 128 = false) as -> by lia.
        assert ((194 <=? 240 + c / 262144) && (240 + c / 262144 <=? 223) = false) as -> by lia.
        assert ((224 <=? 240 + c / 262144) && (240 + c / 262144 <=? 239) = false) as -> by lia.
        assert ((240 <=? 240 + c / 262144) && (240 + c / 262144 <=? 244) = true) as -> by lia.
        assert ((if 240 + c / 262144 =? 240 then (144 <=? 128 + c / 4096 mod 64) && (128 + c / 4096 mod 64 <=? 191)
                 else if 240 + c / 262144 =? 244 then (128 <=? 128 + c / 4096 mod 64) && (128 + c / 4096 mod 64 <=? 143)
                 else (128 <=? 128 + c / 4096 mod 64) && (128 + c / 4096 mod 64 <=? 191))
                && ((128 <=? 128 + c / 64 mod 64) && (128 + c / 64 mod 64 <=? 191))
                && ((128 <=? 128 + c mod 64) && (128 + c mod 64 <=? 191)) = true) as ->.
        { destruct (N.eqb_spec (240 + c / 262144) 240); [lia|].
          destruct (N.eqb_spec (240 + c / 262144) 244); lia. }
        assert ((240 + c / 262144 - 240) * 262144 + (128 + c / 4096 mod 64 - 128) * 4096
                + (128 + c / 64 mod 64 - 128) * 64 + (128 + c mod 64 - 128) = c) as -> by lia.
        reflexivity.
Qed.
Lemma decode_utf8 s : scalars s -> utf8_decode (utf8 s) = Some s.
Proof.
  induction s as [|c s IH]; intros H; [reflexivity|].
  apply scalars_cons in H as [Hc Hs]. cbn [utf8 flat_map]. fold (utf8 s).
  rewrite decode_char by exact Hc. rewrite IH by exact Hs. reflexivity.
Qed.

Lemma encode_2 b0 b1 : 194 <= b0 <= 223 -> 128 <= b1 <= 191 ->
  let c := (b0 - 192) * 64 + (b1 - 128) in scalar c /\ encode_char c = [b0; b1].
Proof.
  intros H0 H1 c. unfold scalar, encode_char.
  assert (c < 55296) by (unfold c; lia).
  assert (c <? 128 = false) as -> by (unfold c; lia).
  assert (c <? 2048 = true) as -> by (unfold c; lia).
  split; [lia|]. f_equal; [unfold c; lia|]. f_equal. unfold c; lia.
Qed.
Lemma encode_3 b0 b1 b2 : 224 <= b0 <= 239 -> 128 <= b1 <= 191 -> 128 <= b2 <= 191 ->
  (b0 = 224 -> 160 <= b1) -> (b0 = 237 -> b1 <= 159) ->
  let c := (b0 - 224) * 4096 + (b1 - 128) * 64 + (b2 - 128) in scalar c /\ encode_char c = [b0; b1; b2].
Proof.
  intros H0 H1 H2 Ha Hb c. unfold scalar, encode_char.
  assert (c <? 128 = false) as -> by (unfold c; lia).
  assert (c <? 2048 = false) as -> by (unfold c; lia).
  assert (c <? 65536 = true) as -> by (unfold c; lia).
  split; [unfold c; lia|]. f_equal; [unfold c; lia|]. f_equal; [unfold c; lia|]. f_equal. unfold c; lia.
Qed.
Lemma encode_4 b0 b1 b2 b3 : 240 <= b0 <= 244 -> 128 <= b1 <= 191 -> 128 <= b2 <= 191 -> 128 <= b3 <= 191 ->
  (b0 = 240 -> 144 <= b1) -> (b0 = 244 -> b1 <= 143) ->
  let c := (b0 - 240) * 262144 + (b1 - 128) * 4096 + (b2 - 128) * 64 + (b3 - 128) in
  scalar c /\ encode_char c = [b0; b1; b2; b3].
Proof.
  intros H0 H1 H2 H3 Ha Hb c. unfold scalar, encode_char.
  assert (c <? 128 = false) as -> by (unfold c; lia).
  assert (c <? 2048 = false) as -> by (unfold c; lia).
  assert (c <? 65536 = false) as -> by (unfold c; lia).
  split; [unfold c; lia|]. f_equal; [unfold c; lia|]. f_equal; [unfold c; lia|]. f_equal; [unfold c; lia|].
  f_equal. unfold c; lia.
Qed.

Lemma option_map_some {A B} (f : A -> B) o y : option_map f o = Some y -> exists x, o = Some x /\ y = f x.
Proof. destruct o; cbn; [intros [= <-]; eauto|discriminate]. Qed.

Lemma utf8_decode_some_len k : forall bs s, (length bs <= k)%nat -> utf8_decode bs = Some s -> scalars s /\ bs = utf8 s.
Proof.
  induction k as [|k IH]; intros [|b0 r0] s Hk H; cbn [length] in Hk; try lia.
  1,2: cbn in H; injection H as <-; split; [intros c []|reflexivity].
  cbn [utf8_decode] in H. unfold is_cont, in_range in H.
  destruct (N.ltb_spec b0 128) as [L|L].
  { apply option_map_some in H as (s' & H & ->). apply IH in H as [Hs ->]; [|lia].
    split; [apply scalars_cons; split; [unfold scalar; lia|exact Hs]|].
    cbn [utf8 flat_map]. unfold encode_char. destruct (N.ltb_spec b0 128); [reflexivity|lia]. }
  destruct ((194 <=? b0) && (b0 <=? 223)) eqn:E2.
  { destruct r0 as [|b1 r1]; [discriminate|].
    destruct ((128 <=? b1) && (b1 <=? 191)) eqn:C1; [|discriminate].
    apply option_map_some in H as (s' & H & ->). cbn [length] in Hk. apply IH in H as [Hs ->]; [|lia].
    destruct (encode_2 b0 b1 ltac:(lia) ltac:(lia)) as [Sc En].
    split; [apply scalars_cons; auto|]. cbn [utf8 flat_map]. rewrite En. reflexivity. }
  destruct ((224 <=? b0) && (b0 <=? 239)) eqn:E3.
  { destruct r0 as [|b1 [|b2 r2]]; [discriminate|discriminate|].
    match type of H with (if ?x then _ else _) = _ => destruct x eqn:C1; [|discriminate] end.
    apply option_map_some in H as (s' & H & ->). cbn [length] in Hk. apply IH in H as [Hs ->]; [|lia].
    destruct (encode_3 b0 b1 b2 ltac:(lia)) as [Sc En];
      try (destruct (N.eqb_spec b0 224); [|destruct (N.eqb_spec b0 237)]; lia).
    split; [apply scalars_cons; auto|]. cbn [utf8 flat_map]. rewrite En. reflexivity. }
  destruct ((240 <=? b0) && (b0 <=? 244)) eqn:E4; [|discriminate].
  destruct r0 as [|b1 [|b2 [|b3 r3]]]; [discriminate|discriminate|discriminate|].
  match type of H with (if ?x then _ else _) = _ => destruct x eqn:C1; [|discriminate] end.
  apply option_map_some in H as (s' & H & ->). cbn [length] in Hk. apply IH in H as [Hs ->]; [|lia].
  destruct (encode_4 b0 b1 b2 b3 ltac:(lia)) as [Sc En];
    try (destruct (N.eqb_spec b0 240); [|destruct (N.eqb_spec b0 244)]; lia).
  split; [apply scalars_cons; auto|]. cbn [utf8 flat_map]. rewrite En. reflexivity.
Qed.
Theorem utf8_decode_iff bs s : utf8_decode bs = Some s <-> scalars s /\ bs = utf8 s.
Proof.
  split.
  - exact (utf8_decode_some_len (length bs) bs s (le_n _)).
  - intros [H ->]. apply decode_utf8, H.
Qed.
Lemma utf8_inj s s' : scalars s -> scalars s' -> utf8 s = utf8 s' -> s = s'.
Proof.
  intros H H' E. apply decode_utf8 in H, H'. rewrite E in H. congruence.
Qed.
Lemma utf8_decode_none bs : utf8_decode bs = None <-> not_utf8 bs.
Proof.
  split.
  - intros H s Hs ->. rewrite decode_utf8 in H by exact Hs. discriminate.
  - intros H. destruct (utf8_decode bs) as [s|] eqn:E; [|reflexivity].
    apply utf8_decode_iff in E as [Hs ->]. exfalso. exact (H s Hs eq_refl).
Qed.

(** ASCII characters are their own encoding and occur in no other one. *)
Lemma encode_char_ascii c b : In b (encode_char c) -> b < 128 -> c = b.
Proof.
  unfold encode_char. destruct (N.ltb_spec c 128); [cbn; intros [->|[]]; reflexivity|].
  destruct (N.ltb_spec c 2048); [|destruct (N.ltb_spec c 65536)]; cbn [In]; intros Hb Hl; exfalso; lia.
Qed.
Lemma utf8_in_ascii b s : b < 128 -> (In b (utf8 s) <-> In b s).
Proof.
  intros Hb. unfold utf8. rewrite in_flat_map. split.
  - intros (c & Hc & Hi). apply encode_char_ascii in Hi; [|exact Hb]. subst; exact Hc.
  - intros H. exists b. split; [exact H|]. unfold encode_char. destruct (N.ltb_spec b 128); [left; reflexivity|lia].
Qed.
Lemma utf8_nil s : utf8 s = [] -> s = [].
Proof.
  destruct s as [|c s]; [reflexivity|]. cbn [utf8 flat_map]. unfold encode_char.
  destruct (c <? 128); [discriminate|]. destruct (c <? 2048); [discriminate|]. destruct (c <? 65536); discriminate.
Qed.
Lemma utf8_app_ascii s b r : b < 128 -> utf8 (s ++ b :: r) = utf8 s ++ b :: utf8 r.
Proof.
  intros Hb. rewrite utf8_app. f_equal. cbn [utf8 flat_map]. unfold encode_char.
  destruct (N.ltb_spec b 128); [reflexivity|lia].
Qed.
Lemma encode_char_snoc c : exists l b, encode_char c = l ++ [b] /\ (b < 128 -> l = [] /\ c = b).
Proof.
  unfold encode_char.
  destruct (N.ltb_spec c 128); [exists [], c; auto|].
  destruct (N.ltb_spec c 2048); [exists [192 + c / 64], (128 + c mod 64); split; [reflexivity|lia]|].
  destruct (N.ltb_spec c 65536).
  - exists [224 + c / 4096; 128 + c / 64 mod 64], (128 + c mod 64); split; [reflexivity|lia].
  - exists [240 + c / 262144; 128 + c / 4096 mod 64; 128 + c / 64 mod 64], (128 + c mod 64); split; [reflexivity|lia].
Qed.
Lemma utf8_snoc_ascii s l b : b < 128 -> utf8 s = l ++ [b] -> exists s', s = s' ++ [b] /\ l = utf8 s'.
Proof.
  intros Hb. induction s as [|c s _] using rev_ind; intros E; [destruct l; discriminate|].
  rewrite utf8_app in E. cbn [utf8 flat_map] in E. rewrite app_nil_r in E.
  destruct (encode_char_snoc c) as (l' & b' & Ec & Hb'). rewrite Ec, app_assoc in E.
  apply app_inj_tail in E as [E ->]. destruct (Hb' Hb) as [-> ->]. rewrite app_nil_r in E.
  exists s. split; [reflexivity|symmetry; exact E].
Qed.
Lemma not_utf8_snoc l b : b < 128 -> not_utf8 l -> not_utf8 (l ++ [b]).
Proof.
  intros Hb H s Hs E. symmetry in E. destruct (utf8_snoc_ascii s l b Hb E) as (s' & -> & ->).
  apply scalars_app in Hs as [Hs _]. exact (H s' Hs eq_refl).
Qed.

(** * Line feeds *)
Lemma split_lf_some b l r : split_lf b = Some (l, r) <-> exists l', l = l' ++ [10] /\ ~ In 10 l' /\ b = l' ++ 10 :: r.
Proof.
  revert l r; induction b as [|x b IH]; intros l r; cbn [split_lf].
  - split; [discriminate|]. intros (l' & _ & _ & E). destruct l'; discriminate.
  - destruct (N.eqb_spec x 10) as [->|Hx].
    + split.
      * intros [= <- <-]. exists []. repeat split. intros [].
      * intros (l' & -> & Hn & E). destruct l' as [|y l'].
        -- injection E as ->. reflexivity.
        -- injection E as <- E. exfalso. apply Hn. left; reflexivity.
    + destruct (split_lf b) as [[l0 r0]|] eqn:F.
      * split.
        -- intros [= <- <-]. destruct (proj1 (IH l0 r0) eq_refl) as (l' & -> & Hn & ->).
           exists (x :: l'). repeat split. intros [E|E]; [exact (Hx E)|exact (Hn E)].
        -- intros (l' & -> & Hn & E). destruct l' as [|y l']; [injection E as E _; contradiction|].
           injection E as <- E.
           assert (Some (l0, r0) = Some (l' ++ [10], r)) as [= -> ->].
           { apply IH. exists l'. repeat split; [|exact E]. intros H; apply Hn; right; exact H. }
           reflexivity.
      * split; [discriminate|]. intros (l' & -> & Hn & E). destruct l' as [|y l']; [injection E as E _; contradiction|].
        injection E as <- E. assert (None = Some (l' ++ [10], r)) as F'; [|discriminate F'].
        apply IH. exists l'. repeat split; [|exact E]. intros H; apply Hn; right; exact H.
Qed.
Lemma split_lf_none b : split_lf b = None <-> ~ In 10 b.
Proof.
  induction b as [|x b IH]; cbn [split_lf In]; [split; auto|].
  destruct (N.eqb_spec x 10) as [->|Hx].
  - split; [discriminate|]. intros H; exfalso; auto.
  - destruct (split_lf b) as [[l r]|].
    + split; [discriminate|]. intros H. assert (~ In 10 b) as H' by tauto. apply IH in H'. discriminate.
    + split; [|reflexivity]. intros _ [E|E]; [exact (Hx E)|]. apply (proj1 IH eq_refl E).
Qed.
Lemma split_lf_app a b : ~ In 10 a ->
  split_lf (a ++ b) = match split_lf b with Some (l, r) => Some (a ++ l, r) | None => None end.
Proof.
  intros H. induction a as [|x a IH]; cbn [app split_lf]; [destruct (split_lf b) as [[? ?]|]; reflexivity|].
  destruct (N.eqb_spec x 10) as [->|Hx]; [exfalso; apply H; left; reflexivity|].
  rewrite IH by (intros F; apply H; right; exact F). destruct (split_lf b) as [[? ?]|]; reflexivity.
Qed.

(** * [read_until] *)
(** The source will deliver the bytes [bs], then [f]. *)
Definition holds (s : source) (bs : list byte) (f : option N) : Prop :=
  exists bs', delivers (s_events s) bs' f /\ bs = s_buf s ++ bs'.

Lemma read_until_events_spec evs bs f : delivers evs bs f -> forall acc, ~ In 10 acc ->
  match split_lf bs with
  | Some (l, r) => exists s', read_until_events acc evs = (inl (acc ++ l), s') /\ holds s' r f
  | None => match f with
            | None => exists s', read_until_events acc evs = (inl (acc ++ bs), s') /\ holds s' [] None
            | Some code => exists s', read_until_events acc evs = (inr code, s')
            end
  end.
Proof.
  induction 1 as [|code evs|evs bs f H IH|d evs bs f Hd H IH|evs H IH]; intros acc Ha.
  - cbn. rewrite app_nil_r. eexists; split; [reflexivity|]. exists []. split; [constructor|reflexivity].
  - cbn. eexists; reflexivity.
  - cbn [read_until_events]. apply IH, Ha.
  - destruct d as [|x d]; [contradiction|]. set (dd := x :: d) in *.
    assert (read_until_events acc (RdData dd :: evs) =
            match split_lf dd with
            | Some (l, r) => (inl (acc ++ l), Source r evs)
            | None => read_until_events (acc ++ dd) evs
            end) as -> by reflexivity.
    destruct (split_lf dd) as [[l r]|] eqn:F.
    + apply split_lf_some in F as (l' & El & Hn & Ed).
      assert (split_lf (dd ++ bs) = Some (l, r ++ bs)) as ->.
      { apply split_lf_some. exists l'. repeat split; try assumption. rewrite Ed, <- app_assoc. reflexivity. }
      eexists; split; [reflexivity|]. exists bs. split; [exact H|reflexivity].
    + apply split_lf_none in F. rewrite split_lf_app by exact F.
      assert (~ In 10 (acc ++ dd)) as Hn by (rewrite in_app_iff; tauto).
      specialize (IH _ Hn). destruct (split_lf bs) as [[l r]|].
      * destruct IH as (s' & -> & Hs). exists s'. rewrite <- app_assoc. auto.
      * destruct f; [exact IH|]. destruct IH as (s' & -> & Hs). exists s'. rewrite <- app_assoc. auto.
  - cbn. rewrite app_nil_r. eexists; split; [reflexivity|]. exists []. split; [exact H|reflexivity].
Qed.
Lemma read_until_spec s bs f : holds s bs f ->
  match split_lf bs with
  | Some (l, r) => exists s', read_until s = (inl l, s') /\ holds s' r f
  | None => match f with
            | None => exists s', read_until s = (inl bs, s') /\ holds s' [] None
            | Some code => exists s', read_until s = (inr code, s')
            end
  end.
Proof.
  intros (bs' & Hd & ->). destruct s as [buf evs]. cbn [s_buf s_events] in *. unfold read_until. cbn [s_buf s_events].
  destruct (split_lf buf) as [[l r]|] eqn:F.
  - apply split_lf_some in F as (l' & El & Hn & Ed).
    assert (split_lf (buf ++ bs') = Some (l, r ++ bs')) as ->.
    { apply split_lf_some. exists l'. repeat split; try assumption. rewrite Ed, <- app_assoc. reflexivity. }
    eexists; split; [reflexivity|]. exists bs'. split; [exact Hd|reflexivity].
  - apply split_lf_none in F. rewrite split_lf_app by exact F.
    pose proof (read_until_events_spec evs bs' f Hd buf F) as R.
    destruct (split_lf bs') as [[l r]|]; exact R.
Qed.

(** * [Lines::next] *)
Lemma chop_lf s : ~ ends_with_cr s -> chop_eol (s ++ [10]) = s.
Proof.
  intros H. unfold chop_eol. rewrite rev_app_distr. cbn [rev app N.eqb Pos.eqb].
  destruct (rev s) as [|y r] eqn:E.
  - apply (f_equal (@rev _)) in E. rewrite rev_involutive in E. subst; reflexivity.
  - destruct (N.eqb_spec y 13) as [->|Hy].
    + exfalso. apply H. exists (rev r). apply (f_equal (@rev _)) in E. rewrite rev_involutive in E. exact E.
    + apply (f_equal (@rev _)) in E. rewrite rev_involutive in E. rewrite E. reflexivity.
Qed.
Lemma chop_crlf s : chop_eol (s ++ [13; 10]) = s.
Proof.
  unfold chop_eol. rewrite rev_app_distr. cbn [rev app N.eqb Pos.eqb]. apply rev_involutive.
Qed.
Lemma chop_none s : one_line s -> chop_eol s = s.
Proof.
  intros H. unfold chop_eol. destruct (rev s) as [|x r] eqn:E.
  - apply (f_equal (@rev _)) in E. rewrite rev_involutive in E. symmetry; exact E.
  - destruct (N.eqb_spec x 10) as [->|_]; [|reflexivity].
    exfalso. apply H, in_rev. exact (eq_ind_r (In 10) (in_eq 10 r) E).
Qed.

Lemma lines_next_spec s bs f ls e : contents bs f ls e -> holds s bs f ->
  match ls with
  | l :: ls' => exists s' bs', lines_next s = (Some (inl l), s') /\ contents bs' f ls' e /\ holds s' bs' f
  | [] => match e with
          | None => exists s', lines_next s = (None, s') /\ holds s' [] None
          | Some e => exists s', lines_next s = (Some (inr e), s')
          end
  end.
Proof.
  intros C Hs. pose proof (read_until_spec s bs f Hs) as R. unfold lines_next.
  destruct C as [|t Ht Hl Hsc|l Hl Hb|l code Hl|t x bs f ls e Hl Hsc He C|l bs f Hl Hb].
  - cbn in R. destruct R as (s' & -> & Hs'). eexists; split; [reflexivity|exact Hs'].
  - assert (split_lf (utf8 t) = None) as E.
    { apply split_lf_none. rewrite utf8_in_ascii by reflexivity. exact Hl. }
    rewrite E in R. destruct R as (s' & R & Hs'). rewrite R. destruct (utf8 t) as [|b0 r0] eqn:Eu; [apply utf8_nil in Eu; contradiction|].
    rewrite <- Eu, decode_utf8 by exact Hsc. exists s', []. rewrite chop_none by exact Hl.
    split; [reflexivity|]. split; [constructor|exact Hs'].
  - assert (split_lf l = None) as E by (apply split_lf_none; exact Hl).
    rewrite E in R. destruct R as (s' & R & Hs'). rewrite R. destruct l as [|b0 r0]; [exfalso; apply (Hb []); [intros ? []|reflexivity]|].
    apply utf8_decode_none in Hb. rewrite Hb. eexists; reflexivity.
  - assert (split_lf l = None) as E by (apply split_lf_none; exact Hl).
    rewrite E in R. destruct R as (s' & ->). eexists; reflexivity.
  - assert (exists y, x = y ++ [10] /\ ~ In 10 (utf8 t ++ y) /\ utf8 t ++ y ++ [10] = utf8 (t ++ y ++ [10])
              /\ scalars (t ++ y ++ [10]) /\ chop_eol (t ++ y ++ [10]) = t) as (y & -> & Hn & Eu & Hsc' & Ech).
    { assert (~ In 10 (utf8 t)) as Hu by (rewrite utf8_in_ascii by reflexivity; exact Hl).
      destruct He.
      - exists []. split; [reflexivity|]. rewrite app_nil_r. split; [exact Hu|].
        split; [cbn [app]; rewrite utf8_app_ascii by reflexivity; reflexivity|].
        split; [|apply chop_lf; assumption].
        apply scalars_app; split; [exact Hsc|]. intros c [<-|[]]; left; reflexivity.
      - exists [13]. split; [reflexivity|]. split; [rewrite in_app_iff; cbn; intros [?|[?|[]]]; [auto|discriminate]|].
        split; [cbn [app]; rewrite utf8_app_ascii by reflexivity; f_equal|].
        split; [|apply chop_crlf].
        apply scalars_app; split; [exact Hsc|]. intros c [<-|[<-|[]]]; left; reflexivity. }
    assert (split_lf (utf8 t ++ (y ++ [10]) ++ bs) = Some ((utf8 t ++ y) ++ [10], bs)) as E.
    { apply split_lf_some. exists (utf8 t ++ y). repeat split; [exact Hn|]. rewrite <- !app_assoc. reflexivity. }
    match type of R with context[split_lf ?z] => change (split_lf z) with (split_lf (utf8 t ++ (y ++ [10]) ++ bs)) in R end.
    rewrite E in R. destruct R as (s' & R & Hs').
    assert (read_until s = (inl (utf8 (t ++ y ++ [10])), s')) as ->.
    { etransitivity; [exact R|]. f_equal; f_equal. etransitivity; [|exact Eu]. symmetry; apply app_assoc. }
    destruct (utf8 (t ++ y ++ [10])) as [|b0 r0] eqn:E0.
    { rewrite <- Eu in E0. destruct (utf8 t); [destruct y|]; discriminate. }
    rewrite <- E0, decode_utf8 by exact Hsc'. rewrite Ech. exists s', bs. auto.
  - assert (split_lf (l ++ 10 :: bs) = Some (l ++ [10], bs)) as E by (apply split_lf_some; exists l; auto).
    rewrite E in R. destruct R as (s' & -> & Hs').
    destruct (l ++ [10]) as [|b0 r0] eqn:E0; [destruct l; discriminate|]. rewrite <- E0.
    apply (not_utf8_snoc l 10 ltac:(lia)), utf8_decode_none in Hb.
    match goal with |- context[utf8_decode ?z] => change (utf8_decode z) with (utf8_decode (l ++ [10])) end.
    assert (utf8_decode (l ++ [10]) = None) as -> by exact Hb. eexists; reflexivity.
Qed.

(** Every stream has contents, and only one. *)
Lemma ends_with_cr_dec s : ends_with_cr s \/ ~ ends_with_cr s.
Proof.
  destruct (rev s) as [|x r] eqn:E; apply (f_equal (@rev _)) in E; rewrite rev_involutive in E; subst s.
  - right. intros (s' & E). destruct s'; discriminate.
  - cbn [rev]. destruct (N.eq_dec x 13) as [->|Hx]; [left; eexists; reflexivity|].
    right. intros (s' & E). apply app_inj_tail in E as [_ E]. contradiction.
Qed.
Lemma contents_total_len k : forall bs f, (length bs <= k)%nat -> exists ls e, contents bs f ls e.
Proof.
  induction k as [|k IH]; intros bs f Hk.
  - destruct bs; cbn in Hk; [|lia]. destruct f as [code|].
    + eexists _, _; apply ct_fail. intros [].
    + eexists _, _; apply ct_end.
  - destruct (split_lf bs) as [[l r]|] eqn:F.
    + apply split_lf_some in F as (l' & -> & Hn & ->).
      destruct (utf8_decode l') as [s|] eqn:D.
      * apply utf8_decode_iff in D as [Hs ->].
        destruct (IH r f) as (ls & e & C); [unfold byte, char, str in *; rewrite app_length in Hk; cbn in Hk; lia|].
        assert (one_line s) as Hl by (rewrite utf8_in_ascii in Hn by reflexivity; exact Hn).
        destruct (ends_with_cr_dec s) as [(s' & ->)|Hc].
        -- exists (s' :: ls), e. rewrite utf8_app_ascii by reflexivity. cbn [utf8 flat_map]. rewrite <- app_assoc.
           change ([13] ++ 10 :: r) with ([13; 10] ++ r). apply ct_line; [| |apply eol_crlf|exact C].
           ++ intros H; apply Hl, in_app_iff; auto.
           ++ apply scalars_app in Hs; tauto.
        -- exists (s :: ls), e. change (utf8 s ++ 10 :: r) with (utf8 s ++ [10] ++ r).
           apply ct_line; [exact Hl|exact Hs|apply eol_lf; exact Hc|exact C].
      * apply utf8_decode_none in D. eexists _, _. apply ct_bad; assumption.
    + apply split_lf_none in F. destruct f as [code|]; [eexists _, _; apply ct_fail; exact F|].
      destruct bs as [|b0 r0] eqn:E0; [eexists _, _; apply ct_end|]. rewrite <- E0 in *.
      destruct (utf8_decode bs) as [s|] eqn:D.
      * apply utf8_decode_iff in D as [Hs Es]. rewrite Es. exists [s], None. apply ct_last; [|intros H; apply F; rewrite Es; apply utf8_in_ascii; [reflexivity|exact H]|exact Hs].
        intros ->. rewrite Es in E0. discriminate.
      * apply utf8_decode_none in D. eexists _, _. apply ct_last_bad; assumption.
Qed.
Theorem contents_total bs f : exists ls e, contents bs f ls e.
Proof. exact (contents_total_len (length bs) bs f (le_n _)). Qed.
Lemma delivers_single bs f : exists evs, delivers evs bs f.
Proof.
  destruct bs as [|b bs], f as [code|].
  - eexists; apply dl_fail with (evs := []).
  - eexists; apply dl_end.
  - exists (RdData (b :: bs) :: [RdError code]). rewrite <- (app_nil_r (b :: bs)) at 2.
    apply dl_data; [discriminate|constructor].
  - exists [RdData (b :: bs)]. rewrite <- (app_nil_r (b :: bs)) at 2.
    apply dl_data; [discriminate|constructor].
Qed.
Theorem contents_det bs f ls e : contents bs f ls e -> forall ls' e', contents bs f ls' e' -> ls = ls' /\ e = e'.
Proof.
  destruct (delivers_single bs f) as (evs & Hd).
  assert (holds (Source [] evs) bs f) as Hs by (exists bs; auto).
  clear Hd. revert bs Hs. generalize (Source [] evs) as s. clear evs. intros s.
  revert s e. induction ls as [|l ls IH]; intros s e bs Hs C ls' e' C';
    pose proof (lines_next_spec s bs f _ _ C Hs) as R; pose proof (lines_next_spec s bs f _ _ C' Hs) as R'.
  - destruct ls' as [|l' ls'].
    + split; [reflexivity|]. destruct e, e'; try reflexivity.
      * destruct R as (s1 & R), R' as (s2 & R'). congruence.
      * destruct R as (s1 & R), R' as (s2 & R' & _). congruence.
      * destruct R' as (s1 & R'), R as (s2 & R & _). congruence.
    + destruct R' as (s2 & bs2 & R' & _). destruct e; [destruct R as (s1 & R)|destruct R as (s1 & R & _)]; congruence.
  - destruct R as (s1 & bs1 & R & C1 & H1). destruct ls' as [|l' ls'].
    + destruct e'; [destruct R' as (s2 & R')|destruct R' as (s2 & R' & _)]; congruence.
    + destruct R' as (s2 & bs2 & R' & C2 & H2). rewrite R in R'. injection R' as <- <-.
      assert (bs2 = bs1) as ->.
      { destruct H1 as (b1 & D1 & ->), H2 as (b2 & D2 & ->). f_equal.
        assert (forall evs b f, delivers evs b f -> forall b', delivers evs b' f -> b' = b) as Det.
        { clear. induction 1; intros b' D'; inversion D'; subst; auto; try contradiction. f_equal; auto. }
        exact (Det _ _ _ D1 _ D2). }
      destruct (IH s1 e bs1 H1 C1 ls' e' C2) as [-> ->]. auto.
Qed.
