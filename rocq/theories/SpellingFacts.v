(** Keywords as in GNU gettext. *)
From Coq Require Import String Arith NArith ZArith Bool List Lia.
From Verif Require Import ModelBase ModelUtf8 ModelLine ModelFormula ModelData ModelSource ModelReader
  SpecLine SpecFormula SpecSource SpecReader SpecBlock SpecHeader SpecFile SpecGettext SpecLayout SpecSpelling BaseFacts LineFacts LineThms StreamThms SourceFacts StreamFacts
  BlockFacts CommentFacts UnitFacts BlocksFacts FileFacts BlockThms EntryThms DecFacts WriterFacts WritableFacts IndepFacts GettextFacts FileIntro BlockWitness LayoutFacts LayoutMore.
Import ListNotations.
Local Open Scope N_scope.

Lemma index_digits ds : (forall c, In c ds -> 48 <= c <= 57) -> Z.to_N (digits_value ds) = index_value ds /\ (0 <= digits_value ds)%Z.
Proof.
  unfold index_value. induction ds as [|d ds IH] using rev_ind; intros D; [split; [reflexivity|unfold digits_value; cbn; lia]|].
  destruct IH as [IH1 IH2]; [intros c I; apply D, in_or_app; auto|]. assert (48 <= d <= 57) as Hd by (apply D, in_or_app; right; left; reflexivity).
  rewrite digits_value_snoc, fold_left_app. cbn [fold_left]. rewrite <- IH1. split; lia.
Qed.
Lemma blank_not_nd c : gettext_blank [c] -> ~ decimal_digit c.
Proof.
  intros B D. apply is_nd_iff in D. specialize (B c (or_introl eq_refl)). cbn in B. intuition (subst; discriminate).
Qed.
(** A text without trailing white space in front of white space. *)
Lemma trailing_unique (a w a' w' : str) : (forall x c, a = x ++ [c] -> ~ white c) -> (forall x c, a' = x ++ [c] -> ~ white c) -> blanks w -> blanks w' -> a ++ w = a' ++ w' -> a = a'.
Proof.
  revert w'. induction w as [|c w IH] using rev_ind; intros w' A A' B B' E.
  - rewrite app_nil_r in E. destruct w' as [|c' w'] using rev_ind; [rewrite app_nil_r in E; exact E|]. clear IHw'. exfalso. rewrite app_assoc in E.
    apply (A _ _ E). apply B', in_or_app. right; left; reflexivity.
  - destruct w' as [|c' w'] using rev_ind.
    + exfalso. rewrite app_nil_r, app_assoc in E. apply (A' _ _ (eq_sym E)). apply B, in_or_app. right; left; reflexivity.
    + clear IHw'. rewrite !app_assoc in E. apply app_inj_tail in E as [E _]. apply (IH w'); try assumption; intros z I; [apply B|apply B']; apply in_or_app; auto.
Qed.
Lemma quote_split (a a' r r' : str) : ~ In 34 a -> ~ In 34 a' -> a ++ 34 :: r = a' ++ 34 :: r' -> a = a' /\ r = r'.
Proof.
  revert a'. induction a as [|c a IH]; intros [|c' a'] N N' E; cbn in E.
  - injection E as E. auto.
  - injection E as <- _. destruct N'. left; reflexivity.
  - injection E as -> _. destruct N. left; reflexivity.
  - injection E as -> E. destruct (IH a') as [-> ->]; [intros I; apply N; right; exact I|intros I; apply N'; right; exact I|exact E|auto].
Qed.
Lemma blanks_no_quote w : blanks w -> ~ In 34 w.
Proof. intros B I. apply (not_white 34); [reflexivity|exact (B _ I)]. Qed.
Lemma white_not_nd c : decimal_digit c -> c <> 34.
Proof. intros D ->. apply is_nd_iff in D. discriminate. Qed.
Lemma keyword_ends kw : keyword kw -> exists x c, kw = x ++ [c] /\ ~ white c /\ ~ In 34 kw /\ exists r, kw = 109 :: r.
Proof.
  intros [ | | | | |d ds Hd Hds].
  - exists (lit "msgctx"), 116. split; [reflexivity|]. split; [apply not_white; reflexivity|]. split; [cbn; intuition discriminate|eexists; reflexivity].
  - exists (lit "msgi"), 100. split; [reflexivity|]. split; [apply not_white; reflexivity|]. split; [cbn; intuition discriminate|eexists; reflexivity].
  - exists (lit "msgid_plura"), 108. split; [reflexivity|]. split; [apply not_white; reflexivity|]. split; [cbn; intuition discriminate|eexists; reflexivity].
  - exists (lit "msgst"), 114. split; [reflexivity|]. split; [apply not_white; reflexivity|]. split; [cbn; intuition discriminate|eexists; reflexivity].
  - exists (lit "msgstr[0"), 93. split; [reflexivity|]. split; [apply not_white; reflexivity|]. split; [cbn; intuition discriminate|eexists; reflexivity].
  - exists (lit "msgstr[" ++ d :: ds), 93. split; [rewrite <- app_assoc; reflexivity|]. split; [apply not_white; reflexivity|]. split; [|eexists; reflexivity].
    intros I. apply in_app_or in I as [I|[I|I]]; [cbn in I; intuition discriminate|lia|]. apply in_app_or in I as [I|I]; [exact (white_not_nd _ (Hds _ I) eq_refl)|cbn in I; intuition discriminate].
Qed.
Lemma spelling_ends sp kw : spelling sp kw -> exists x c, sp = x ++ [c] /\ ~ white c /\ ~ In 34 sp /\ exists d r, sp = d :: r /\ (d = 109 \/ d = 100).
Proof.
  intros [k I|w1 w2 ds w3 k B1 B2 B3 [NE D] K].
  - destruct I as [<-|[<-|[<-|[<-|[<-|[]]]]]].
    + exists (lit "msgctx"), 116. split; [reflexivity|]. split; [apply not_white; reflexivity|]. split; [cbn; intuition discriminate|eexists _, _; split; [reflexivity|auto]].
    + exists (lit "msgi"), 100. split; [reflexivity|]. split; [apply not_white; reflexivity|]. split; [cbn; intuition discriminate|eexists _, _; split; [reflexivity|auto]].
    + exists (lit "msgid_plura"), 108. split; [reflexivity|]. split; [apply not_white; reflexivity|]. split; [cbn; intuition discriminate|eexists _, _; split; [reflexivity|auto]].
    + exists (lit "msgst"), 114. split; [reflexivity|]. split; [apply not_white; reflexivity|]. split; [cbn; intuition discriminate|eexists _, _; split; [reflexivity|auto]].
    + exists (lit "domai"), 110. split; [reflexivity|]. split; [apply not_white; reflexivity|]. split; [cbn; intuition discriminate|eexists _, _; split; [reflexivity|auto]].
  - exists (lit "msgstr" ++ w1 ++ lit "[" ++ w2 ++ ds ++ w3), 93. split; [rewrite <- !app_assoc; reflexivity|]. split; [apply not_white; reflexivity|].
    split; [|eexists _, _; split; [reflexivity|auto]]. intros I. apply gettext_blank_blanks, blanks_no_quote in B1, B2, B3.
    repeat (apply in_app_or in I as [I|I]); try contradiction; try (cbn in I; intuition discriminate). specialize (D _ I). lia.
Qed.
Lemma digit_nd c : 48 <= c <= 57 -> decimal_digit c.
Proof. intros H. apply is_nd_iff, is_nd_ascii, H. Qed.
(** Blanks, ASCII digits and blanks that are Unicode digits: no blanks. *)
Lemma only_digits w ds w' r : gettext_blank w -> gettext_blank w' -> ascii_digits ds -> (forall c, In c r -> decimal_digit c) -> w ++ ds ++ w' ++ lit "]" = r ++ lit "]" -> w = [] /\ w' = [] /\ r = ds.
Proof.
  intros B B' D R E. assert (E' : w ++ ds ++ w' = r). { apply (f_equal (@rev _)) in E. rewrite !app_assoc, !(rev_app_distr _ (lit "]")) in E. injection E as E. apply (f_equal (@rev _)) in E. rewrite !rev_involutive, <- ?app_assoc in E. exact E. }
  subst r. assert (forall v, gettext_blank v -> (forall c, In c v -> decimal_digit c) -> v = []) as Z.
  { intros [|c v] Bv H; [reflexivity|]. exfalso. apply (blank_not_nd c); [intros x [<-|[]]; apply Bv; left; reflexivity|apply H; left; reflexivity]. }
  assert (w = []) as -> by (apply Z; [exact B|intros c I; apply R, in_or_app; auto]).
  assert (w' = []) as -> by (apply Z; [exact B'|intros c I; apply R; rewrite !in_app_iff; auto]).
  rewrite app_nil_r. auto.
Qed.
Lemma spelling_keyword sp kw : spelling sp kw -> keyword sp -> sp = kw.
Proof.
  intros [k I|w1 w2 ds w3 k B1 B2 B3 A K] H; [reflexivity|].
  destruct w1 as [|c w1].
  2:{ exfalso. specialize (B1 c (or_introl eq_refl)). remember (lit "msgstr" ++ (c :: w1) ++ lit "[" ++ w2 ++ ds ++ w3 ++ lit "]") as s eqn:Es.
      destruct H as [ | | | | |d r Hd Hr]; cbn in Es; try discriminate; injection Es as Ec Es; rewrite <- Ec in B1; cbn in B1; intuition discriminate. }
  assert (exists r, (forall c, In c r -> decimal_digit c) /\ r <> [] /\ (forall q, r = 48 :: q -> q = []) /\ w2 ++ ds ++ w3 ++ lit "]" = r ++ lit "]") as (r & R & NE & Lead & E).
  { remember (lit "msgstr" ++ [] ++ lit "[" ++ w2 ++ ds ++ w3 ++ lit "]") as s eqn:Es. destruct H as [ | | | | |d ds' Hd Hds]; try (cbn in Es; discriminate).
    - exists [48]. split; [intros c [<-|[]]; apply digit_nd; lia|]. split; [discriminate|]. split; [congruence|]. cbn [lit] in Es. cbn in Es. injection Es as Es. symmetry. exact Es.
    - exists (d :: ds'). split; [intros c [<-|I]; [apply digit_nd; lia|exact (Hds c I)]|]. split; [discriminate|]. split; [intros q [= -> _]; lia|].
      cbn in Es. injection Es as Es. symmetry. exact Es. }
  destruct (only_digits _ _ _ _ B2 B3 A R E) as (-> & -> & ->). destruct A as [_ D].
  destruct K as (ds' & Dv & ->). assert (decimal (index_value ds) ds) as Dd. { rewrite <- (proj1 (index_digits ds D)). apply decimal_value; assumption. }
  rewrite (decimal_det _ _ Dd _ Dv). reflexivity.
Qed.
Lemma spelling_self sp kw : spelling sp kw -> sp = kw -> kw <> lit "domain" -> keyword kw.
Proof.
  intros S E ND. destruct S as [k I|w1 w2 ds w3 k B1 B2 B3 A K].
  - repeat (destruct I as [<-|I]; [try constructor; contradiction|]). destruct I.
  - subst k. exact (proj1 (msgstr_keyword _ _ K)).
Qed.
Theorem spelling_read s sp kw b n : one_line s -> spelling_line s sp kw b ->
  (sp = kw /\ kw <> lit "domain" /\ parse_line s n = Some (PMessage n [] kw (unescape b)))
  \/ (~ (sp = kw /\ kw <> lit "domain") /\ parse_line s n = None).
Proof.
  intros O (w & w' & w'' & -> & B & B' & B'' & S & C). pose proof (spelling_ends _ _ S) as (x & c & Ec & Wc & Nq & d & r & Ed & Hd).
  assert (keyword sp \/ ~ keyword sp) as [K|NK].
  { destruct (str_eqb sp kw) eqn:E.
    - apply str_eqb_eq in E. subst kw. destruct (str_eqb sp (lit "domain")) eqn:E'.
      + apply str_eqb_eq in E'. right. rewrite E'. intros K. inversion K.
      + left. apply (spelling_self sp sp S eq_refl). intros E2. apply str_eqb_eq in E2. congruence.
    - right. intros K. rewrite (spelling_keyword _ _ S K) in E. assert (str_eqb kw kw = true) by (apply str_eqb_eq; reflexivity). congruence. }
  - left. pose proof (spelling_keyword _ _ S K) as E. subst kw. split; [reflexivity|]. split; [intros E; rewrite E in K; inversion K|].
    apply parse_line_message; [exact O|]. split; [reflexivity|]. exists sp, b. split; [|split; [reflexivity|apply unescape_unescapes]].
    exists [], w, [], w', w''. split; [reflexivity|]. split; [constructor|]. split; [intros k [= <-]; exact K|].
    repeat split; try (apply gettext_blank_blanks; assumption); try exact blanks_nil. intros I. apply O. rewrite !in_app_iff. auto 10.
  - right. split; [intros [E ND]; apply NK; rewrite E; exact (spelling_self _ _ S E ND)|]. apply line_of_none; [exact O|]. intros l Lo.
    apply gettext_blank_blanks in B, B', B''.
    assert (first : forall v y t, blanks v -> ~ white y -> w ++ sp ++ w' ++ [34] ++ b ++ [34] ++ w'' = v ++ y :: t -> y = 109 \/ y = 100).
    { intros v y t Bv Wy E. rewrite Ed in E. cbn [app] in E. assert (~ white d) as Wd by (destruct Hd as [-> | ->]; apply not_white; reflexivity).
      rewrite <- (first_nonblank w d _ v y t B Bv Wd Wy E). exact Hd. }
    assert (Q : forall flags k q, ~ quoted_line (w ++ sp ++ w' ++ [34] ++ b ++ [34] ++ w'') flags k q).
    { intros flags k q (mark & w1 & w2 & w3 & w4 & E & Mk & Kw & B1 & B2 & B3 & B4 & _).
      assert (mark = []) as ->.
      { destruct mark as [|y mark]; [reflexivity|]. assert (y = 35) as -> by (inversion Mk; reflexivity). destruct (first w1 35 _ B1 (not_white 35 eq_refl) E); discriminate. }
      destruct k as [k|].
      2:{ cbn [opt_str app] in E.
          assert (blanks ((w1 ++ w2) ++ w3)) as B123 by (intros z I; rewrite !in_app_iff in I; destruct I as [[I|I]|I]; auto).
          destruct (first _ 34 (q ++ 34 :: w4) B123 (not_white 34 eq_refl)); [rewrite <- !app_assoc; exact E|discriminate|discriminate]. }
      specialize (Kw k eq_refl). destruct (keyword_ends k Kw) as (y & e & Ek & We & Nk & r' & Er). cbn [opt_str app] in E.
      assert (E2 : (w ++ sp ++ w') ++ 34 :: b ++ 34 :: w'' = (w1 ++ w2 ++ k ++ w3) ++ 34 :: q ++ 34 :: w4) by (rewrite <- !app_assoc; exact E).
      apply quote_split in E2 as [E2 _].
      2:{ rewrite !in_app_iff. intros [I|[I|I]]; [exact (blanks_no_quote _ B I)|exact (Nq I)|exact (blanks_no_quote _ B' I)]. }
      2:{ rewrite !in_app_iff. intros [I|[I|[I|I]]]; [exact (blanks_no_quote _ B1 I)|exact (blanks_no_quote _ B2 I)|exact (Nk I)|exact (blanks_no_quote _ B3 I)]. }
      assert (w ++ sp = (w1 ++ w2) ++ k) as E3.
      { apply (trailing_unique _ w' _ w3); [| |exact B'|exact B3|rewrite <- !app_assoc; exact E2].
        - intros z c' Ez. rewrite Ec, app_assoc in Ez. apply app_inj_tail in Ez as [_ <-]. exact Wc.
        - intros z c' Ez. rewrite Ek, app_assoc in Ez. apply app_inj_tail in Ez as [_ <-]. exact We. }
      assert (forall a a' (x y : str), blanks a -> blanks a' -> (exists c1 r1, x = c1 :: r1 /\ ~ white c1) -> (exists c2 r2, y = c2 :: r2 /\ ~ white c2) -> a ++ x = a' ++ y -> x = y) as Lead.
      { clear. intros a. induction a as [|z a IH]; intros [|z' a'] x y Ba Ba' (c1 & r1 & -> & W1) (c2 & r2 & -> & W2) E; cbn in E.
        - exact E.
        - injection E as -> _. destruct W1. apply Ba'. left; reflexivity.
        - injection E as <- _. destruct W2. apply Ba. left; reflexivity.
        - injection E as -> E. apply (IH a'); [intros u I; apply Ba; right; exact I|intros u I; apply Ba'; right; exact I|eauto|eauto|exact E]. }
      apply NK. rewrite (Lead w (w1 ++ w2) sp k); [exact Kw|exact B| | | |exact E3].
      - intros z I. apply in_app_or in I as [I|I]; auto.
      - exists d, r. split; [exact Ed|]. destruct Hd as [-> | ->]; apply not_white; reflexivity.
      - exists 109, r'. split; [exact Er|apply not_white; reflexivity]. }
    destruct Lo as [Bs|flags k q t H _|flags q t H _|k y H _].
    + apply Wc. apply Bs. rewrite Ec, !in_app_iff. right; left; right; left; reflexivity.
    + exact (Q _ _ _ H).
    + exact (Q _ _ _ H).
    + destruct H as (w1 & B1 & [(E1 & _)|(w2 & _ & _ & E1)]); destruct (first w1 35 _ B1 (not_white 35 eq_refl) E1); discriminate.
Qed.

(** * Witnesses *)
Definition zeros_lines := ["msgid ""a"""; "msgid_plural ""b"""; "msgstr[00] ""x"""; "msgstr[01] ""y"""]%string.
Definition spaced_lines := ["msgid ""a"""; "msgid_plural ""b"""; "msgstr [0] ""x"""; "msgstr[ 1 ] ""y"""]%string.
Definition domain_lines := ["domain ""d"""; "msgid ""a"""; "msgstr ""b"""]%string.
Lemma word_line kw b : In kw [lit "msgctxt"; lit "msgid"; lit "msgid_plural"; lit "msgstr"; lit "domain"] -> closed b -> exists sp b', spelling_line (kw ++ lit " """ ++ b ++ [34]) sp kw b'.
Proof.
  intros I C. exists kw, b, [], [32], []. split; [reflexivity|]. split; [exact blank_nil|]. split; [exact blank_32|]. split; [exact blank_nil|]. split; [constructor; exact I|exact C].
Qed.
Lemma form_line w1 w2 ds w3 i kw c : gettext_blank w1 -> gettext_blank w2 -> gettext_blank w3 -> ascii_digits ds -> index_value ds = i -> msgstr_kw i kw -> c <> 92 -> c <> 34 ->
  exists sp b', spelling_line ((lit "msgstr" ++ w1 ++ lit "[" ++ w2 ++ ds ++ w3 ++ lit "]") ++ [32; 34; c; 34]) sp kw b'.
Proof.
  intros B1 B2 B3 A V K N1 N2. eexists _, [c], [], [32], []. split; [reflexivity|]. split; [exact blank_nil|]. split; [exact blank_32|]. split; [exact blank_nil|].
  split; [apply sp_form; try assumption; rewrite V; exact K|]. apply letter_closed; assumption.
Qed.
Lemma kw_0 : msgstr_kw 0 (lit "msgstr[0]").
Proof. exists [48]. split; [apply (dc_digit 0); lia|reflexivity]. Qed.
Lemma kw_1 : msgstr_kw 1 (lit "msgstr[1]").
Proof. exists [49]. split; [apply (dc_digit 1); lia|reflexivity]. Qed.
Lemma digits_of s : forallb (fun c => N.leb 48 c && N.leb c 57) s = true -> s <> [] -> ascii_digits s.
Proof. intros F NE. split; [exact NE|]. intros c I. rewrite forallb_forall in F. specialize (F c I). apply andb_true_iff in F as [A B]. apply N.leb_le in A, B. auto. Qed.
Lemma zeros_standard : standard two_forms zeros_lines.
Proof.
  repeat constructor.
  - apply (word_line (lit "msgid") (lit "a")); [cbn; auto|apply (letter_closed 97); discriminate].
  - apply (word_line (lit "msgid_plural") (lit "b")); [cbn; auto|apply (letter_closed 98); discriminate].
  - apply (form_line [] [] (lit "00") [] 0 (lit "msgstr[0]") 120); try exact blank_nil; try discriminate; [apply digits_of; [reflexivity|discriminate]|reflexivity|exact kw_0].
  - apply (form_line [] [] (lit "01") [] 1 (lit "msgstr[1]") 121); try exact blank_nil; try discriminate; [apply digits_of; [reflexivity|discriminate]|reflexivity|exact kw_1].
Qed.
Lemma spaced_standard : standard two_forms spaced_lines.
Proof.
  repeat constructor.
  - apply (word_line (lit "msgid") (lit "a")); [cbn; auto|apply (letter_closed 97); discriminate].
  - apply (word_line (lit "msgid_plural") (lit "b")); [cbn; auto|apply (letter_closed 98); discriminate].
  - apply (form_line [32] [] (lit "0") [] 0 (lit "msgstr[0]") 120); try exact blank_nil; try exact blank_32; try discriminate; [apply digits_of; [reflexivity|discriminate]|reflexivity|exact kw_0].
  - apply (form_line [] [32] (lit "1") [32] 1 (lit "msgstr[1]") 121); try exact blank_nil; try exact blank_32; try discriminate; [apply digits_of; [reflexivity|discriminate]|reflexivity|exact kw_1].
Qed.
Lemma domain_standard : standard [lit "domain"; lit "msgid"; lit "msgstr"] domain_lines.
Proof.
  repeat constructor.
  - apply (word_line (lit "domain") (lit "d")); [cbn; auto 10|apply (letter_closed 100); discriminate].
  - apply (word_line (lit "msgid") (lit "a")); [cbn; auto|apply (letter_closed 97); discriminate].
  - apply (word_line (lit "msgstr") (lit "b")); [cbn; auto|apply (letter_closed 98); discriminate].
Qed.
Theorem zeros_refuted : exists ls, standard two_forms ls /\ forall lib pf, read_catalogue lib pf (lf_stream ls) = Err (EParse 4 (lit "msgstr[00] ""x""") []).
Proof. exists zeros_lines. split; [exact zeros_standard|]. intros lib pf. vm_compute. reflexivity. Qed.
Theorem spaced_refuted : exists ls, standard two_forms ls /\ forall lib pf, read_catalogue lib pf (lf_stream ls) = Err (EParse 4 (lit "msgstr [0] ""x""") []).
Proof. exists spaced_lines. split; [exact spaced_standard|]. intros lib pf. vm_compute. reflexivity. Qed.
Theorem domain_refuted : exists ls, standard [lit "domain"; lit "msgid"; lit "msgstr"] ls /\ forall lib pf, read_catalogue lib pf (lf_stream ls) = Err (EParse 2 (lit "domain ""d""") []).
Proof. exists domain_lines. split; [exact domain_standard|]. intros lib pf. vm_compute. reflexivity. Qed.
