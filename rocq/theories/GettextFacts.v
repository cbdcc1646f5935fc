(** Strings, compared with GNU gettext. *)
From Coq Require Import String Arith NArith Bool List Lia.
From Verif Require Import ModelBase ModelRegex ModelLine SpecLine ModelUtf8 ModelFormula ModelData ModelSource ModelReader
  SpecFormula SpecSource SpecReader SpecBlock SpecGettext BaseFacts LineFacts LineThms BlocksFacts.
Import ListNotations.
Local Open Scope N_scope.

Lemma escape_letter_iff c : escape_letter c <-> In c (lit "ntr\""").
Proof.
  unfold escape_letter, escapes. cbn. split.
  - intros (v & [E|[E|[E|[E|[E|[]]]]]]); injection E as <- <-; auto 10.
  - intros [<-|[<-|[<-|[<-|[<-|[]]]]]]; eexists; eauto 10.
Qed.
Lemma copy_list ds s t : (forall c, In c ds -> c <> 92) -> unescapes s t -> unescapes (ds ++ s) (ds ++ t).
Proof.
  intros H U. induction ds as [|d ds IH]; [exact U|]. cbn [app]. apply ue_copy; [left; apply H; left; reflexivity|]. apply IH. intros c I. apply H. right; exact I.
Qed.
Lemma hex_value_chars ds v c : hex_value ds v -> In c ds -> exists w, hex_digit c w.
Proof.
  intros H. induction H as [|ds a d w H IH D]; intros I; [destruct I|]. apply in_app_or in I as [I|[<-|[]]]; [exact (IH I)|eauto].
Qed.
Lemma not_common c s : ~ In c (lit "ntr\""") -> ~ common_escapes (92 :: c :: s).
Proof. intros N H. inversion H; subst; [congruence|contradiction]. Qed.
Lemma common_split s t : gettext_means s t ->
  (common_escapes s /\ unescapes s t) \/ (~ common_escapes s /\ exists t', unescapes s t' /\ (length t < length t')%nat).
Proof.
  induction 1 as [|c s t N1 N2 G IH|c v s t I G IH|ds s t L F E V G IH|ds v s t NE HV E V G IH].
  - left. split; constructor.
  - destruct IH as [[C U]|(NC & t' & U & Lt)].
    + left. split; [constructor; assumption|]. apply ue_copy; auto.
    + right. split; [intros H; inversion H; subst; [contradiction|congruence]|]. exists (c :: t'). split; [apply ue_copy; auto|cbn; lia].
  - assert (exists t', unescapes s t' /\ (length t <= length t')%nat) as (t1 & U1 & L1).
    { destruct IH as [[_ U]|(_ & t' & U & Lt)]; [exists t; split; [exact U|lia]|exists t'; split; [exact U|lia]]. }
    assert (In (c, v) escapes \/ ~ In c (lit "ntr\""")) as [Ie|Ne].
    { cbn in I. repeat (destruct I as [I|I]; [injection I as <- <-; first [left; cbn; tauto|right; cbn; intuition discriminate]|]). destruct I. }
    + assert (In c (lit "ntr\""")) as Il by (apply escape_letter_iff; exists v; exact Ie). destruct IH as [[C U]|(NC & t' & U & Lt)].
      * left. split; [apply ce_escape; assumption|]. apply ue_escape; assumption.
      * right. split; [intros H; inversion H; subst; [congruence|contradiction]|]. exists (v :: t'). split; [apply ue_escape; assumption|cbn; lia].
    + right. split; [apply not_common, Ne|]. exists (92 :: c :: t1). split; [|cbn; lia].
      apply ue_copy; [right; intros c' s' [= <- <-]; rewrite escape_letter_iff; exact Ne|]. apply ue_copy; [left; intros ->; apply Ne; cbn; auto 10|exact U1].
  - assert (exists t', unescapes s t' /\ (length t <= length t')%nat) as (t1 & U1 & L1).
    { destruct IH as [[_ U]|(_ & t' & U & Lt)]; [exists t; split; [exact U|lia]|exists t'; split; [exact U|lia]]. }
    destruct ds as [|d ds]; [cbn in L; lia|]. cbn [app]. inversion F as [|? ? Fd F']; subst. unfold octal_digit in Fd.
    assert (~ In d (lit "ntr\""")) as Nd by (cbn; intros [<-|[<-|[<-|[<-|[<-|[]]]]]]; lia).
    right. split; [apply not_common, Nd|]. exists (92 :: (d :: ds) ++ t1). split; [|cbn; rewrite app_length; lia].
    apply ue_copy; [right; intros c' s' [= <- <-]; rewrite escape_letter_iff; exact Nd|]. change (d :: ds ++ s) with ((d :: ds) ++ s). apply copy_list; [|exact U1].
    intros c I ->. rewrite Forall_forall in F. specialize (F 92 I). unfold octal_digit in F. lia.
  - assert (exists t', unescapes s t' /\ (length t <= length t')%nat) as (t1 & U1 & L1).
    { destruct IH as [[_ U]|(_ & t' & U & Lt)]; [exists t; split; [exact U|lia]|exists t'; split; [exact U|lia]]. }
    assert (~ In 120 (lit "ntr\""")) as Nd by (cbn; intuition discriminate).
    right. split; [apply not_common, Nd|]. exists (92 :: 120 :: ds ++ t1). split; [|cbn; rewrite app_length; lia].
    apply ue_copy; [right; intros c' s' [= <- <-]; rewrite escape_letter_iff; exact Nd|]. apply ue_copy; [left; discriminate|]. apply copy_list; [|exact U1].
    intros c I ->. destruct (hex_value_chars _ _ _ HV I) as (w & D). unfold hex_digit in D. lia.
Qed.
Theorem escapes_agree s t : gettext_means s t -> (unescape s = t <-> common_escapes s).
Proof.
  intros G. rewrite unescape_iff. destruct (common_split s t G) as [[C U]|(NC & t' & U & Lt)].
  - split; auto.
  - split; [|contradiction]. intros U'. rewrite (unescapes_det _ _ _ U U') in Lt. lia.
Qed.
Theorem escapes_refuted : ~ (forall s t, gettext_means s t -> unescape s = t).
Proof.
  intros H. specialize (H (lit "\a") [7]). discriminate H. apply (gm_named 97 7 [] []); [cbn; auto 10|constructor].
Qed.

(** * Several strings on a line *)
Lemma closed_app b x r y : closed b -> unescapes b x -> unescapes r y -> unescapes (b ++ r) (x ++ y).
Proof.
  intros C; revert x. induction C as [|c b N1 N2 C IH|c b C IH]; intros x U V.
  - inversion U; subst. exact V.
  - inversion U as [|c' v s t I U'|c' s t Nc U']; subst; [congruence|]. cbn [app]. apply ue_copy; [auto|]. apply IH; assumption.
  - inversion U as [|c' v s t I U'|c' s t Nc U']; subst.
    + cbn [app]. apply ue_escape; [exact I|]. apply IH; assumption.
    + destruct Nc as [Nc|Nc]; [congruence|]. specialize (Nc c b eq_refl).
      inversion U' as [|c'' v s t' I U''|c'' s t' Nc' U'']; subst; [exfalso; apply Nc; apply escape_letter_iff; cbn; auto 10|].
      cbn [app]. apply ue_copy; [right; intros c'' s'' [= <- <-]; exact Nc|]. apply ue_copy; [left; intros ->; apply Nc; apply escape_letter_iff; cbn; auto 10|]. apply IH; assumption.
Qed.
Lemma blank_not_backslash w c : blanks w -> In c w -> c <> 92.
Proof. intros B I ->. apply B in I. cbn in I. intuition discriminate. Qed.
Lemma strings_inner bs : forall b s, strings_of s (b :: bs) -> exists w inner w' t, s = w ++ [34] ++ inner ++ [34] ++ w' /\ blanks w /\ blanks w'
  /\ unescapes inner t /\ (bs = [] /\ t = concat (map unescape (b :: bs)) \/ bs <> [] /\ (length (concat (map unescape (b :: bs))) < length t)%nat).
Proof.
  induction bs as [|b2 bs IH]; intros b s H; inversion H as [|w b' s' bs' Bw C H']; subst.
  - inversion H' as [w' Bw'|]; subst. exists w, b, s', (unescape b). split; [reflexivity|]. split; [exact Bw|]. split; [exact Bw'|].
    split; [apply unescape_unescapes|]. left. split; [reflexivity|]. cbn. symmetry. apply app_nil_r.
  - destruct (IH b2 s' H') as (w2 & inner & w' & t & -> & B2 & B' & U & T). exists w, (b ++ [34] ++ w2 ++ [34] ++ inner), w', (unescape b ++ [34] ++ w2 ++ [34] ++ t).
    split; [rewrite <- !app_assoc; reflexivity|]. split; [exact Bw|]. split; [exact B'|]. split.
    + apply closed_app; [exact C|apply unescape_unescapes|]. apply (copy_list [34]); [intros c [<-|[]]; discriminate|].
      apply copy_list; [intros c I; exact (blank_not_backslash _ _ B2 I)|]. apply (copy_list [34]); [intros c [<-|[]]; discriminate|exact U].
    + right. split; [discriminate|]. change (map unescape (b :: b2 :: bs)) with (unescape b :: map unescape (b2 :: bs)). cbn [concat].
      rewrite !app_length. cbn [length]. destruct T as [[_ ->]|[_ T]]; unfold str, char in *; lia.
Qed.
Theorem strings_on_a_line kw s bs n : keyword kw -> one_line (kw ++ s) -> bs <> [] -> strings_of s bs ->
  exists text, parse_line (kw ++ s) n = Some (PMessage n [] kw text) /\ (text = concat (map unescape bs) <-> length bs = 1%nat).
Proof.
  intros K O NE H. destruct bs as [|b bs]; [congruence|]. destruct (strings_inner bs b s H) as (w & inner & w' & t & -> & Bw & Bw' & U & T).
  exists t. split.
  - apply (line_of_iff _ _ _ O). change kw with (reported_tag [] kw) at 2. apply ln_message with (quoted := inner); [|exact U].
    exists [], [], [], w, w'. cbn [app opt_str]. split; [reflexivity|]. split; [constructor|]. split; [intros k [= <-]; exact K|].
    split; [intros c []|]. split; [intros c []|]. split; [exact Bw|]. split; [exact Bw'|].
    intros I. apply O. rewrite !in_app_iff. auto 10.
  - destruct T as [[-> ->]|[N L]]; [cbn; tauto|]. split; [intros ->; lia|]. cbn. destruct bs; [congruence|discriminate].
Qed.
(** What is accepted although it is no sequence of strings. *)
Lemma closed_no_quote a r : closed (a ++ 34 :: r) -> ~ In 92 a -> False.
Proof.
  induction a as [|c a IH]; cbn [app]; intros C N; inversion C; subst; try congruence.
  - apply IH; [assumption|]. intros I. apply N. right; exact I.
  - apply N. left; reflexivity.
Qed.
Lemma strings_next s bs c r w : strings_of s bs -> s = w ++ c :: r -> blanks w -> ~ white c -> c <> 34 -> False.
Proof.
  intros H E Bw Nc N. destruct H as [w0 B0|w0 b s bs B0 C H].
  - apply Nc. apply B0. rewrite E. apply in_or_app; right; left; reflexivity.
  - revert w0 B0 E. induction w as [|x w IH]; intros [|y w0] B0 E; cbn in E.
    + congruence.
    + injection E as -> E. apply Nc, B0. left; reflexivity.
    + injection E as <- E. assert (white 34) as W by (apply Bw; left; reflexivity). cbn in W. intuition discriminate.
    + injection E as _ E. apply (IH ltac:(intros z Iz; apply Bw; right; exact Iz) w0); [intros z Iz; apply B0; right; exact Iz|exact E].
Qed.
Theorem only_strings_refuted :
  ~ (forall kw s n text, one_line (kw ++ s) -> parse_line (kw ++ s) n = Some (PMessage n [] kw text) -> exists bs, strings_of s bs).
Proof.
  intros H. destruct (H (lit "msgid") (lit " ""a""b""") 1 (lit "a""b")) as (bs & S).
  - intros I. vm_compute in I. intuition discriminate.
  - vm_compute. reflexivity.
  - inversion S as [w B E|w b s bs' B C S' E]; subst.
    + assert (white 34) as W by (apply B; cbn; auto). cbn in W. intuition discriminate.
    + destruct w as [|x w]; [discriminate E|]. injection E as -> E. destruct w as [|x w]; [|injection E as -> E; assert (white 34) as W by (apply B; cbn; auto); cbn in W; intuition discriminate].
      injection E as E. destruct b as [|c b]; [discriminate E|]. injection E as -> E. destruct b as [|c b].
      * injection E as ->. apply (strings_next _ _ 98 [34] [] S'); [reflexivity|intros c []| |discriminate]. intros W. cbn in W. intuition discriminate.
      * injection E as -> E. inversion C as [|? ? _ _ C'|]; subst. inversion C'; congruence.
Qed.
(** The end of a string can be escaped. *)
Theorem escaped_end_refuted :
  ~ (forall kw b n text, one_line (kw ++ b) -> parse_line (kw ++ lit " """ ++ b ++ [92; 34]) n = Some (PMessage n [] kw text) -> False).
Proof.
  intros H. apply (H (lit "msgid") (lit "a") 1 (lit "a\")).
  - intros I. vm_compute in I. intuition discriminate.
  - vm_compute. reflexivity.
Qed.
Lemma two_strings : strings_of (lit " ""a"" ""b""") [lit "a"; lit "b"].
Proof.
  assert (blanks [32]) as B by (intros c [<-|[]]; cbn; auto 10). assert (forall c, c <> 92 -> c <> 34 -> closed [c]) as C by (intros c N1 N2; apply cd_char; auto; constructor).
  apply (so_string [32] (lit "a") (lit " ""b""") [lit "b"]); [exact B|apply C; discriminate|].
  apply (so_string [32] (lit "b") [] []); [exact B|apply C; discriminate|]. constructor. intros c [].
Qed.
Theorem concatenation_refuted : ~ (forall kw s bs n, keyword kw -> one_line (kw ++ s) -> bs <> [] -> strings_of s bs ->
  parse_line (kw ++ s) n = Some (PMessage n [] kw (concat (map unescape bs)))).
Proof.
  intros H. specialize (H (lit "msgid") (lit " ""a"" ""b""") [lit "a"; lit "b"] 1 kw_msgid). assert (one_line (lit "msgid" ++ lit " ""a"" ""b""")) as O by (intros I; vm_compute in I; intuition discriminate).
  specialize (H O ltac:(discriminate) two_strings). vm_compute in H. discriminate H.
Qed.
