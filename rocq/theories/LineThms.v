(** Consequences of the description of [parse_line] (LineFacts.v), in the form in which
    they are stated as properties. *)
From Coq Require Import String Arith NArith Bool List Lia.
From Coq Require Import ZifyBool ZifyNat ZifyN.
From Verif Require Import ModelBase ModelRegex ModelLine BaseFacts RegexFacts SpecLine LineFacts.
Import ListNotations.
Local Open Scope N_scope.

Lemma quoted_line_head s flags kw body : quoted_line s flags kw body ->
  exists w c r, s = w ++ c :: r /\ blanks w /\
    (c = 34 \/ c = 109 \/ (c = 35 /\ exists w' d r', r = w' ++ d :: r' /\
        (d = 34 \/ d = 109 \/ (w' = [] /\ (d = 126 \/ d = 124))) /\ blanks w')).
Proof.
  intros (mark & w1 & w2 & w3 & w4 & -> & Hm & Hk & H1 & H2 & H3 & H4 & _).
  assert (exists w c r, blanks w /\ w2 ++ opt_str kw ++ w3 ++ [34] ++ body ++ [34] ++ w4 = w ++ c :: r /\ (c = 34 \/ c = 109))
    as (w & c & r & Hw & E & Hc).
  { destruct kw as [k|].
    - destruct (keyword_head k (Hk k eq_refl)) as (k' & ->). cbn [opt_str app].
      exists w2. eexists 109, _. split; [exact H2|]. split; [reflexivity|auto].
    - cbn [opt_str app]. exists (w2 ++ w3), 34. eexists. rewrite <- app_assoc. split; [|split; [reflexivity|auto]].
      intros x Hx. apply in_app_iff in Hx as [Hx|Hx]; auto. }
  rewrite E. inversion Hm; subst; cbn [lit list_ascii_of_string map app].
  - exists (w1 ++ w), c, r. rewrite <- app_assoc. split; [reflexivity|]. split; [|tauto].
    intros x Hx. apply in_app_iff in Hx as [Hx|Hx]; auto.
  - exists w1. eexists 35, _. split; [reflexivity|]. split; [exact H1|]. right; right. split; [reflexivity|].
    exists w, c, r. split; [reflexivity|]. split; [tauto|exact Hw].
  - exists w1. eexists 35, _. split; [reflexivity|]. split; [exact H1|]. right; right. split; [reflexivity|].
    exists []. eexists 126, _. split; [reflexivity|]. split; [auto|intros ? []].
  - exists w1. eexists 35, _. split; [reflexivity|]. split; [exact H1|]. right; right. split; [reflexivity|].
    exists []. eexists 124, _. split; [reflexivity|]. split; [auto|intros ? []].
  - exists w1. eexists 35, _. split; [reflexivity|]. split; [exact H1|]. right; right. split; [reflexivity|].
    exists []. eexists 126, _. split; [reflexivity|]. split; [auto|intros ? []].
Qed.

Lemma hash_not_white : ~ white 35.
Proof. rewrite <- is_ws_not_white; reflexivity. Qed.

Lemma ws_eq_app w c r w' c' r' :
  blanks w -> blanks w' -> ~ white c -> ~ white c' -> w ++ c :: r = w' ++ c' :: r' -> w = w' /\ c = c' /\ r = r'.
Proof.
  intros Hw Hw' Hc Hc' E. apply blanks_forallb in Hw, Hw'. apply is_ws_not_white in Hc, Hc'.
  destruct (run_unique is_ws w w' (c :: r) (c' :: r') Hw Hw' Hc Hc' E) as [-> [= -> ->]]. auto.
Qed.

(** A # followed by a character that cannot start a marked string. *)
Lemma hash_kind_comment w kind w2 content n :
  blanks w -> blanks w2 -> not_white_first content -> one_line (w ++ [35; kind] ++ w2 ++ content) ->
  ~ white kind -> ~ In kind [34; 109; 124; 126] ->
  parse_line (w ++ [35; kind] ++ w2 ++ content) n = Some (PComment n kind content).
Proof.
  intros Hw Hw2 Hn Hl Hk Hnk. apply parse_line_iff; [exact Hl|]. constructor.
  - exists w. split; [exact Hw|right]. exists w2. auto.
  - intros flags kw body Hq.
    apply quoted_line_head in Hq as (v & c & r & E & Hv & Hc).
    assert (~ white c) as Wc by (rewrite <- is_ws_not_white; destruct Hc as [->|[->|(-> & _)]]; reflexivity).
    cbn [app] in E. apply ws_eq_app in E as (-> & <- & <-); try assumption; [|rewrite <- is_ws_not_white; reflexivity].
    destruct Hc as [[=]|[[=]|(_ & w' & d & r' & E & Hd & Hw')]].
    assert (w' = [] /\ kind = d) as [-> ->].
    { destruct w' as [|x w']; cbn [app] in E; injection E as -> E; [auto|].
      exfalso. apply Hk, Hw'. left; reflexivity. }
    apply Hnk. cbn. destruct Hd as [->|[->|[_ [->| ->]]]]; tauto.
Qed.

(** Texts that may follow "# " and be taken for a string. *)
Definition string_text (text : str) : Prop :=
  exists kw body w w' w'', text = w ++ opt_str kw ++ w' ++ [34] ++ body ++ [34] ++ w''
    /\ (forall k, kw = Some k -> keyword k) /\ blanks w /\ blanks w' /\ blanks w''.

Lemma free_comment text n : one_line text -> ~ string_text text ->
  exists w c, text = w ++ c /\ blanks w /\ not_white_first c /\
  parse_line (lit "# " ++ text) n = Some (PComment n 32 c).
Proof.
  intros Hl Hs. destruct (split_ws text) as (w & c & -> & Hw & Hn). exists w, c.
  split; [reflexivity|]. split; [exact Hw|]. split; [apply not_white_first_iff; exact Hn|].
  apply parse_line_iff.
  { intros H. cbn in H. destruct H as [|[|]]; [discriminate|discriminate|]. exact (Hl H). }
  constructor.
  - exists []. split; [intros ? []|right]. exists w. split; [exact Hw|].
    split; [apply not_white_first_iff; exact Hn|reflexivity].
  - intros flags kw body (mark & w1 & w2 & w3 & w4 & E & Hm & Hk & H1 & H2 & H3 & H4 & Hb).
    apply Hs. clear Hs.
    assert (w1 = []) as ->.
    { destruct w1 as [|x w1]; [reflexivity|]. exfalso. cbn in E. injection E as <- _.
      assert (white 35) as W by (apply H1; left; reflexivity). apply is_ws_white in W. discriminate W. }
    cbn [app] in E.
    inversion Hm; subst; cbn [lit list_ascii_of_string map app] in E.
    + exfalso. destruct w2 as [|x w2]; cbn [app] in E.
      * destruct kw as [k|]; cbn [opt_str app] in E.
        -- destruct (keyword_head k (Hk k eq_refl)) as (k' & ->). discriminate E.
        -- destruct w3 as [|x w3]; cbn [app] in E; [discriminate E|]. injection E as <- _.
           assert (white 35) as W by (apply H3; left; reflexivity). apply is_ws_white in W. discriminate W.
      * injection E as <- _.
        assert (white 35) as W by (apply H2; left; reflexivity). apply is_ws_white in W. discriminate W.
    + injection E as E. destruct w2 as [|x w2]; cbn [app] in E.
      * destruct kw as [k|]; cbn [opt_str app] in E.
        -- destruct (keyword_head k (Hk k eq_refl)) as (k' & ->). discriminate E.
        -- destruct w3 as [|x w3]; cbn [app] in E; [discriminate E|]. injection E as _ E.
           exists None, body, [], w3, w4. cbn [opt_str app]. split; [exact E|].
           split; [intros ? [=]|]. split; [intros ? []|]. split; [|exact H4].
           intros y Hy; apply H3; right; exact Hy.
      * injection E as _ E. exists kw, body, w2, w3, w4. split; [exact E|].
        split; [exact Hk|]. split; [intros y Hy; apply H2; right; exact Hy|]. auto.
    + discriminate E.
    + discriminate E.
    + discriminate E.
Qed.

(** A text with at most one quote cannot be taken for a string. *)
Lemma string_text_two_quotes text : string_text text ->
  exists a b c, text = a ++ [34] ++ b ++ [34] ++ c.
Proof.
  intros (kw & body & w & w' & w'' & -> & _). exists (w ++ opt_str kw ++ w'), body, w''.
  rewrite <- !app_assoc. reflexivity.
Qed.

(** A first character that cannot start any line. *)
Lemma bad_first_char w c r n :
  blanks w -> one_line (w ++ c :: r) -> ~ white c -> ~ In c [34; 35; 109] ->
  parse_line (w ++ c :: r) n = None.
Proof.
  intros Hw Hl Hc Hn. apply parse_line_iff; [exact Hl|]. constructor.
  - intros B. apply Hc, B, in_app_iff; right; left; reflexivity.
  - intros flags kw body Hq. apply quoted_line_head in Hq as (v & d & r' & E & Hv & Hd).
    assert (~ white d) as Wd by (rewrite <- is_ws_not_white; destruct Hd as [->|[->|(-> & _)]]; reflexivity).
    apply ws_eq_app in E as (_ & -> & _); try assumption.
    apply Hn. cbn. destruct Hd as [->|[->|(-> & _)]]; tauto.
  - intros kind content (v & Hv & D).
    assert (exists r', w ++ c :: r = v ++ 35 :: r') as (r' & E)
      by (destruct D as [(-> & _)|(w2 & _ & _ & ->)]; cbn; eauto).
    apply ws_eq_app in E as (_ & -> & _); try assumption; [|rewrite <- is_ws_not_white; reflexivity].
    apply Hn; cbn; tauto.
Qed.

(** Indentation does not matter. *)
Lemma blanks_tl c w : blanks (c :: w) -> white c /\ blanks w.
Proof. intros H. split; [apply H; left; reflexivity|intros x Hx; apply H; right; exact Hx]. Qed.

Lemma quoted_line_uncons c s f k b : white c -> quoted_line (c :: s) f k b -> quoted_line s f k b.
Proof.
  intros Hc (mark & w1 & w2 & w3 & w4 & E & Hm & Hk & H1 & H2 & H3 & H4 & Hb).
  destruct w1 as [|x w1].
  - cbn [app] in E. inversion Hm; subst; cbn [lit list_ascii_of_string map app] in E;
      try (injection E as -> _; destruct (hash_not_white Hc)).
    destruct w2 as [|x w2].
    + destruct k as [k|]; cbn [opt_str app] in E.
      * destruct (keyword_head k (Hk k eq_refl)) as (k' & ->). cbn [app] in E. injection E as -> _.
        apply is_ws_white in Hc. discriminate Hc.
      * destruct w3 as [|x w3]; cbn [app] in E.
        -- injection E as -> _. apply is_ws_white in Hc. discriminate Hc.
        -- injection E as <- ->. apply blanks_tl in H3 as [_ H3].
           exists [], [], [], w3, w4. cbn [app opt_str].
           repeat (split; [first [reflexivity|assumption|intros ? []]|]); exact Hb.
    + injection E as <- ->. apply blanks_tl in H2 as [_ H2].
      exists [], [], w2, w3, w4.
      repeat (split; [first [reflexivity|assumption]|]); exact Hb.
  - injection E as <- ->. apply blanks_tl in H1 as [_ H1].
    exists mark, w1, w2, w3, w4.
    repeat (split; [first [reflexivity|assumption]|]); exact Hb.
Qed.

Lemma quoted_line_cons c s f k b : white c -> quoted_line s f k b -> quoted_line (c :: s) f k b.
Proof.
  intros Hc (mark & w1 & w2 & w3 & w4 & -> & Hm & Hk & H1 & H2 & H3 & H4 & Hb).
  exists mark, (c :: w1), w2, w3, w4. split; [reflexivity|].
  repeat (split; [assumption|]). split; [|auto].
  intros x [<-|Hx]; auto.
Qed.

Lemma comment_shape_uncons c s k b : white c -> comment_shape (c :: s) k b -> comment_shape s k b.
Proof.
  intros Hc (w & Hw & D).
  destruct w as [|x w].
  - exfalso. destruct D as [(E & _)|(w2 & _ & _ & E)]; cbn [app] in E; injection E as -> _; exact (hash_not_white Hc).
  - apply blanks_tl in Hw as [_ Hw]. exists w. split; [exact Hw|].
    destruct D as [(E & D)|(w2 & A & B & E)]; cbn [app] in E; injection E as _ E; [left; auto|right; exists w2; auto].
Qed.

Lemma comment_shape_cons c s k b : white c -> comment_shape s k b -> comment_shape (c :: s) k b.
Proof.
  intros Hc (w & Hw & D). exists (c :: w). split; [intros x [<-|Hx]; auto|].
  destruct D as [(-> & D)|(w2 & A & B & ->)]; [left; auto|right; exists w2; auto].
Qed.

Lemma parse_line_indent w s n : blanks w -> one_line (w ++ s) -> parse_line (w ++ s) n = parse_line s n.
Proof.
  induction w as [|c w IH]; intros Hw Hl; [reflexivity|].
  apply blanks_tl in Hw as [Hc Hw]. cbn [app] in *.
  assert (one_line (w ++ s)) as Hl2 by (intros H; apply Hl; right; exact H).
  rewrite <- (IH Hw Hl2). apply parse_line_iff; [exact Hl|].
  destruct (parse_line_spec (w ++ s) n Hl2) as [B|f k b Q|k b C NQ|NB NQ NC].
  - constructor. intros x [<-|Hx]; auto.
  - constructor. apply quoted_line_cons; assumption.
  - constructor; [apply comment_shape_cons; assumption|].
    intros f k' b' Q. exact (NQ _ _ _ (quoted_line_uncons _ _ _ _ _ Hc Q)).
  - constructor.
    + intros B. apply NB. intros x Hx. apply B. right; exact Hx.
    + intros f k' b' Q. exact (NQ _ _ _ (quoted_line_uncons _ _ _ _ _ Hc Q)).
    + intros k' b' Q. exact (NC _ _ (comment_shape_uncons _ _ _ _ Hc Q)).
Qed.

(** ** The results of [parse_line], one by one *)
Lemma parse_line_message s n m flags tag text : one_line s ->
  (parse_line s n = Some (PMessage m flags tag text) <->
   m = n /\ exists kw body, quoted_line s flags (Some kw) body
             /\ tag = reported_tag flags kw /\ unescapes body text).
Proof.
  intros Hl. split.
  - intros E. apply parse_line_iff in E; [|exact Hl]. inversion E as [| f k b Q Eq| |]; subst.
    destruct k as [k|]; cbn [quoted_result] in Eq; [|discriminate Eq]. injection Eq as <- <- <- <-.
    split; [reflexivity|]. exists k, b. split; [exact Q|]. split; [reflexivity|]. apply unescape_iff; reflexivity.
  - intros (-> & kw & body & Q & -> & U). rewrite (parse_line_quoted _ n _ _ _ Q). cbn [quoted_result].
    apply unescape_iff in U. rewrite U. reflexivity.
Qed.

Lemma parse_line_cont s n m flags text : one_line s ->
  (parse_line s n = Some (PCont m flags text) <->
   m = n /\ exists body, quoted_line s flags None body /\ unescapes body text).
Proof.
  intros Hl. split.
  - intros E. apply parse_line_iff in E; [|exact Hl]. inversion E as [| f k b Q Eq| |]; subst.
    destruct k as [k|]; cbn [quoted_result] in Eq; [discriminate Eq|]. injection Eq as <- <- <-.
    split; [reflexivity|]. exists b. split; [exact Q|]. apply unescape_iff; reflexivity.
  - intros (-> & body & Q & U). rewrite (parse_line_quoted _ n _ _ _ Q). cbn [quoted_result].
    apply unescape_iff in U. rewrite U. reflexivity.
Qed.

Lemma parse_line_comment s n m kind content : one_line s ->
  (parse_line s n = Some (PComment m kind content) <->
   m = n /\ comment_shape s kind content /\ forall flags kw body, ~ quoted_line s flags kw body).
Proof.
  intros Hl. split.
  - intros E. apply parse_line_iff in E; [|exact Hl]. inversion E as [| f k b Q Eq|k c C NQ|]; subst.
    + destruct k; discriminate Eq.
    + auto.
  - intros (-> & C & NQ). apply parse_line_iff; [exact Hl|]. constructor; assumption.
Qed.

Lemma parse_line_blank s n : one_line s -> (parse_line s n = Some PBlank <-> blanks s).
Proof.
  intros Hl. split.
  - intros E. apply parse_line_iff in E; [|exact Hl]. inversion E as [|f k b Q Eq| |]; subst; [assumption|].
    destruct k; discriminate Eq.
  - intros B. apply parse_line_iff; [exact Hl|]. constructor; exact B.
Qed.

Lemma parse_line_none s n : one_line s ->
  (parse_line s n = None <-> ~ blanks s /\ (forall flags kw body, ~ quoted_line s flags kw body)
                            /\ forall kind content, ~ comment_shape s kind content).
Proof.
  intros Hl. split.
  - intros E. apply parse_line_iff in E; [|exact Hl]. inversion E; subst. auto.
  - intros (A & B & C). apply parse_line_iff; [exact Hl|]. constructor; assumption.
Qed.

Lemma escape_one_line s : one_line (escape s).
Proof.
  intros H. induction s as [|c s IH]; cbn [escape] in H; [exact H|].
  apply in_app_iff in H as [H|H]; [|exact (IH H)].
  repeat match type of H with context [if ?b then _ else _] => destruct b eqn:? end;
    cbn in H; repeat destruct H as [H|H]; try discriminate H; try contradiction; subst; discriminate.
Qed.

Lemma written_string_read_back kw s n : keyword kw ->
  parse_line (kw ++ [32; 34] ++ escape s ++ [34]) n = Some (PMessage n [] kw s).
Proof.
  intros Hk. rewrite (parse_line_quoted _ n [] (Some kw) (escape s)).
  - cbn [quoted_result]. rewrite unescape_escape. reflexivity.
  - exists [], [], [], [32], []. cbn [app opt_str]. split; [reflexivity|]. split; [constructor|].
    split; [intros k [= <-]; exact Hk|]. split; [intros x []|]. split; [intros x []|].
    split; [intros x [<-|[]]; apply is_ws_white; reflexivity|]. split; [intros x []|]. apply escape_one_line.
Qed.

Lemma written_cont_read_back s n : parse_line ([34] ++ escape s ++ [34]) n = Some (PCont n [] s).
Proof.
  rewrite (parse_line_quoted _ n [] None (escape s)).
  - cbn [quoted_result]. rewrite unescape_escape. reflexivity.
  - exists [], [], [], [], []. cbn [app opt_str]. split; [reflexivity|]. split; [constructor|].
    split; [intros k [=]|]. do 4 (split; [intros x []|]). apply escape_one_line.
Qed.

Lemma comment_taken_for_string :
  exists text n, one_line text /\ parse_line (lit "# " ++ text) n = Some (PCont n [] (lit "x")).
Proof.
  exists (lit """x"""), 1. split; [|vm_compute; reflexivity].
  intros Hx. cbn in Hx. repeat destruct Hx as [Hx|Hx]; discriminate Hx || contradiction.
Qed.
