(** The lexer of formulas. *)
From Coq Require Import String Arith NArith ZArith Bool List Lia.
From Coq Require Import ZifyBool ZifyNat ZifyN.
From Verif Require Import ModelBase ModelFormula BaseFacts SpecLine LineFacts SpecFormula FormulaFacts.
Import ListNotations.

Lemma strip_prefix_iff p s r : strip_prefix p s = Some r <-> s = p ++ r.
Proof.
  revert s. induction p as [|c p IH]; intros s; cbn [strip_prefix app].
  - split; [intros [= <-]; reflexivity|intros ->; reflexivity].
  - destruct s as [|x s]; [split; discriminate|].
    destruct (N.eqb_spec c x) as [->|Hn].
    + rewrite IH. split; [intros ->; reflexivity|intros [= ->]; reflexivity].
    + split; [discriminate|intros [= E _]; congruence].
Qed.

Lemma span_spec p s : forall a b, span p s = (a, b) ->
  s = a ++ b /\ forallb p a = true /\ no_start p b.
Proof.
  induction s as [|c s IH]; intros a b E; cbn [span] in E.
  - injection E as <- <-. repeat split.
  - destruct (p c) eqn:Pc.
    + destruct (span p s) as [a' b'] eqn:Es. injection E as <- <-.
      destruct (IH _ _ eq_refl) as (-> & H1 & H2). repeat split; [|exact H2]. cbn. rewrite Pc. exact H1.
    + injection E as <- <-. repeat split. cbn. exact Pc.
Qed.

Definition lex_step (s : str) (best : option (tok * str)) (lt : str * tok) : option (tok * str) :=
  match strip_prefix (fst lt) s with
  | None => best
  | Some rest =>
      match best with
      | Some (_, rest') => if length rest <? length rest' then Some (snd lt, rest) else best
      | None => Some (snd lt, rest)
      end
  end.
Lemma lex_literal_eq s : lex_literal s = fold_left (lex_step s) lit_tokens None.
Proof. reflexivity. Qed.

(** what the fold has found *)
Definition best_of (s : str) (l : list (str * tok)) (best : option (tok * str)) : Prop :=
  match best with
  | None => forall w t r, In (w, t) l -> s <> w ++ r
  | Some (t, r) => (exists w, In (w, t) l /\ s = w ++ r)
                   /\ forall w' t' r', In (w', t') l -> s = w' ++ r' -> length w' <= length s - length r
  end.

Lemma lex_fold s l done best : best_of s done best ->
  best_of s (done ++ l) (fold_left (lex_step s) l best).
Proof.
  revert done best. induction l as [|[w t] l IH]; intros done best H; cbn [fold_left].
  - rewrite app_nil_r. exact H.
  - replace (done ++ (w, t) :: l) with ((done ++ [(w, t)]) ++ l) by (rewrite <- app_assoc; reflexivity).
    apply IH. clear IH. unfold lex_step. cbn [fst snd].
    destruct (strip_prefix w s) as [r|] eqn:E.
    + apply strip_prefix_iff in E. destruct best as [[t0 r0]|].
      * destruct H as [(w0 & H0 & E0) H1]. destruct (length r <? length r0) eqn:L; split.
        -- exists w. split; [apply in_app_iff; right; left; reflexivity|exact E].
        -- intros w' t' r' Hi E'. apply in_app_iff in Hi as [Hi|[[= <- <-]|[]]].
           ++ specialize (H1 _ _ _ Hi E'). rewrite E in *. rewrite E0 in H1. apply (f_equal (@length _)) in E0.
              rewrite !app_length in *. lia.
           ++ rewrite E, app_length. lia.
        -- exists w0. split; [apply in_app_iff; left; exact H0|exact E0].
        -- intros w' t' r' Hi E'. apply in_app_iff in Hi as [Hi|[[= <- <-]|[]]].
           ++ exact (H1 _ _ _ Hi E').
           ++ rewrite E, app_length in *. lia.
      * split.
        -- exists w. split; [apply in_app_iff; right; left; reflexivity|exact E].
        -- intros w' t' r' Hi E'. apply in_app_iff in Hi as [Hi|[[= <- <-]|[]]].
           ++ exfalso. exact (H _ _ _ Hi E').
           ++ rewrite E, app_length. lia.
    + assert (forall r, s <> w ++ r) as Hn.
      { intros r Er. apply strip_prefix_iff in Er. congruence. }
      destruct best as [[t0 r0]|].
      * destruct H as [(w0 & H0 & E0) H1]. split.
        -- exists w0. split; [apply in_app_iff; left; exact H0|exact E0].
        -- intros w' t' r' Hi E'. apply in_app_iff in Hi as [Hi|[[= <- <-]|[]]]; [exact (H1 _ _ _ Hi E')|].
           exfalso; exact (Hn _ E').
      * intros w' t' r' Hi E'. apply in_app_iff in Hi as [Hi|[[= <- <-]|[]]]; [exact (H _ _ _ Hi E')|].
        exact (Hn _ E').
Qed.

Lemma lex_literal_best s : best_of s lit_tokens (lex_literal s).
Proof.
  rewrite lex_literal_eq. apply (lex_fold s lit_tokens [] None). intros w t r [].
Qed.

Lemma spelled_cases t w : spelled t w <->
  In (w, t) lit_tokens \/ (t = TNum w /\ w <> [] /\ forall c, In c w -> (48 <= c <= 57)%N).
Proof.
  split.
  - intros S. inversion S; subst; try (left; vm_compute; tauto). right; auto.
  - intros [H|(-> & H1 & H2)]; [|constructor; assumption].
    cbn [In lit_tokens] in H. repeat destruct H as [H|H]; try (injection H as <- <-; constructor). destruct H.
Qed.

Lemma lit_token_head w t : In (w, t) lit_tokens ->
  exists c r, w = c :: r /\ is_ws c = false /\ is_digit c = false.
Proof.
  intros H. cbn [In lit_tokens] in H.
  repeat (destruct H as [H|H]; [injection H as <- <-; eexists _, _; split; [reflexivity|split; reflexivity]|]).
  destruct H.
Qed.

Lemma lit_token_fun w t t' : In (w, t) lit_tokens -> In (w, t') lit_tokens -> t = t'.
Proof.
  intros H H'. cbn [In lit_tokens] in H.
  repeat (destruct H as [H|H];
    [injection H as <- <-; cbn [In lit_tokens] in H';
     repeat (destruct H' as [H'|H']; [first [injection H' as <-; reflexivity|discriminate H']|]); destruct H'|]).
  destruct H.
Qed.

Lemma digit_not_ws c : is_digit c = true -> is_ws c = false.
Proof. unfold is_digit, is_ws. lia. Qed.

Lemma spelled_head t w : spelled t w -> exists c r, w = c :: r /\ is_ws c = false.
Proof.
  intros S. apply spelled_cases in S as [S|(-> & S1 & S2)].
  - destruct (lit_token_head _ _ S) as (c & r & -> & H & _). eauto.
  - destruct w as [|c w]; [congruence|]. exists c, w. split; [reflexivity|]. apply digit_not_ws, is_digit_iff, S2.
    left; reflexivity.
Qed.

Lemma app_eq_length {A} (a b c d : list A) : a ++ b = c ++ d -> length a = length c -> a = c /\ b = d.
Proof.
  revert c. induction a as [|x a IH]; intros [|y c] E L; cbn in *; try discriminate L; [auto|].
  injection E as -> E. injection L as L. destruct (IH _ E L) as [-> ->]. auto.
Qed.

(** Longest literal at a position where no digit and no blank stands. *)
Lemma lex_literal_iff s t r :
  (forall c s', s = c :: s' -> is_digit c = false) ->
  (lex_literal s = Some (t, r) <-> exists w, s = w ++ r /\ spelled t w /\ longest w r).
Proof.
  intros Hd. pose proof (lex_literal_best s) as B. split.
  - intros E. rewrite E in B. destruct B as [(w & Hi & ->) Hm]. exists w. split; [reflexivity|].
    split; [apply spelled_cases; left; exact Hi|].
    intros t' w' s' S E'. apply spelled_cases in S as [S|(-> & S1 & S2)].
    + specialize (Hm _ _ _ S E'). rewrite app_length in Hm. lia.
    + exfalso. destruct w' as [|c w']; [congruence|]. specialize (Hd c (w' ++ s')).
      rewrite E' in Hd. specialize (Hd eq_refl). specialize (S2 c (or_introl eq_refl)).
      apply is_digit_iff in S2. congruence.
  - intros (w & -> & S & L). apply spelled_cases in S as [S|(-> & S1 & S2)].
    + destruct (lex_literal (w ++ r)) as [[t0 r0]|].
      * destruct B as [(w0 & Hi & E0) Hm].
        specialize (Hm _ _ _ S eq_refl).
        specialize (L t0 w0 r0 (proj2 (spelled_cases _ _) (or_introl Hi)) E0).
        assert (length w0 = length w) as Hw.
        { rewrite E0, app_length in Hm. lia. }
        destruct (app_eq_length _ _ _ _ E0 (eq_sym Hw)) as [<- <-].
        rewrite (lit_token_fun _ _ _ S Hi). reflexivity.
      * exfalso. exact (B _ _ _ S eq_refl).
    + exfalso. destruct w as [|c w]; [congruence|]. specialize (Hd c (w ++ r) eq_refl).
      specialize (S2 c (or_introl eq_refl)). apply is_digit_iff in S2. congruence.
Qed.

Lemma tokens_of_skip c s ts : white c -> tokens_of (c :: s) ts <-> tokens_of s ts.
Proof.
  intros Hc. split; [|intros H; constructor; assumption].
  intros H. inversion H as [|c' s' ts' _ H'|t w s' ts' S L H' E]; subst; [exact H'|].
  exfalso. apply spelled_head in S as (x & r & -> & Hx). injection E as -> _.
  apply is_ws_white in Hc. congruence.
Qed.
Lemma tokens_of_skips w s ts : blanks w -> tokens_of (w ++ s) ts <-> tokens_of s ts.
Proof.
  induction w as [|c w IH]; intros B; [reflexivity|]. cbn [app].
  rewrite tokens_of_skip by (apply B; left; reflexivity). apply IH. intros x Hx; apply B; right; exact Hx.
Qed.

(** A number is followed by no digit. *)
Lemma longest_num ds s : ds <> [] -> (forall c, In c ds -> (48 <= c <= 57)%N) ->
  (longest ds s <-> no_start is_digit s).
Proof.
  intros Hn Hd. split.
  - intros L. destruct s as [|c s]; [exact I|]. cbn. destruct (is_digit c) eqn:E; [exfalso|reflexivity].
    specialize (L (TNum (ds ++ [c])) (ds ++ [c]) s).
    assert (length (ds ++ [c]) <= length ds); [|rewrite app_length in *; cbn in *; lia].
    apply L.
    + constructor; [destruct ds; discriminate|].
      intros x Hx. apply in_app_iff in Hx as [Hx|[<-|[]]]; [auto|]. apply is_digit_iff; exact E.
    + rewrite <- app_assoc. reflexivity.
  - intros Hs t' w' s' S E.
    apply spelled_cases in S as [S|(-> & S1 & S2)].
    + exfalso. apply lit_token_head in S as (x & r & -> & _ & Hx). destruct ds as [|c ds]; [congruence|].
      injection E as -> _. specialize (Hd x (or_introl eq_refl)). apply is_digit_iff in Hd. congruence.
    + assert (forallb is_digit w' = true) as F by (apply forallb_forall; intros; apply is_digit_iff; auto).
      clear S1 S2. revert w' E F. induction ds as [|c ds IH]; intros w' E F.
      * destruct w' as [|y w']; [cbn; lia|]. cbn [app] in E. subst s. cbn in Hs, F.
        rewrite Hs in F. discriminate F.
      * destruct w' as [|y w']; [cbn; lia|]. injection E as <- E. cbn [length forallb] in *.
        apply andb_true_iff in F as [_ F].
        destruct ds as [|c' ds].
        -- destruct w' as [|y w']; [cbn; lia|]. cbn [app] in E. subst s. cbn in Hs, F.
           rewrite Hs in F. discriminate F.
        -- apply le_n_S, IH; [discriminate|intros x Hx; apply Hd; right; exact Hx|exact E|exact F].
Qed.

Theorem lex_iff fuel : forall s ts, length s < fuel -> (lex fuel s = Some ts <-> tokens_of s ts).
Proof.
  induction fuel as [|fuel IH]; intros s ts Hl; [lia|].
  destruct s as [|c s].
  - cbn [lex]. split; [intros [= <-]; constructor|].
    intros H. inversion H as [| |t w s' ts' S L H' E]; [reflexivity|].
    exfalso. apply app_eq_nil in E as [-> _]. apply spelled_head in S as (x & r & [=] & _).
  - cbn [lex length] in *. destruct (is_ws c) eqn:W.
    + destruct (span is_ws (c :: s)) as [a b] eqn:Es.
      assert (a <> []) as Ha by (cbn [span] in Es; rewrite W in Es; destruct (span is_ws s); injection Es as <- _; discriminate).
      apply span_spec in Es as (E & F & _).
      cbn [snd]. rewrite E, tokens_of_skips by (apply blanks_forallb; exact F).
      apply IH. apply (f_equal (@length _)) in E. rewrite app_length in E. destruct a; [congruence|]. cbn in E. lia.
    + destruct (is_digit c) eqn:D.
      * destruct (span is_digit (c :: s)) as [a b] eqn:Es.
        assert (a <> []) as Ha by (cbn [span] in Es; rewrite D in Es; destruct (span is_digit s); injection Es as <- _; discriminate).
        apply span_spec in Es as (E & F & Hb).
        assert (forall x, In x a -> (48 <= x <= 57)%N) as Fa
          by (intros x Hx; apply is_digit_iff; rewrite forallb_forall in F; auto).
        assert (length b < fuel) as Hlb.
        { apply (f_equal (@length _)) in E. rewrite app_length in E. destruct a; [congruence|]. cbn in E. lia. }
        rewrite E. split.
        -- destruct (lex fuel b) as [ts'|] eqn:El; [|discriminate]. intros [= <-].
           apply IH in El; [|exact Hlb]. constructor; [constructor; assumption| |exact El].
           apply longest_num; assumption.
        -- intros H. inversion H as [E0|x s' ts' Wx H' E0|t w s' ts' S L H' E0]; subst.
           ++ rewrite <- E0 in E. discriminate E.
           ++ rewrite <- E0 in E. injection E as -> _. apply is_ws_white in Wx. congruence.
           ++ rewrite <- E0 in E. apply spelled_cases in S as [S|(-> & S1 & S2)].
              ** exfalso. apply lit_token_head in S as (x & r & -> & _ & Hx). injection E as -> _. congruence.
              ** assert (w = a /\ s' = b) as [-> ->].
                 { apply (longest_num w s' S1 S2) in L.
                   apply (run_unique is_digit); try assumption.
                   apply forallb_forall; intros x Hx; apply is_digit_iff; auto. }
                 apply IH in H'; [|exact Hlb]. rewrite H'. reflexivity.
      * assert (forall x s', c :: s = x :: s' -> is_digit x = false) as Hd by (intros x s' [= <- _]; exact D).
        split.
        -- destruct (lex_literal (c :: s)) as [[t r]|] eqn:El; [|discriminate].
           apply lex_literal_iff in El as (w & E & S & L); [|exact Hd].
           destruct (lex fuel r) as [ts'|] eqn:Er; [|discriminate]. intros [= <-].
           rewrite E. constructor; try assumption. apply IH; [|exact Er].
           apply spelled_head in S as (x & rr & -> & _). apply (f_equal (@length _)) in E.
           rewrite app_length in E. cbn in E. lia.
        -- intros H. inversion H as [E0|x s' ts' Wx H' E0|t w s' ts' S L H' E0].
           ++ apply is_ws_white in Wx. congruence.
           ++ assert (lex_literal (c :: s) = Some (t, s')) as El.
              { apply lex_literal_iff; [exact Hd|]. exists w. auto. }
              rewrite <- E0 in El. rewrite El.               apply IH in H'; [rewrite H'; reflexivity|].
              apply spelled_head in S as (y & rr & -> & _). apply (f_equal (@length _)) in E0.
              rewrite app_length in E0. cbn in E0. lia.
Qed.
