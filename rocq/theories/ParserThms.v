(** Errors in plural formulas: from texts to errors. *)
From Coq Require Import String Arith NArith ZArith Bool List Lia.
From Verif Require Import ModelBase ModelLine ModelFormula ModelData ModelParser SpecLine SpecFormula SpecSource SpecParser BaseFacts LineFacts FormulaFacts LexFacts FormulaThms ParserFacts.
Import ListNotations.

(** * Bytes *)
Lemma size_app a b : size (a ++ b) = (size a + size b)%N.
Proof. unfold size, utf8. rewrite flat_map_app, app_length. lia. Qed.
Lemma bytes_size s : bytes s = size s.
Proof.
  induction s as [|c s IH]; [reflexivity|]. change (c :: s) with ([c] ++ s) at 2. rewrite size_app, <- IH.
  cbn [bytes fold_right]. f_equal. unfold char_bytes, size, utf8, encode_char. cbn [flat_map]. rewrite app_nil_r.
  destruct (c <? 128)%N; [reflexivity|]. destruct (c <? 2048)%N; [reflexivity|]. destruct (c <? 65536)%N; reflexivity.
Qed.

(** * The tokens of a text and their places *)
Inductive scanned : str -> str -> list place -> option N -> Prop :=
| sc_end u : scanned u [] [] None
| sc_bad u c s : ~ white c -> (forall t w r, spelled t w -> c :: s <> w ++ r) -> scanned u (c :: s) [] (Some (size u))
| sc_white u c s l b : white c -> scanned (u ++ [c]) s l b -> scanned u (c :: s) l b
| sc_tok u w s t l b : spelled t w -> longest w s -> scanned (u ++ w) s l b -> scanned u (w ++ s) (Place (size u) t w (size (u ++ w)) :: l) b.
Lemma scanned_blanks w : forall u s l b, blanks w -> scanned (u ++ w) s l b -> scanned u (w ++ s) l b.
Proof.
  induction w as [|c w IH]; intros u s l b B H; [rewrite app_nil_r in H; exact H|]. cbn [app]. apply sc_white; [apply B; left; reflexivity|].
  apply IH; [intros x I; apply B; right; exact I|]. rewrite <- app_assoc. exact H.
Qed.
Lemma literal_none c s : is_digit c = false -> lex_literal (c :: s) = None -> forall t w r, spelled t w -> c :: s <> w ++ r.
Proof.
  intros D E t w r Sp Eq. pose proof (lex_literal_best (c :: s)) as B. rewrite E in B. apply spelled_cases in Sp as [I|(-> & N & Dg)].
  - exact (B w t r I Eq).
  - destruct w as [|x w]; [congruence|]. injection Eq as <- _. specialize (Dg c (or_introl eq_refl)). apply is_digit_iff in Dg. congruence.
Qed.
Lemma scan_scanned fuel : forall u s l b, length s < fuel -> scan fuel (size u) s = (l, b) -> scanned u s l b.
Proof.
  induction fuel as [|fuel IH]; intros u s l b L E; [lia|]. destruct s as [|c s]; [injection E as <- <-; constructor|].
  cbn [scan] in E. destruct (is_ws c) eqn:W.
  - destruct (span is_ws (c :: s)) as [w r] eqn:Sp. assert (Nw : w <> []) by (cbn [span] in Sp; rewrite W in Sp; destruct (span is_ws s); injection Sp as <- _; discriminate).
    apply span_spec in Sp as (Es & F & _). rewrite bytes_size, <- size_app in E. rewrite Es in *.
    apply scanned_blanks; [apply blanks_forallb; exact F|]. apply IH; [|exact E]. rewrite app_length in L. destruct w; [congruence|]. cbn [length] in L. lia.
  - destruct (is_digit c) eqn:D.
    + destruct (span is_digit (c :: s)) as [w r] eqn:Sp. assert (Nw : w <> []) by (cbn [span] in Sp; rewrite D in Sp; destruct (span is_digit s); injection Sp as <- _; discriminate).
      apply span_spec in Sp as (Es & F & Hr). rewrite bytes_size, <- size_app in E. destruct (scan fuel (size (u ++ w)) r) as [l' b'] eqn:Er. injection E as <- <-. rewrite Es in *.
      assert (Dg : forall x, In x w -> (48 <= x <= 57)%N) by (intros x I; apply is_digit_iff; rewrite forallb_forall in F; auto).
      apply sc_tok; [constructor; assumption|apply longest_num; assumption|]. apply IH; [|exact Er]. rewrite app_length in L. destruct w; [congruence|]. cbn [length] in L. lia.
    + destruct (lex_literal (c :: s)) as [[t r]|] eqn:El.
      * apply lex_literal_iff in El as (w & Es & Sp & Lg); [|intros x s' [= <- _]; exact D]. rewrite Es in *.
        rewrite app_length, Nat.add_sub, firstn_app, Nat.sub_diag, firstn_all, app_nil_r in E. rewrite bytes_size, <- size_app in E.
        destruct (scan fuel (size (u ++ w)) r) as [l' b'] eqn:Er. injection E as <- <-.
        apply sc_tok; [exact Sp|exact Lg|]. apply IH; [|exact Er]. destruct (spelled_head _ _ Sp) as (x & w' & -> & _). rewrite app_length in L. cbn [length] in L. lia.
      * injection E as <- <-. apply sc_bad; [intros Wc; apply is_ws_white in Wc; congruence|apply literal_none; assumption].
Qed.
Lemma scanned_tokens u s l b : scanned u s l b -> b = None -> tokens_of s (map p_tok l).
Proof. induction 1; intros E; try discriminate E; cbn [map p_tok]; constructor; auto. Qed.
Lemma scanned_begins u s l b : scanned u s l b -> forall l1 p l2, l = l1 ++ p :: l2 ->
  exists v r, s = v ++ p_text p ++ r /\ begins s (map p_tok l1) (p_text p ++ r) /\ spelled (p_tok p) (p_text p) /\ longest (p_text p) r
    /\ p_start p = size (u ++ v) /\ p_end p = size (u ++ v ++ p_text p).
Proof.
  induction 1 as [u|u c s Nw Nt|u c s l b W H IH|u w s t l b Sp Lg H IH]; intros l1 p l2 E; try (destruct l1; discriminate E).
  - destruct (IH _ _ _ E) as (v & r & -> & B & R & Lr & P1 & P2). exists (c :: v), r. split; [reflexivity|]. split; [apply bg_white; assumption|].
    split; [exact R|]. split; [exact Lr|]. rewrite <- !app_assoc in P1, P2. auto.
  - destruct l1 as [|p1 l1]; cbn [app] in E; injection E as E1 E2.
    + subst p. exists [], s. cbn [p_text p_tok p_start p_end app map]. rewrite app_nil_r. repeat split; auto. constructor.
    + subst p1. destruct (IH _ _ _ E2) as (v & r & -> & B & R & Lr & P1 & P2). exists (w ++ v), r. split; [rewrite <- app_assoc; reflexivity|].
      split; [cbn [map p_tok]; apply bg_token; assumption|]. split; [exact R|]. split; [exact Lr|]. rewrite <- !app_assoc in P1, P2. rewrite <- !app_assoc. auto.
Qed.
Lemma scanned_bad u s l b : scanned u s l b -> forall n, b = Some n ->
  exists v r, s = v ++ r /\ r <> [] /\ begins s (map p_tok l) r /\ (forall c r', r = c :: r' -> ~ white c) /\ (forall t w r', spelled t w -> r <> w ++ r') /\ n = size (u ++ v).
Proof.
  induction 1 as [u|u c s Nw Nt|u c s l b W H IH|u w s t l b Sp Lg H IH]; intros n E; try discriminate E.
  - injection E as <-. exists [], (c :: s). rewrite app_nil_r. repeat split; auto; try discriminate; try constructor. intros c' r' [= <- _]. exact Nw.
  - destruct (IH _ E) as (v & r & -> & Nr & B & Wr & Tr & P). exists (c :: v), r. rewrite <- app_assoc in P. repeat split; auto. apply bg_white; assumption.
  - destruct (IH _ E) as (v & r & -> & Nr & B & Wr & Tr & P). exists (w ++ v), r. rewrite <- app_assoc in P. rewrite <- app_assoc. repeat split; auto. apply bg_token; assumption.
Qed.
Lemma scanned_last u s l b : scanned u s l b -> b = None -> exists v w, s = v ++ w /\ blanks w /\ (v = [] -> l = []) /\ forall d, (v = [] -> d = size u) -> last (map p_end l) d = size (u ++ v).
Proof.
  induction 1 as [u|u c s Nw Nt|u c s l b W H IH|u w s t l b Sp Lg H IH]; intros E; try discriminate E.
  - exists [], []. split; [reflexivity|]. split; [intros x []|]. split; [reflexivity|]. intros d Hd. rewrite app_nil_r. apply Hd. reflexivity.
  - destruct (IH E) as (v & w & -> & B & Nv & P). destruct v as [|x v].
    + exists [], (c :: w). split; [reflexivity|]. split; [intros y [<-|I]; [exact W|apply B; exact I]|]. split; [exact Nv|].
      intros d Hd. rewrite (Nv eq_refl), app_nil_r. apply Hd. reflexivity.
    + exists (c :: x :: v), w. split; [reflexivity|]. split; [exact B|]. split; [discriminate|]. intros d _. rewrite (P d) by discriminate. rewrite <- app_assoc. reflexivity.
  - destruct (IH E) as (v & w' & -> & B & Nv & P). exists (w ++ v), w'. split; [apply app_assoc|]. split; [exact B|]. destruct (spelled_head _ _ Sp) as (x & w0 & -> & _).
    split; [discriminate|]. intros d _. rewrite app_assoc. cbn [map p_end].
    assert (Q : last (size (u ++ x :: w0) :: map p_end l) d = last (map p_end l) (size (u ++ x :: w0))).
    { destruct l as [|p l]; [reflexivity|]. cbn [map]. clear. revert p. induction l as [|q l IHl]; intros p; [reflexivity|]. apply (IHl q). }
    rewrite Q. apply P. reflexivity.
Qed.
Lemma scanned_trimmed u s l : scanned u s l None -> not_white_last s -> s <> [] -> last (map p_end l) 0%N = size (u ++ s).
Proof.
  intros H N Ns. destruct (scanned_last _ _ _ _ H eq_refl) as (v & w & -> & B & Nv & P).
  assert (w = []) as ->.
  { destruct w as [|c w]; [reflexivity|]. exfalso. destruct (exists_last (l := c :: w)) as (w' & x & E); [discriminate|]. rewrite E in *.
    apply (N x (v ++ w')); [apply app_assoc|]. apply B, in_or_app. right. left. reflexivity. }
  rewrite app_nil_r in *. apply P. intros ->. congruence.
Qed.

(** * Results *)
Lemma num_value_none ds : ds <> [] -> (forall c, In c ds -> (48 <= c <= 57)%N) -> num_value ds = None -> (max64 < digits_value ds)%Z.
Proof.
  intros N D E. destruct (Z.lt_ge_cases max64 (digits_value ds)) as [|G]; [assumption|]. rewrite (proj2 (num_value_ok ds (digits_value ds))) in E by auto. discriminate.
Qed.
Lemma spelled_num d w : spelled (TNum d) w -> w = d /\ d <> [] /\ forall c, In c d -> (48 <= c <= 57)%N.
Proof. intros S. inversion S; subst. auto. Qed.
Lemma refused_not_viable early unread fuel ts u t r : cautious early -> ts = u ++ t :: r -> run early unread fuel [] ts = Refused (t :: r) -> ~ viable (u ++ [t]).
Proof.
  intros Ca -> E (q & e & D). destruct (run_local early unread fuel Ca _ _ _ E) as (u1 & Eu & L). apply app_inv_tail in Eu. subst u1.
  rewrite map_app, <- app_assoc in D. cbn [map app] in D. apply derives_accepted in D as (fuel' & A).
  apply (L fuel' [] (map unnumbered u) (unnumbered t :: q) e); [constructor|apply unnumbered_twice|cbn; destruct t; reflexivity|exact A].
Qed.
Lemma refused_end early unread fuel ts : cautious early -> run early unread fuel [] ts = Refused [] -> forall e, ~ derives GExpr (map unnumbered ts) e.
Proof.
  intros Ca E e D. destruct (run_local early unread fuel Ca _ _ _ E) as (u1 & Eu & L). rewrite app_nil_r in Eu. subst u1.
  apply derives_accepted in D as (fuel' & A). apply (L fuel' [] (map unnumbered ts) [] e); [constructor|apply unnumbered_twice|reflexivity|]. rewrite app_nil_r. exact A.
Qed.
Lemma start_config : config [].
Proof. apply (cf_await KExpr). constructor. Qed.
Lemma run_accepts early ts e : cautious early -> run early false (S (11 * length ts)) [] ts = Accepted e <-> derives GExpr ts e.
Proof.
  intros Ca. pose proof (run_told early false (S (11 * length ts)) [] ts [] start_config cv_nil) as T. cbn [app] in T. split.
  - intros E. rewrite E in T. apply T.
  - intros D. destruct (run early false (S (11 * length ts)) [] ts) as [e'|r| | |] eqn:E; cbn [told app] in T.
    + destruct T as [_ D']. f_equal. exact (grammar_unambiguous _ _ _ D' D).
    + exfalso. destruct T as (u & -> & V & _). destruct r as [|t r].
      * rewrite app_nil_r in *. destruct (unnumbered_derives _ _ _ D) as (y & Dy). exact (refused_end _ _ _ _ Ca E y Dy).
      * apply (refused_not_viable _ _ _ _ u t r Ca eq_refl E). change (t :: r) with ([t] ++ r) in D. rewrite app_assoc in D. exact (derives_viable _ _ _ D).
    + exfalso. destruct T as (u & d & r & Et & Nd & _). assert (I : In (TNum d) ts) by (rewrite Et; apply in_or_app; right; left; reflexivity).
      assert (Sd : num_value d <> None); [|contradiction]. clear - D I. induction D; repeat (rewrite ?in_app_iff in I; cbn [In] in I); intuition (try discriminate; eauto).
      match goal with E : TNum _ = TNum _ |- _ => injection E as -> end. rewrite (proj2 (num_value_ok d (digits_value d))) in * by auto. discriminate.
    + destruct T as [T _]. discriminate T.
    + exfalso. apply (run_total early false (S (11 * length ts)) [] ts start_config); [cbn [weights fold_right]; lia|exact E].
Qed.
Theorem result_total early s : formula_result early s <> None.
Proof.
  unfold formula_result. destruct (is_empty (trim s)); [discriminate|]. destruct (scan _ 0 (trim s)) as [l bad].
  match goal with |- context [run ?a ?b ?c ?d ?e] => pose proof (run_total a b c d e start_config) as T; destruct (run a b c d e) end; try discriminate.
  - destruct (nth_error _ _); discriminate.
  - exfalso. apply T; [|reflexivity]. rewrite map_length. cbn [weights fold_right]. lia.
Qed.
Theorem result_formula early s e : cautious early -> formula_result early s = Some (inl e) <-> formula_parse s = Some e.
Proof.
  intros Ca. unfold formula_result, formula_parse. destruct (trim s) as [|c m] eqn:Et; cbn [is_empty]; [split; congruence|]. rewrite <- Et. clear c m Et. set (m := trim s).
  destruct (scan (S (length m)) 0 m) as [l bad] eqn:Es. change 0%N with (size []) in Es. pose proof (scan_scanned _ _ _ _ _ (Nat.lt_succ_diag_r _) Es) as Sc.
  destruct bad as [n|].
  - assert (Ln : lex (S (length m)) m = None).
    { destruct (lex (S (length m)) m) as [ts|] eqn:El; [|reflexivity]. exfalso. apply lex_iff in El; [|lia].
      destruct (scanned_bad _ _ _ _ Sc n eq_refl) as (v & r & Em & Nr & B & Wr & Tr & _). clear Em Es Sc. clearbody m. clear - El Nr B Wr Tr.
      revert ts El. induction B as [s0|c s0 ts0 r W B IH|t w s0 ts0 r Sp Lg B IH]; intros ts El.
      - inversion El as [Es|c s' ts' W H Es|t w s' ts' Sp Lg H Es]; subst; [congruence|exact (Wr _ _ eq_refl W)|exact (Tr _ _ _ Sp eq_refl)].
      - apply (IH Nr Wr Tr ts). apply (tokens_of_skip c s0 ts W). exact El.
      - inversion El as [Es|c s' ts' W H Es|t' w' s' ts' Sp' Lg' H Es].
        + symmetry in Es. apply app_eq_nil in Es as [-> _]. destruct (spelled_head _ _ Sp) as (x & r' & Q & _). discriminate Q.
        + destruct (spelled_head _ _ Sp) as (x & r' & -> & Wx). injection Es as -> _. apply is_ws_white in W. congruence.
        + assert (Lw : length w' = length w) by (apply Nat.le_antisymm; [exact (Lg _ _ _ Sp' (eq_sym Es))|exact (Lg' _ _ _ Sp Es)]).
          destruct (app_eq_length _ _ _ _ Es Lw) as [-> ->]. exact (IH Nr Wr Tr _ H). }
    rewrite Ln. split; [|discriminate].
    pose proof (run_told early true (S (11 * length l)) [] (map p_tok l) [] start_config cv_nil) as T.
    destruct (run early true (S (11 * length l)) [] (map p_tok l)); try discriminate.
    + destruct T as [T _]. discriminate T.
    + destruct (nth_error _ _); discriminate.
  - rewrite (proj2 (lex_iff (S (length m)) m (map p_tok l) (Nat.lt_succ_diag_r _)) (scanned_tokens _ _ _ _ Sc eq_refl)), parse_tokens_iff, <- (run_accepts early _ _ Ca), map_length.
    destruct (run early false (S (11 * length l)) [] (map p_tok l)); split; try congruence. destruct (nth_error _ _); discriminate.
Qed.
Theorem result_fault early s f : cautious early -> formula_result early s = Some (inr f) ->
  exists w1 m w2, s = w1 ++ m ++ w2 /\ blanks w1 /\ blanks w2 /\ m <> [] /\ not_white_first m /\ not_white_last m /\ fault_of m f.
Proof.
  intros Ca. unfold formula_result. destruct (trim_decomp s) as (w1 & w2 & E & B1 & B2 & Tm1 & Tm2). apply blanks_forallb in B1, B2. set (m := trim s) in *.
  intros H. exists w1, m, w2. split; [exact E|]. split; [exact B1|]. split; [exact B2|].
  assert (Nm : m <> []) by (intros Q; rewrite Q in H; discriminate H). split; [exact Nm|].
  assert (Nf : not_white_first m) by (intros c m' Q W; rewrite Q in Tm1; cbn in Tm1; apply is_ws_white in W; congruence).
  assert (Nl : not_white_last m).
  { intros c m' Q W. unfold no_end in Tm2. rewrite Q, rev_app_distr in Tm2. cbn in Tm2. apply is_ws_white in W. congruence. }
  split; [exact Nf|]. split; [exact Nl|].
  destruct (is_empty m) eqn:Em; [discriminate H|]. clear Em.
  destruct (scan (S (length m)) 0 m) as [l bad] eqn:Es. change 0%N with (size []) in Es. pose proof (scan_scanned _ _ _ _ _ (Nat.lt_succ_diag_r _) Es) as Sc.
  set (un := match bad with Some _ => true | None => false end) in *.
  pose proof (run_told early un (S (11 * length l)) [] (map p_tok l) [] start_config cv_nil) as T. cbn [app] in T.
  destruct (run early un (S (11 * length l)) [] (map p_tok l)) as [e|r| | |] eqn:Er; try discriminate H; cbn [told app] in T.
  - destruct T as (u & Et & Vu & Fu). destruct r as [|t r].
    + rewrite app_nil_r in Et. subst u. cbn [length] in H. rewrite Nat.sub_0_r, (proj2 (nth_error_None l (length l)) (le_n _)) in H. injection H as <-.
      assert (bad = None) as ->.
      { destruct bad as [n|]; [exfalso|reflexivity]. cbn in un. clear - Er. remember (S (11 * length l)) as fuel eqn:Ef. clear Ef.
        assert (G : forall fuel g ts, run early true fuel g ts <> Refused []).
        { clear. induction fuel as [|fuel IH]; intros g ts; [discriminate|]. cbn [run]. destruct ts as [|t ts]; [discriminate|].
          destruct (early g (hd_error (t :: ts))); [discriminate|]. destruct (act g (hd_error (t :: ts))); try discriminate; apply IH. }
        exact (G _ _ _ Er). }
      change (size []) with 0%N. rewrite (scanned_trimmed [] m l Sc Nl Nm). cbn [app]. apply (fo_eof m (map p_tok l)); auto.
      * exact (scanned_tokens _ _ _ _ Sc eq_refl).
      * exact (refused_end _ _ _ _ Ca Er).
    + symmetry in Et. destruct (map_eq_app p_tok l u (t :: r) (eq_sym Et)) as (l1 & l2 & -> & E1 & E2).
      destruct l2 as [|p l2]; [discriminate E2|]. cbn [map] in E2. injection E2 as E2 E3.
      assert (Nn : nth_error (l1 ++ p :: l2) (length (l1 ++ p :: l2) - length (t :: r)) = Some p).
      { rewrite <- E3, app_length. cbn [length]. rewrite map_length. replace (length l1 + S (length l2) - S (length l2)) with (length l1) by lia.
        rewrite nth_error_app2, Nat.sub_diag by lia. reflexivity. }
      rewrite Nn in H. injection H as <-.
      destruct (scanned_begins _ _ _ _ Sc l1 p l2 eq_refl) as (v & r' & Em & B & Sp & Lg & P1 & P2). cbn [app] in P1, P2. rewrite P1, P2.
      apply (fo_token m v (p_text p) r' u t); auto.
      * rewrite <- E1. exact B.
      * rewrite <- E2. exact Sp.
      * exact (refused_not_viable _ _ _ _ u t r Ca (eq_sym Et) Er).
  - injection H as <-. destruct T as (u & d & r & Et & Nd & Vd & Fu). destruct (map_eq_app p_tok l u (TNum d :: r) Et) as (l1 & l2 & -> & E1 & E2).
    destruct l2 as [|p l2]; [discriminate E2|]. cbn [map] in E2. injection E2 as E2 E3.
    destruct (scanned_begins _ _ _ _ Sc l1 p l2 eq_refl) as (v & r' & Em & B & Sp & Lg & _). rewrite E2 in Sp.
    assert (p_text p = d) as Ed by apply (spelled_num _ _ Sp). rewrite Ed in *. rewrite E1 in B. apply (fo_large m d r' u); auto.
    destruct (spelled_num _ _ Sp) as (_ & N1 & N2). apply num_value_none; assumption.
  - destruct T as (Eu & Vu & Fu). destruct bad as [n|]; [|discriminate Eu]. injection H as <-.
    destruct (scanned_bad _ _ _ _ Sc n eq_refl) as (v & r & Em & Nr & B & Wr & Tr & ->). cbn [app]. apply (fo_invalid m v r (map p_tok l)); auto.
Qed.
Lemma never_cautious : cautious (fun _ _ => false).
Proof. intros g t E. discriminate E. Qed.

(** * The specification of errors *)
Lemma viable_part a b : viable (a ++ b) -> viable a.
Proof. intros (q & e & D). rewrite map_app, <- app_assoc in D. eexists _, _. exact D. Qed.
Lemma tok_unique t w s t' w' s' : spelled t w -> longest w s -> spelled t' w' -> longest w' s' -> w ++ s = w' ++ s' -> t = t' /\ w = w' /\ s = s'.
Proof.
  intros S L S' L' E. assert (Lw : length w = length w') by (apply Nat.le_antisymm; [exact (L' _ _ _ S (eq_sym E))|exact (L _ _ _ S' E)]).
  destruct (app_eq_length _ _ _ _ E Lw) as [<- <-]. split; [|auto].
  apply spelled_cases in S as [I|(-> & N & D)]; apply spelled_cases in S' as [I'|(-> & N' & D')]; [exact (lit_token_fun _ _ _ I I')| | |reflexivity].
  - destruct (lit_token_head _ _ I) as (c & r & -> & _ & Hc). specialize (D' c (or_introl eq_refl)). apply is_digit_iff in D'. congruence.
  - destruct (lit_token_head _ _ I') as (c & r & -> & _ & Hc). specialize (D c (or_introl eq_refl)). apply is_digit_iff in D. congruence.
Qed.
Lemma spelled_not_white t w s c s' : spelled t w -> w ++ s = c :: s' -> ~ white c.
Proof. intros S E W. destruct (spelled_head _ _ S) as (x & r & -> & Hx). injection E as -> _. apply is_ws_white in W. congruence. Qed.
Lemma scanned_white u c s l b : white c -> scanned u (c :: s) l b -> scanned (u ++ [c]) s l b.
Proof.
  intros W H. remember (c :: s) as cs eqn:E. destruct H as [|u c0 s0 N _|u c0 s0 l b W0 H|u w s0 t l b Sp Lg H]; try discriminate E.
  - injection E as -> ->. contradiction.
  - injection E as -> ->. exact H.
  - destruct (spelled_not_white _ _ _ _ _ Sp E W).
Qed.
Lemma scanned_token u t w s l b : spelled t w -> longest w s -> scanned u (w ++ s) l b -> exists l', l = Place (size u) t w (size (u ++ w)) :: l' /\ scanned (u ++ w) s l' b.
Proof.
  intros Sp Lg H. remember (w ++ s) as ws eqn:E. destruct H as [u|u c s0 N T|u c s0 l b W H|u w0 s0 t0 l b Sp0 Lg0 H].
  - symmetry in E. apply app_eq_nil in E as [-> _]. destruct (spelled_head _ _ Sp) as (x & r & Q & _). discriminate Q.
  - exfalso. exact (T _ _ _ Sp E).
  - destruct (spelled_not_white _ _ _ _ _ Sp (eq_sym E) W).
  - destruct (tok_unique _ _ _ _ _ _ Sp0 Lg0 Sp Lg E) as (-> & -> & ->). eauto.
Qed.
Lemma begins_scanned s ts r : begins s ts r -> forall u l b, scanned u s l b -> exists v l1 l2, s = v ++ r /\ l = l1 ++ l2 /\ map p_tok l1 = ts /\ scanned (u ++ v) r l2 b.
Proof.
  induction 1 as [s|c s ts r W B IH|t w s ts r Sp Lg B IH]; intros u l b H.
  - exists [], [], l. rewrite app_nil_r. auto.
  - apply scanned_white in H; [|exact W]. destruct (IH _ _ _ H) as (v & l1 & l2 & -> & -> & E & H'). exists (c :: v), l1, l2. rewrite <- app_assoc in H'. auto.
  - apply (scanned_token _ t w) in H as (l' & -> & H); [|exact Sp|exact Lg]. destruct (IH _ _ _ H) as (v & l1 & l2 & -> & -> & <- & H').
    exists (w ++ v), (Place (size u) t w (size (u ++ w)) :: l1), l2. rewrite <- !app_assoc in *. auto.
Qed.
Lemma tokens_scanned s ts : tokens_of s ts -> forall u l b, scanned u s l b -> map p_tok l = ts /\ b = None.
Proof.
  induction 1 as [|c s ts W T IH|t w s ts Sp Lg T IH]; intros u l b H.
  - remember [] as e eqn:E. destruct H as [| | |u w s t l b Sp Lg H]; try discriminate E; [auto|].
    apply app_eq_nil in E as [-> _]. destruct (spelled_head _ _ Sp) as (x & r & Q & _). discriminate Q.
  - apply scanned_white in H; [|exact W]. eauto.
  - apply (scanned_token _ t w) in H as (l' & -> & H); [|exact Sp|exact Lg]. destruct (IH _ _ _ H) as [<- ->]. auto.
Qed.
Lemma any_scanned s : exists l b, scanned [] s l b.
Proof. destruct (scan (S (length s)) (size []) s) as [l b] eqn:E. exists l, b. apply (scan_scanned (S (length s))); [lia|exact E]. Qed.
(** What an error other than [FLarge] is, in terms of the tokens. *)
Definition fault_at (s : str) (l : list place) (b : option N) (f : fault) : Prop :=
  match f with
  | FToken x w y => exists l1 p l2, l = l1 ++ p :: l2 /\ f = FToken (p_start p) (p_text p) (p_end p) /\ viable (map p_tok l1) /\ ~ viable (map p_tok l1 ++ [p_tok p])
  | FEof x => b = None /\ x = size s /\ viable (map p_tok l) /\ forall e, ~ derives GExpr (map unnumbered (map p_tok l)) e
  | FInvalid x => b = Some x /\ viable (map p_tok l)
  | FLarge => exists d, In (TNum d) (map p_tok l) /\ (max64 < digits_value d)%Z
  end.
Lemma fault_scanned s l b f : scanned [] s l b -> fault_of s f -> fault_at s l b f.
Proof.
  intros Sc [u w r ts t E B Sp Lg V F N|ts T V F N|u r ts E Nr B Wr Tr V F|d r ts B Sp Lg V F M].
  - destruct (begins_scanned _ _ _ B _ _ _ Sc) as (v & l1 & l2 & E' & -> & <- & H). rewrite E in E'. apply app_inv_tail in E'. subst v. cbn [app] in H.
    apply (scanned_token _ t w) in H as (l' & -> & _); [|exact Sp|exact Lg]. exists l1, (Place (size u) t w (size (u ++ w))), l'. auto.
  - destruct (tokens_scanned _ _ T _ _ _ Sc) as [<- ->]. cbn. auto.
  - destruct (begins_scanned _ _ _ B _ _ _ Sc) as (v & l1 & l2 & E' & -> & <- & H). rewrite E in E'. apply app_inv_tail in E'. subst v. cbn [app] in H.
    destruct H as [u'|u' c s0 N T|u' c s0 l b W H|u' w s0 t l b Sp Lg H].
    + congruence.
    + rewrite app_nil_r. cbn. auto.
    + exfalso. exact (Wr _ _ eq_refl W).
    + exfalso. exact (Tr _ _ _ Sp eq_refl).
  - destruct (begins_scanned _ _ _ B _ _ _ Sc) as (v & l1 & l2 & E' & -> & <- & H). apply (scanned_token _ (TNum d) d) in H as (l' & -> & _); [|exact Sp|exact Lg].
    exists d. split; [|exact M]. rewrite map_app. apply in_or_app. right. left. reflexivity.
Qed.
Lemma split_order {A} (a b : list A) x y c d : a ++ x :: b = c ++ y :: d -> (a = c /\ x = y) \/ (exists e, c = (a ++ [x]) ++ e) \/ exists e, a = (c ++ [y]) ++ e.
Proof.
  revert c. induction a as [|z a IH]; intros [|z' c] E; cbn [app] in E; injection E as E1 E2.
  - auto.
  - right. left. subst. exists c. reflexivity.
  - right. right. subst. exists a. reflexivity.
  - subst z'. destruct (IH _ E2) as [[-> ->]|[(e & ->)|(e & ->)]]; [auto|right; left; exists e; reflexivity|right; right; exists e; reflexivity].
Qed.
Theorem fault_unique s f f' : fault_of s f -> fault_of s f' -> f <> FLarge -> f' <> FLarge -> f = f'.
Proof.
  destruct (any_scanned s) as (l & b & Sc). intros F F' N N'. apply (fault_scanned _ _ _ _ Sc) in F, F'.
  assert (V1 : forall l1 p l2, l = l1 ++ p :: l2 -> ~ viable (map p_tok l1 ++ [p_tok p]) -> ~ viable (map p_tok l)).
  { intros l1 p l2 -> Nv V. apply Nv. apply (viable_part _ (map p_tok l2)). rewrite <- app_assoc. rewrite map_app in V. exact V. }
  destruct f as [x|x|x w y|], f' as [x'|x'|x' w' y'|]; try contradiction; cbn [fault_at] in F, F'.
  - destruct F as [F _], F' as [F' _]. congruence.
  - destruct F as [F _], F' as [F' _]. congruence.
  - destruct F' as (l1 & p & l2 & E & _ & _ & Nv). destruct (V1 _ _ _ E Nv). apply F.
  - destruct F as [F _], F' as [F' _]. congruence.
  - destruct F as (_ & -> & _), F' as (_ & -> & _). reflexivity.
  - destruct F' as (l1 & p & l2 & E & _ & _ & Nv). destruct (V1 _ _ _ E Nv). apply F.
  - destruct F as (l1 & p & l2 & E & _ & _ & Nv). destruct (V1 _ _ _ E Nv). apply F'.
  - destruct F as (l1 & p & l2 & E & _ & _ & Nv). destruct (V1 _ _ _ E Nv). apply F'.
  - destruct F as (l1 & p & l2 & E & -> & V & Nv), F' as (l1' & p' & l2' & E' & -> & V' & Nv'). rewrite E in E'.
    destruct (split_order _ _ _ _ _ _ E') as [[-> ->]|[(e & ->)|(e & ->)]]; [reflexivity| |]; exfalso.
    + apply Nv. rewrite !map_app in V'. apply viable_part in V'. exact V'.
    + apply Nv'. rewrite !map_app in V. apply viable_part in V. exact V.
Qed.
Theorem fault_no_formula s f ts e : fault_of s f -> tokens_of s ts -> ~ derives GExpr ts e.
Proof.
  intros F T D. destruct (any_scanned s) as (l & b & Sc). apply (fault_scanned _ _ _ _ Sc) in F. destruct (tokens_scanned _ _ T _ _ _ Sc) as [E ->]. subst ts.
  destruct f as [x|x|x w y|]; cbn [fault_at] in F.
  - destruct F as [F _]. discriminate F.
  - destruct F as (_ & _ & _ & N). apply unnumbered_derives in D as (y & D). exact (N _ D).
  - destruct F as (l1 & p & l2 & -> & _ & _ & N). apply N. rewrite map_app in D. cbn [map] in D. change (p_tok p :: map p_tok l2) with ([p_tok p] ++ map p_tok l2) in D. rewrite app_assoc in D.
    exact (derives_viable _ _ _ D).
  - destruct F as (d & I & M). pose proof (derives_fit _ _ _ D d I). lia.
Qed.

(** * Plural forms *)
Definition formula_source (values : smap str) : str := unwrap_or_default (sm_get (lit "plural") values).
Theorem forms_same early expected pf input : cautious early ->
  (forall values, parse_map input = Some values -> formula_parse (formula_source values) <> None) ->
  forms_result early expected pf input = Some (plural_forms_parse pf input).
Proof.
  intros Ca H. unfold forms_result, plural_forms_parse. destruct (parse_map input) as [values|]; [|reflexivity]. specialize (H values eq_refl). unfold formula_source in H.
  set (src := unwrap_or_default (sm_get (lit "plural") values)) in *. destruct (formula_parse src) as [e|] eqn:Ep; [|congruence].
  apply (result_formula early src e Ca) in Ep. rewrite Ep. destruct (sm_get (lit "nplurals") values) as [n|]; [|reflexivity]. destruct (parse_unsigned (usize_max pf) n); reflexivity.
Qed.
Theorem forms_fault early expected pf input values : cautious early -> parse_map input = Some values -> formula_parse (formula_source values) = None ->
  exists w1 m w2 f, formula_source values = w1 ++ m ++ w2 /\ blanks w1 /\ blanks w2 /\ m <> [] /\ not_white_first m /\ not_white_last m /\ fault_of m f
    /\ forms_result early expected pf input = Some (Err (EPluralForms (fault_text (expected (formula_source values) f) f))).
Proof.
  intros Ca P N. unfold forms_result. rewrite P. fold (formula_source values). destruct (formula_result early (formula_source values)) as [[e|f]|] eqn:Er.
  - apply (result_formula _ _ _ Ca) in Er. congruence.
  - destruct (result_fault _ _ _ Ca Er) as (w1 & m & w2 & H). exists w1, m, w2, f. tauto.
  - destruct (result_total _ _ Er).
Qed.
(** An error that is reported before the reductions. *)
Definition after_var (g : list symbol) (t : option tok) : bool := match g, t with [Y TVar], Some TVar => true | _, _ => false end.
Lemma after_var_cautious : cautious after_var.
Proof.
  intros g t E g' ts F H (fuel & e & A).
  assert (R : run never false 20 [Y TVar] [TVar] = Refused [TVar]) by reflexivity.
  destruct (run_local never false 20 never_cautious _ _ _ R) as (u & Eu & L). change [TVar] with ([] ++ [TVar]) in Eu at 1. apply app_inv_tail in Eu. subst u.
  apply (L fuel g' [] ts e); [|reflexivity| |exact A]; destruct g as [|[[]|] [|]]; try discriminate E; destruct t as [[]|]; try discriminate E; [exact F|exact H].
Qed.
Theorem result_grammar early s e : cautious early -> formula_result early s = Some (inl e)
  <-> (blanks s /\ e = NVar) \/ (~ blanks s /\ exists ts, tokens_of s ts /\ derives GExpr ts e).
Proof. intros Ca. rewrite (result_formula early s e Ca). apply formula_parse_iff. Qed.
Theorem fault_texts : forall expected,
  (forall n, fault_text expected (FInvalid n) = lit "Invalid token at " ++ dec_str n)
  /\ (forall n, fault_text expected (FEof n) = lit "Unrecognized EOF found at " ++ dec_str n ++ expected_text expected)
  /\ (forall a w b, fault_text expected (FToken a w b) = lit "Unrecognized token `" ++ w ++ lit "` found at " ++ dec_str a ++ lit ":" ++ dec_str b ++ expected_text expected)
  /\ fault_text expected FLarge = lit "number too large to fit in target type".
Proof. intros expected. repeat split. Qed.
Theorem expected_texts : expected_text [] = []
  /\ (forall x, expected_text [x] = 10%N :: lit "Expected one of " ++ x)
  /\ forall x l y, expected_text (x :: l ++ [y]) = 10%N :: lit "Expected one of " ++ x ++ flat_map (fun z => lit ", " ++ z) l ++ lit " or " ++ y.
Proof.
  split; [reflexivity|]. split; [intros x; cbn [expected_text expected_rest]; rewrite app_nil_r; reflexivity|].
  intros x l y. cbn [expected_text]. change ([10%N] ++ ?s) with (10%N :: s). do 3 f_equal.
  induction l as [|z l IH]; [reflexivity|]. cbn [app expected_rest flat_map]. destruct (l ++ [y]) as [|a r] eqn:E; [destruct l; discriminate E|]. rewrite IH, <- !app_assoc. reflexivity.
Qed.
