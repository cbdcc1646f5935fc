(** The stack needed for refusing a text that is no formula. *)
From Coq Require Import String Arith NArith ZArith Bool List Lia.
From Verif Require Import ModelBase ModelLine ModelFormula ModelData ModelMachine ModelParser ModelDiscard SpecLine SpecFormula SpecSource SpecHeader SpecWriter SpecMachine SpecParser
  BaseFacts LineFacts FormulaFacts LexFacts FormulaThms SelectFacts ParserFacts ParserThms MachineFacts.
Import ListNotations.

(** What is left over consists of parts of the text. *)
Definition low (n : nat) (g : list symbol) : Prop := forall e, In e (trees g) -> height e <= n.
Lemma covers_low g p : covers g p -> low (length p) g.
Proof.
  induction 1 as [|t g p V IH|k e g p q V IH D]; intros x I.
  - destruct I.
  - rewrite app_length. specialize (IH x I). lia.
  - rewrite app_length. destruct I as [<-|I]; [apply derives_height in D; lia|]. specialize (IH x I). lia.
Qed.
Lemma rest_low early unread fuel : forall g ts p, config g -> covers g p -> low (length p + length ts) (rest early unread fuel g ts).
Proof.
  assert (W : forall g n m, low n g -> n <= m -> low m g) by (intros g n m L H x I; specialize (L x I); lia).
  induction fuel as [|fuel IH]; intros g ts p C V; pose proof (W g _ (length p + length ts) (covers_low g p V) ltac:(lia)) as Here; [exact Here|]. cbn [rest].
  assert (M : low (length p + length ts) (if early g (hd_error ts) then g
               else match act g (hd_error ts), ts with
                    | Shift, t :: ts' => rest early unread fuel (Y t :: g) ts'
                    | Reduce g', _ => rest early unread fuel g' ts
                    | TooLarge, _ => tl g
                    | _, _ => g
                    end)).
  { destruct (early g (hd_error ts)); [exact Here|]. destruct (act g (hd_error ts)) as [|g'| |] eqn:E.
    - apply act_shift in E as (u & Eu & Es). destruct ts as [|t ts']; [discriminate Eu|]. injection Eu as <-.
      eapply W; [exact (IH (Y t :: g) ts' (p ++ [t]) (shift_config _ _ C Es) (cv_tok t g p V))|]. rewrite app_length. cbn [length]. lia.
    - apply act_config in E; [|exact C]. specialize (IH g' ts p (reduces_config _ _ C E) (reduces_covers _ _ _ E V)). destruct ts; exact IH.
    - assert (L : low (length p + length ts) (tl g)); [|destruct ts; exact L]. intros x I. apply Here. destruct g as [|s g]; [exact I|]. unfold trees. cbn [flat_map]. apply in_or_app. right. exact I.
    - destruct ts; exact Here. }
  destruct ts as [|t ts]; [destruct unread; [exact Here|exact M]|exact M].
Qed.
Lemma scanned_length u s l b : scanned u s l b -> length l <= length s.
Proof. induction 1 as [| | |u w s t l b Sp Lg H IH]; cbn [length]; try lia. destruct (spelled_head _ _ Sp) as (x & r & -> & _). rewrite app_length. cbn [length]. lia. Qed.
Lemma left_over_low early s e : In e (left_over early s) -> height e <= length s.
Proof.
  unfold left_over. destruct (trim_decomp s) as (w1 & w2 & E & _). set (m := trim s) in *. destruct (scan (S (length m)) 0 m) as [l bad] eqn:Es.
  change 0%N with (size []) in Es. pose proof (scan_scanned _ _ _ _ _ (Nat.lt_succ_diag_r _) Es) as Sc. apply scanned_length in Sc.
  intros I. apply (rest_low _ _ _ [] _ [] start_config cv_nil) in I. rewrite map_length in I. cbn [length] in I. rewrite E, !app_length. lia.
Qed.
Theorem refusal_room room early s : length s <= room -> stack_formula room early s = Some (formula_result early s).
Proof.
  intros L. unfold stack_formula. destruct (formula_result early s) as [[e|f]|]; try reflexivity.
  assert (forallb (stack_drop room) (left_over early s) = true) as ->; [|reflexivity]. apply forallb_forall. intros e I. apply stack_drop_exact. apply left_over_low in I. lia.
Qed.
Theorem refusal_same room early s r : stack_formula room early s = Some r -> formula_result early s = r.
Proof. unfold stack_formula. destruct (formula_result early s) as [[e|f]|]; try congruence. destruct (forallb _ _); congruence. Qed.
Theorem refusal_exact room early s : stack_formula room early s = None <-> (exists f, formula_result early s = Some (inr f)) /\ exists e, In e (left_over early s) /\ room < height e.
Proof.
  unfold stack_formula. destruct (formula_result early s) as [[e|f]|]; try (split; [discriminate|intros ((f & Q) & _); discriminate Q]).
  destruct (forallb (stack_drop room) (left_over early s)) eqn:F; split; try discriminate.
  - intros (_ & e & I & H). rewrite forallb_forall in F. specialize (F e I). apply stack_drop_exact in F. lia.
  - intros _. split; [eauto|]. assert (~ Forall (fun e => stack_drop room e = true) (left_over early s)) as N.
    { intros A. rewrite Forall_forall in A. rewrite (proj2 (forallb_forall _ _) A) in F. discriminate F. }
    apply Exists_Forall_neg in N; [|intros e; destruct (stack_drop room e); [left; reflexivity|right; discriminate]].
    apply Exists_exists in N as (e & I & Q). exists e. split; [exact I|]. destruct (Nat.lt_ge_cases room (height e)) as [|G]; [assumption|]. destruct (Q (proj2 (stack_drop_exact e room) G)).
  - reflexivity.
Qed.

(** * A text that is refused at its end *)
Lemma steps_suffix c c' : steps c c' -> exists u, snd c = u ++ snd c'.
Proof. induction 1 as [c|c c1 c2 [g t ts E|g ts g' E] _ (u & IH)]; cbn [snd] in *; [exists []; reflexivity|exists (t :: u); cbn; congruence|eauto]. Qed.
Lemma steps_accepts c c' : steps c c' -> accepts (fst c') (snd c') -> accepts (fst c) (snd c).
Proof. intros S (fuel & e & A). destruct (steps_run _ _ fuel e S A) as (fuel' & A'). exists fuel', e. exact A'. Qed.
Lemma steps_early early unread w q c c' : cautious early -> w <> [] -> steps c c' -> snd c' = w ++ q -> accepts (fst c') (snd c') ->
  forall a fuel, snd c = a ++ w ++ q -> run early unread fuel (fst c) (a ++ w) <> Out ->
  exists fuel', run early unread fuel (fst c) (a ++ w) = run early unread fuel' (fst c') w /\ rest early unread fuel (fst c) (a ++ w) = rest early unread fuel' (fst c') w.
Proof.
  intros Ca Nw S Ec Ac. induction S as [c|c c1 c2 St S IH]; intros a fuel E NO.
  - rewrite Ec in E. change (w ++ q) with ([] ++ w ++ q) in E at 1. apply app_inv_tail in E. subst a. exists fuel. auto.
  - specialize (IH Ec Ac). pose proof (steps_accepts _ _ S Ac) as Ac1.
    assert (Ac0 : accepts (fst c) (snd c)) by (apply (steps_accepts c c1); [econstructor; [exact St|constructor]|exact Ac1]).
    destruct fuel as [|fuel]; [exfalso; apply NO; reflexivity|].
    assert (Hh : hd_error (a ++ w) = hd_error (snd c)) by (rewrite E; destruct a, w; try reflexivity; congruence).
    assert (Ey : early (fst c) (hd_error (a ++ w)) = false).
    { destruct (early (fst c) (hd_error (a ++ w))) eqn:Ey; [exfalso|reflexivity]. refine (Ca _ _ Ey (fst c) (snd c) _ _ Ac0); [|rewrite Hh; reflexivity].
      clear. induction (fst c) as [|[t|k e] g IHg]; constructor; auto; reflexivity. }
    destruct (steps_suffix _ _ S) as (u & Eu). rewrite Ec in Eu.
    destruct St as [g t ts Es|g ts g' Er]; cbn [fst snd] in *.
    + rewrite Eu in E. change (t :: u ++ w ++ q) with ((t :: u) ++ w ++ q) in E. apply app_inv_tail in E. subst a. cbn [app] in *.
      cbn [run rest hd_error act] in *. cbn [hd_error] in Ey. rewrite Ey, Es in *. exact (IH u fuel Eu NO).
    + assert (Hr : run early unread (Datatypes.S fuel) g (a ++ w) = run early unread fuel g' (a ++ w) /\ rest early unread (Datatypes.S fuel) g (a ++ w) = rest early unread fuel g' (a ++ w)).
      { destruct (a ++ w) as [|t r] eqn:Ea; [destruct a, w; try discriminate Ea; congruence|]. cbn [run rest]. rewrite Ey, Hh, Er. auto. }
      destruct Hr as [Hr1 Hr2]. rewrite Hr1 in *. rewrite Hr2. exact (IH a fuel E NO).
Qed.
Lemma sum_plus_tokens k : tokens_of (sum_text k ++ [43%N]) (sum_tokens k ++ [TPlus]).
Proof.
  assert (tokens_of (concat (repeat [43; 110]%N k) ++ [43%N]) (concat (repeat [TPlus; TVar] k) ++ [TPlus]) /\ match concat (repeat [43; 110]%N k) ++ [43%N] with 111%N :: _ => False | _ => True end) as [T R].
  { induction k as [|k [IH R]]; [split; [apply (to_token TPlus [43%N] [] []); [constructor|apply longest_plus|constructor]|exact Logic.I]|]. split; [|exact Logic.I]. cbn [repeat concat app].
    apply (to_token TPlus [43%N]); [constructor|apply longest_plus|]. apply (to_token TVar [110%N]); [constructor|apply longest_var, R|exact IH]. }
  apply (to_token TVar [110%N]); [constructor|apply longest_var, R|exact T].
Qed.
Lemma sum_rest early k fuel : cautious early -> run early false fuel [] (sum_tokens k ++ [TPlus]) <> Out ->
  run early false fuel [] (sum_tokens k ++ [TPlus]) = Refused [] /\ rest early false fuel [] (sum_tokens k ++ [TPlus]) = [Y TPlus; X KAdd (sum_node k)].
Proof.
  intros Ca NO.
  assert (S1 : steps ([], sum_tokens k ++ [TPlus; TVar]) ([X KAdd (sum_node k)], [TPlus; TVar])).
  { apply (derives_reached _ _ _ (sum_tokens_derive k) KAdd KExpr []); [reflexivity|constructor|cbn; lia|]. intros u r [= <-] [= <-]. cbn. lia. }
  assert (A2 : accepts [Y TPlus; X KAdd (sum_node k)] [TVar]) by (exists 20; eexists; reflexivity).
  assert (A1 : accepts [X KAdd (sum_node k)] [TPlus; TVar]) by (exists 20; eexists; reflexivity).
  destruct (steps_early early false [TPlus] [TVar] _ _ Ca ltac:(discriminate) S1 eq_refl A1 (sum_tokens k) fuel eq_refl NO) as (f1 & R1 & Q1). cbn [fst] in *.
  rewrite R1 in *. rewrite Q1. destruct f1 as [|f1]; [exfalso; apply NO; reflexivity|].
  assert (Ey : early [X KAdd (sum_node k)] (Some TPlus) = false).
  { destruct (early [X KAdd (sum_node k)] (Some TPlus)) eqn:Ey; [exfalso|reflexivity]. refine (Ca _ _ Ey _ [TPlus; TVar] _ eq_refl A1). repeat constructor. }
  cbn [run rest hd_error] in *. rewrite Ey in *. cbn [act shifts continues ops_add] in *. destruct f1 as [|f1]; [exfalso; apply NO; reflexivity|].
  cbn [run rest hd_error act reduction]. destruct (early [Y TPlus; X KAdd (sum_node k)] None); split; reflexivity.
Qed.
Lemma refusal_overflow_text early room : cautious early -> exists f, formula_result early (sum_text room ++ [43%N]) = Some (inr f) /\ stack_formula room early (sum_text room ++ [43%N]) = None.
Proof.
  intros Ca. exists (FEof (size (sum_text room ++ [43%N]))).
  set (s := sum_text room ++ [43%N]).
  assert (Nw : forall c, In c s -> ~ white c).
  { intros c I W. apply is_ws_white in W. apply in_app_or in I as [I|[<-|[]]]; [|discriminate W]. apply sum_chars in I as [->| ->]; discriminate W. }
  assert (Et : trim s = s).
  { destruct (trim_decomp s) as (w1 & w2 & E & B1 & B2 & _). apply blanks_forallb in B1, B2.
    assert (w1 = []) as -> by (destruct w1 as [|c w1]; [reflexivity|]; exfalso; apply (Nw c); [rewrite E; left; reflexivity|apply B1; left; reflexivity]).
    assert (w2 = []) as -> by (destruct w2 as [|c w2]; [reflexivity|]; exfalso; apply (Nw c); [rewrite E; apply in_or_app; right; apply in_or_app; right; left; reflexivity|apply B2; left; reflexivity]).
    rewrite app_nil_r in E. symmetry. exact E. }
  assert (Ns : s <> []) by (unfold s; destruct (sum_text room); discriminate).
  destruct (scan (S (length s)) 0 s) as [l bad] eqn:Es. pose proof Es as Es0. change 0%N with (size []) in Es. pose proof (scan_scanned _ _ _ _ _ (Nat.lt_succ_diag_r _) Es) as Sc.
  destruct (tokens_scanned _ _ (sum_plus_tokens room) _ _ _ Sc) as [El ->].
  assert (NO : run early false (S (11 * length l)) [] (map p_tok l) <> Out) by (apply run_total; [exact start_config|rewrite map_length; cbn; lia]).
  rewrite El in NO. destruct (sum_rest early room _ Ca NO) as [R Q].
  assert (Fr : formula_result early s = Some (inr (FEof (size s)))).
  { unfold formula_result. rewrite Et. destruct s as [|c s'] eqn:Ec; [congruence|]. cbn [is_empty]. rewrite <- Ec in *. rewrite Es0, El, R. cbn [length]. rewrite Nat.sub_0_r, (proj2 (nth_error_None l (length l)) (le_n _)).
    rewrite (scanned_trimmed [] s l Sc); [reflexivity| |exact Ns]. intros x s2 E. apply Nw. rewrite E. apply in_or_app. right. left. reflexivity. }
  split; [exact Fr|]. apply refusal_exact. split; [eauto|]. exists (sum_node room). split; [|rewrite sum_height; lia].
  unfold left_over. rewrite Et, Es0, El, Q. left. reflexivity.
Qed.

Theorem refusal_overflows early room : cautious early -> exists s f, length s = 2 * room + 2 /\ formula_result early s = Some (inr f) /\ stack_formula room early s = None.
Proof. intros Ca. destruct (refusal_overflow_text early room Ca) as (f & H). exists (sum_text room ++ [43%N]), f. split; [rewrite app_length, sum_length; cbn; lia|exact H]. Qed.

(** * Plural forms *)
Theorem stack_forms_same room early expected pf input r : stack_forms room early expected pf input = Some r -> forms_result early expected pf input = r.
Proof.
  unfold stack_forms, forms_result. destruct (parse_map input) as [values|]; [|congruence]. set (src := unwrap_or_default (sm_get (lit "plural") values)).
  destruct (stack_formula room early src) as [r'|] eqn:E; [|discriminate]. apply refusal_same in E. rewrite E. destruct r' as [[e|f]|]; try congruence.
  destruct (sm_get (lit "nplurals") values) as [n|]; [|congruence]. destruct (parse_unsigned (usize_max pf) n) as [v|x]; [congruence|]. destruct (stack_drop room e); congruence.
Qed.
Theorem stack_forms_room room early expected pf input : cautious early -> (forall values, parse_map input = Some values -> length (formula_source values) < room) ->
  stack_forms room early expected pf input = Some (forms_result early expected pf input).
Proof.
  intros Ca H. unfold stack_forms, forms_result. destruct (parse_map input) as [values|]; [|reflexivity]. specialize (H values eq_refl). unfold formula_source in H.
  set (src := unwrap_or_default (sm_get (lit "plural") values)) in *. rewrite (refusal_room room early src) by lia. destruct (formula_result early src) as [[e|f]|] eqn:E; try reflexivity.
  destruct (sm_get (lit "nplurals") values) as [n|]; [|reflexivity]. destruct (parse_unsigned (usize_max pf) n) as [v|x]; [reflexivity|].
  apply (result_formula _ _ _ Ca) in E. rewrite (proj1 (discard_room_of_text _ _ _ E H)). reflexivity.
Qed.
Theorem stack_forms_overflow early expected pf room : cautious early ->
  exists def m, length def = 2 * room + 22 /\ forms_result early expected pf def = Some (Err (EPluralForms m)) /\ stack_forms room early expected pf def = None.
Proof.
  intros Ca. set (src := sum_text room ++ [43%N]). destruct (refusal_overflow_text early room Ca) as (f & F1 & F2). fold src in F1, F2.
  assert (Sc : forall c, In c src -> c = 110%N \/ c = 43%N) by (intros c I; apply in_app_or in I as [I|[<-|[]]]; [apply (sum_chars _ _ I)|auto]).
  assert (one_line src) as O1 by (intros I; apply Sc in I as [E|E]; discriminate).
  assert (~ In 59%N src) as O2 by (intros I; apply Sc in I as [E|E]; discriminate).
  assert (Nw : forall c, In c src -> ~ white c) by (intros c I W; apply is_ws_white in W; apply Sc in I as [->| ->]; discriminate W).
  assert (not_white_first src) as W1 by (intros c r E; apply Nw; rewrite E; left; reflexivity).
  assert (not_white_last src) as W2 by (intros c r E; apply Nw; rewrite E; apply in_or_app; right; left; reflexivity).
  exists (forms_definition (lit "2") src), (fault_text (expected src f) f).
  assert (one_line (forms_definition (lit "2") src)) as O.
  { unfold forms_definition, one_line. rewrite !in_app_iff. intros [I|[I|[I|[I|I]]]]; try (vm_compute in I; intuition discriminate). exact (O1 I). }
  assert (N2 : forall c, In c (lit "2") -> (48 <= c <= 57)%N) by (intros c [<-|[]]; split; discriminate).
  destruct (HeaderThms.definitions_read _ _ O (forms_definitions (lit "2") src N2 O2 W1 W2)) as (m & M & G).
  split; [|split].
  - unfold forms_definition, src. rewrite !app_length, sum_length. cbn. lia.
  - unfold forms_result. rewrite M, !G. change (unwrap_or_default (last_value (lit "plural") [(lit "nplurals", lit "2"); (lit "plural", src)])) with src. rewrite F1. reflexivity.
  - unfold stack_forms. rewrite M, !G. change (unwrap_or_default (last_value (lit "plural") [(lit "nplurals", lit "2"); (lit "plural", src)])) with src. rewrite F2. reflexivity.
Qed.
