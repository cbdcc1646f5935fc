(** The grammar file gives the grammar of the model (C30). *)
From Coq Require Import String Arith NArith ZArith Bool List Lia.
From Verif Require Import ModelBase ModelRegex ModelFormula SpecLine SpecFormula SpecPattern SpecGrammar BaseFacts RegexFacts FormulaFacts FormulaThms.
Import ListNotations.
Local Open Scope N_scope.

Definition g0 : list grule := Eval vm_compute in match grammar_of grammar_file with Some g => g | None => [] end.
Lemma grammar_is : grammar_of grammar_file = Some g0.
Proof. vm_compute. reflexivity. Qed.

(** ** Terminals *)
Definition quoted_list : list (tok * str) :=
  [(TQuestion, lit "?"); (TColon, lit ":"); (TOrSym, lit "||"); (TOrWord, lit "or"); (TAndSym, lit "&&"); (TAndWord, lit "and"); (TEq, lit "=="); (TNe, lit "!=");
   (TLt, lit "<"); (TLte, lit "<="); (TGt, lit ">"); (TGte, lit ">="); (TNotSym, lit "!"); (TNotWord, lit "not"); (TPlus, lit "+"); (TMinus, lit "-"); (TStar, lit "*");
   (TSlash, lit "/"); (TPercent, lit "%"); (TVar, lit "n"); (TLParen, lit "("); (TRParen, lit ")")].
Definition digit (c : char) : Prop := 48 <= c <= 57.
Lemma spelled_cases t w : spelled t w -> In (t, w) quoted_list \/ (t = TNum w /\ w <> [] /\ forall c, In c w -> digit c).
Proof. intros H. inversion H; subst; clear H; try (left; cbn [quoted_list In]; tauto). right. auto. Qed.
Lemma quoted_spelled t w : In (t, w) quoted_list -> spelled t w.
Proof. intros H. cbn [quoted_list In] in H. repeat (destruct H as [H|H]; [injection H as <- <-; constructor|]). destruct H. Qed.
Definition in_texts (w : str) (l : list gsym) : bool := existsb (fun x => match x with SText v => str_eqb v w | _ => false end) l.
Lemma in_texts_iff w l : in_texts w l = true <-> In (SText w) l.
Proof.
  unfold in_texts. rewrite existsb_exists. split.
  - intros (x & H & E). destruct x as [v|v|v]; try discriminate E. apply str_eqb_eq in E. subst. exact H.
  - intros H. exists (SText w). split; [exact H|apply str_eqb_eq; reflexivity].
Qed.
Lemma quoted_iff w : quoted_terminal g0 w <-> exists t, In (t, w) quoted_list.
Proof.
  unfold quoted_terminal. split.
  - intros H. vm_compute in H. repeat (destruct H as [H|H]; [try discriminate H; injection H as <-; eexists; vm_compute; tauto|]). destruct H.
  - intros (t & H). apply in_texts_iff. cbn [quoted_list In] in H. repeat (destruct H as [H|H]; [injection H as <- <-; vm_compute; reflexivity|]). destruct H.
Qed.
Lemma quoted_no_digits t w : In (t, w) quoted_list -> ~ (forall c, In c w -> digit c).
Proof.
  intros H D. cbn [quoted_list In] in H.
  repeat (destruct H as [H|H]; [injection H as <- <-; specialize (D _ (or_introl eq_refl)); unfold digit in D; vm_compute in D; destruct D as [D1 D2]; (exfalso; apply D1; reflexivity) || (exfalso; apply D2; reflexivity)|]).
  destruct H.
Qed.
Definition number_text : str := lit "[0-9]+".
Definition digit_re : re := RCls (in_class [(48, 57)]).
Lemma number_pattern : pattern (lit "^(?:" ++ number_text ++ lit ")$") = Some (RSeq RBol (RSeq (RSeq (RSeq digit_re (RStar true digit_re)) REps) (RSeq REol REps))).
Proof. vm_compute. reflexivity. Qed.
Lemma in_digits c : in_class [(48, 57)] c = true <-> digit c.
Proof. unfold in_class, digit. cbn [existsb fst snd]. rewrite orb_false_r, andb_true_iff, !N.leb_le. reflexivity. Qed.
Lemma number_whole w : whole_match number_text w <-> w <> [] /\ forall c, In c w -> digit c.
Proof.
  unfold whole_match. rewrite number_pattern.
  assert (forall x, mrel (RSeq (RSeq (RSeq digit_re (RStar true digit_re)) REps) (RSeq REol REps)) (MS 0 w []) x -> w <> [] /\ forall c, In c w -> digit c) as F.
  { intros x H. apply mrel_seq in H as (s1 & H1 & H2). apply mrel_seq in H1 as (s2 & H1 & H3). apply mrel_eps in H3 as ->.
    apply mrel_seq in H1 as (s3 & H1 & H3). apply mrel_cls in H1 as (c & s & -> & Hc & ->). apply mrel_star_cls in H3 as (a & b & -> & Ha & ->).
    apply mrel_seq in H2 as (s4 & H2 & _). apply mrel_eol in H2 as (-> & _). rewrite app_nil_r. split; [discriminate|].
    intros d [<-|I]; [apply in_digits, Hc|]. rewrite forallb_forall in Ha. apply in_digits, Ha, I. }
  split.
  - intros (p & [= <-] & H). rewrite is_match_bol in H. destruct (mtch _ _ _) as [x|] eqn:E; [|discriminate]. exact (F x (mtch_some _ _ _ E)).
  - intros (N0 & D). eexists. split; [reflexivity|]. rewrite is_match_bol. destruct (mtch _ _ _) as [x|] eqn:E; [reflexivity|]. exfalso.
    destruct w as [|c w]; [exact (N0 eq_refl)|]. apply (mtch_none _ _ E (MS (1 + length w)%nat [] [])).
    apply mrel_seq. exists (MS (1 + length w)%nat [] []). split.
    + apply mrel_seq. exists (MS (1 + length w)%nat [] []). split; [|apply mrel_eps; reflexivity].
      apply mrel_seq. exists (MS 1 w []). split; [apply mrel_cls; exists c, w; split; [reflexivity|split; [apply in_digits, D; left; reflexivity|reflexivity]]|].
      apply mrel_star_cls. exists w, []. rewrite app_nil_r. split; [reflexivity|]. split; [|reflexivity]. apply forallb_forall. intros d I. apply in_digits, D. right. exact I.
    + apply mrel_seq. exists (MS (1 + length w)%nat [] []). split; [apply mrel_eol; auto|apply mrel_eps; reflexivity].
Qed.
Lemma regexes_are x : In (SRegex x) (symbols_of g0) <-> x = number_text.
Proof.
  split.
  - intros H. vm_compute in H. repeat (destruct H as [H|H]; [try discriminate H; injection H as <-; reflexivity|]). destruct H.
  - intros ->. vm_compute. tauto.
Qed.
Lemma spelled_terminal t w : spelled t w -> exists x, terminal g0 x w.
Proof.
  intros H. apply spelled_cases in H as [H|(-> & N0 & D)].
  - exists (SText w). apply tm_text, quoted_iff. exists t. exact H.
  - exists (SRegex number_text). apply tm_regex; [apply regexes_are; reflexivity|apply number_whole; auto|]. intros Q. apply quoted_iff in Q as (t & Q). exact (quoted_no_digits _ _ Q D).
Qed.
Lemma terminal_spelled x w : terminal g0 x w -> exists t, spelled t w.
Proof.
  intros H. destruct H as [w H|x w H M _].
  - apply quoted_iff in H as (t & H). exists t. apply quoted_spelled, H.
  - apply regexes_are in H as ->. apply number_whole in M as (N0 & D). exists (TNum w). constructor; assumption.
Qed.
Lemma cut_tokens s ws : cut_into g0 s ws <-> exists ts, tokens_of s ts /\ Forall2 spelled ts ws.
Proof.
  split.
  - induction 1 as [|c s ws W _ (ts & T & F)|x w s ws X L _ (ts & T & F)].
    + exists []. split; constructor.
    + exists ts. split; [constructor; assumption|exact F].
    + destruct (terminal_spelled _ _ X) as (t & S). exists (t :: ts). split; [|constructor; assumption]. constructor; [exact S| |exact T].
      intros t' w' s' S' E. destruct (spelled_terminal _ _ S') as (y & Y). exact (L y w' s' Y E).
  - intros (ts & T & F). revert ws F. induction T as [|c s ts W _ IH|t w s ts S L _ IH]; intros ws F.
    + inversion F. constructor.
    + constructor; [exact W|apply IH, F].
    + inversion F as [|a b l l' S' F']; subst.
      assert (b = w) as ->. { inversion S; subst; inversion S'; subst; reflexivity. }
      destruct (spelled_terminal _ _ S) as (x & X). apply (cut_piece _ x); [exact X| |apply IH, F'].
      intros y w' s' Y E. destruct (terminal_spelled _ _ Y) as (t' & S2). exact (L t' w' s' S2 E).
Qed.

(** ** Rules *)
Definition nt_name (n : nonterm) : str :=
  match n with
  | GExpr => lit "Expr" | GOr => lit "Or" | GAnd => lit "And" | GLogical => lit "Logical" | GNot => lit "Not" | GAdd => lit "Add"
  | GMul => lit "Mul" | GFactor => lit "Factor" | GTerm => lit "Term"
  end.
Inductive good : str -> list str -> gvalue -> Prop :=
| good_nt nt ts ws e : Forall2 spelled ts ws -> derives nt ts e -> good (nt_name nt) ws (VTree e)
| good_num ds : ds <> [] -> (forall c, In c ds -> digit c) -> (digits_value ds <= max64)%Z -> good (lit "Num") [ds] (VInt (digits_value ds))
| good_formula ts ws e : Forall2 spelled ts ws -> derives GExpr ts e -> good (lit "Formula") ws (VTree e).
Lemma good_inv n ws v : good n ws v -> forall nt, n = nt_name nt -> exists ts e, v = VTree e /\ Forall2 spelled ts ws /\ derives nt ts e.
Proof.
  intros [nt ts ws' e F D|ds N0 D L|ts ws' e F D] nt' E.
  - assert (nt' = nt) as -> by (destruct nt, nt'; vm_compute in E; (reflexivity || discriminate E)). exists ts, e. auto.
  - destruct nt'; vm_compute in E; discriminate E.
  - destruct nt'; vm_compute in E; discriminate E.
Qed.
Lemma good_num_inv ws v : good (lit "Num") ws v -> exists ds, ws = [ds] /\ v = VInt (digits_value ds) /\ ds <> [] /\ (forall c, In c ds -> digit c) /\ (digits_value ds <= max64)%Z.
Proof.
  intros H. remember (lit "Num") as n eqn:E. destruct H as [nt ts ws' e F D|ds N0 D L|ts ws' e F D].
  - destruct nt; vm_compute in E; discriminate E.
  - exists ds. auto 6.
  - vm_compute in E. discriminate E.
Qed.
Definition good_sym (x : gsym) (ws : list str) (v : gvalue) : Prop :=
  match x with
  | SRule n => good n ws v
  | SText w => ws = [w] /\ v = VPiece w
  | SRegex _ => exists w, ws = [w] /\ v = VPiece w /\ w <> [] /\ forall c, In c w -> digit c
  end.
Fixpoint good_all (xs : list gsym) (ws : list str) (vs : list gvalue) : Prop :=
  match xs with
  | [] => ws = [] /\ vs = []
  | x :: xs => exists w ws' v vs', ws = w ++ ws' /\ vs = v :: vs' /\ good_sym x w v /\ good_all xs ws' vs'
  end.
Scheme makes_ind2 := Minimality for makes Sort Prop with makes_all_ind2 := Minimality for makes_all Sort Prop.

Ltac names H :=
  let go nt := (destruct (good_inv _ _ _ H nt eq_refl) as (? & ? & ? & ? & ?)) in
  first [go GExpr|go GOr|go GAnd|go GLogical|go GNot|go GAdd|go GMul|go GFactor|go GTerm|destruct (good_num_inv _ _ H) as (? & ? & ? & ? & ? & ?)]; clear H.
Ltac opened :=
  repeat match goal with
  | H : exists _, _ |- _ => destruct H
  | H : _ /\ _ |- _ => destruct H
  | H : good_sym (SText _) _ _ |- _ => cbn [good_sym] in H
  | H : good_sym (SRegex _) _ _ |- _ => cbn [good_sym] in H
  | H : good_sym (SRule ?n) _ _ |- _ => change (good n) with (good n) in H; cbn [good_sym] in H; names H
  end; subst.
Ltac spells := solve [constructor; assumption] || solve [constructor].
Ltac fits := repeat first [eassumption | apply Forall2_nil | apply Forall2_cons; [spells|] | apply Forall2_app; [eassumption|]].
Ltac by_rule :=
  let go nt := (eapply (good_nt nt); cycle 1; [> econstructor; eassumption | solve [fits]]) in
  solve [go GExpr|go GOr|go GAnd|go GLogical|go GNot|go GAdd|go GMul|go GFactor|go GTerm].
Lemma rule_good r a ws vs v : In r g0 -> In a (gr_alts r) -> good_all (map snd (ga_symbols a)) ws vs ->
  action_value (ga_action a) (action_sees (combine (map fst (ga_symbols a)) vs)) = Some v -> good (gr_name r) ws v.
Proof.
  intros R A G E. unfold g0 in R. cbn [In] in R.
  repeat (destruct R as [R|R]; [subst r; cbn [gr_alts gr_name In] in A|]); [..|destruct R].
  all: repeat (destruct A as [A|A]; [subst a; cbn [ga_symbols ga_action map snd fst good_all] in G, E|]); try (destruct A).
  all: opened.
  all: lazy -[digits_value max64 Z.leb] in E.
  all: try match type of E with (if ?b then _ else _) = _ => destruct b eqn:L; [apply Z.leb_le in L|discriminate E] end.
  all: injection E as <-; rewrite ?app_nil_r; cbn [app].
  all: try by_rule.
  - apply (good_formula x3); assumption.
  - apply good_num; assumption.
Qed.
Lemma makes_good_all xs ws vs : makes_all g0 xs ws vs -> good_all xs ws vs.
Proof.
  apply (makes_all_ind2 g0 good_sym good_all).
  - intros x w T. destruct T as [w Q|x w R M _]; cbn [good_sym]; [auto|]. apply regexes_are in R as ->. apply number_whole in M. exists w. tauto.
  - intros r a ws' vs' v R A _ G E. exact (rule_good r a ws' vs' v R A G E).
  - cbn [good_all]. auto.
  - intros x xs' w ws' v vs' _ G _ H. cbn [good_all]. exists w, ws', v, vs'. auto.
Qed.
Lemma makes_good x ws v : makes g0 x ws v -> good_sym x ws v.
Proof.
  intros H. pose proof (makes_good_all [x] (ws ++ []) [v] (mk_cons _ _ _ _ _ _ _ H (mk_nil _))) as (w & ws' & v' & vs' & E & E' & G & E1 & E2).
  rewrite E1, !app_nil_r in E. injection E' as -> _. subst. exact G.
Qed.
Lemma formula_sound ws e : makes g0 (SRule (lit "Formula")) ws (VTree e) -> exists ts, Forall2 spelled ts ws /\ derives GExpr ts e.
Proof.
  intros H. apply makes_good in H. cbn [good_sym] in H. remember (lit "Formula") as n eqn:E. remember (VTree e) as v eqn:V.
  destruct H as [nt ts ws' e' F D|ds N0 D L|ts ws' e' F D].
  - destruct nt; vm_compute in E; discriminate E.
  - discriminate V.
  - injection V as ->. exists ts. auto.
Qed.

(** ** The other direction *)
Lemma text_made w : in_texts w (symbols_of g0) = true -> makes g0 (SText w) [w] (VPiece w).
Proof. intros H. apply mk_terminal, tm_text, in_texts_iff, H. Qed.
Lemma number_made ds : ds <> [] -> (forall c, In c ds -> digit c) -> (digits_value ds <= max64)%Z -> makes g0 (SRule (lit "Num")) [ds] (VInt (digits_value ds)).
Proof.
  intros N0 D L. refine (mk_rule g0 (nth 10 g0 (GRule [] [])) (nth 0 (gr_alts (nth 10 g0 (GRule [] []))) (GAlt [] None)) [ds] [VPiece ds] _ _ _ _ _).
  - vm_compute. tauto.
  - vm_compute. tauto.
  - change [ds] with ([ds] ++ []). apply mk_cons; [|apply mk_nil]. apply mk_terminal, (tm_regex g0 number_text); [apply regexes_are; reflexivity|apply number_whole; auto|].
    intros Q. apply quoted_iff in Q as (t & Q). exact (quoted_no_digits _ _ Q D).
  - lazy -[digits_value max64 Z.leb]. rewrite (proj2 (Z.leb_le _ _) L). reflexivity.
Qed.
Fixpoint sequence (l : list (gsym * list str * gvalue)) : list str := match l with [] => [] | (_, ws, _) :: l => ws ++ sequence l end.
Lemma all_made l : Forall (fun x => makes g0 (fst (fst x)) (snd (fst x)) (snd x)) l -> makes_all g0 (map (fun x => fst (fst x)) l) (sequence l) (map snd l).
Proof. induction 1 as [|[[x ws] v] l H _ IH]; [apply mk_nil|]. cbn [map fst snd sequence] in *. apply mk_cons; assumption. Qed.
(** Alternative [j] of rule [i] *)
Definition rule_at (i : nat) : grule := nth i g0 (GRule [] []).
Definition alt_at (i j : nat) : galt := nth j (gr_alts (rule_at i)) (GAlt [] None).
Lemma by_alternative i j ws vs v : (i < length g0)%nat -> (j < length (gr_alts (rule_at i)))%nat -> makes_all g0 (map snd (ga_symbols (alt_at i j))) ws vs ->
  action_value (ga_action (alt_at i j)) (action_sees (combine (map fst (ga_symbols (alt_at i j))) vs)) = Some v -> makes g0 (SRule (gr_name (rule_at i))) ws v.
Proof. intros I J M A. refine (mk_rule g0 (rule_at i) (alt_at i j) ws vs v _ _ M A); apply nth_In; assumption. Qed.
Lemma keep i j x ws v : (i < length g0)%nat -> (j < length (gr_alts (rule_at i)))%nat -> alt_at i j = GAlt [(NotSelected, SRule x)] None -> makes g0 (SRule x) ws v -> makes g0 (SRule (gr_name (rule_at i))) ws v.
Proof.
  intros I J E M. rewrite <- (app_nil_r ws). apply (by_alternative i j (ws ++ []) [v] v I J); rewrite E; [|reflexivity]. cbn [ga_symbols map snd]. apply mk_cons; [exact M|apply mk_nil].
Qed.
Lemma binary i j x y w a b e1 e2 e : (i < length g0)%nat -> (j < length (gr_alts (rule_at i)))%nat -> in_texts w (symbols_of g0) = true ->
  map snd (ga_symbols (alt_at i j)) = [SRule x; SText w; SRule y] ->
  action_value (ga_action (alt_at i j)) (action_sees (combine (map fst (ga_symbols (alt_at i j))) [VTree e1; VPiece w; VTree e2])) = Some (VTree e) ->
  makes g0 (SRule x) a (VTree e1) -> makes g0 (SRule y) b (VTree e2) -> makes g0 (SRule (gr_name (rule_at i))) (a ++ w :: b) (VTree e).
Proof.
  intros I J T E A M1 M2. apply (by_alternative i j _ [VTree e1; VPiece w; VTree e2] _ I J); [|exact A]. rewrite E.
  rewrite <- (app_nil_r b). apply mk_cons; [exact M1|]. apply (mk_cons g0 _ _ [w] (b ++ [])); [apply text_made, T|]. apply mk_cons; [exact M2|apply mk_nil].
Qed.
Lemma unary i j y w b e2 e : (i < length g0)%nat -> (j < length (gr_alts (rule_at i)))%nat -> in_texts w (symbols_of g0) = true ->
  map snd (ga_symbols (alt_at i j)) = [SText w; SRule y] ->
  action_value (ga_action (alt_at i j)) (action_sees (combine (map fst (ga_symbols (alt_at i j))) [VPiece w; VTree e2])) = Some (VTree e) ->
  makes g0 (SRule y) b (VTree e2) -> makes g0 (SRule (gr_name (rule_at i))) (w :: b) (VTree e).
Proof.
  intros I J T E A M2. apply (by_alternative i j _ [VPiece w; VTree e2] _ I J); [|exact A]. rewrite E.
  rewrite <- (app_nil_r b). apply (mk_cons g0 _ _ [w] (b ++ [])); [apply text_made, T|]. apply mk_cons; [exact M2|apply mk_nil].
Qed.
Ltac small := vm_compute; lia.
Ltac split2 :=
  repeat match goal with
  | H : Forall2 spelled (_ ++ _) _ |- _ => apply Forall2_app_inv_l in H as (? & ? & ? & ? & ->)
  | H : Forall2 spelled (_ :: _) _ |- _ => inversion H; clear H; subst
  | H : Forall2 spelled [] _ |- _ => inversion H; clear H; subst
  | H : spelled _ _ |- _ => inversion H; clear H; subst
  end.
Ltac bin i j := eapply (binary i j); [small|small|vm_compute; reflexivity|reflexivity|reflexivity|eauto|eauto].
Ltac un i j := eapply (unary i j); [small|small|vm_compute; reflexivity|reflexivity|reflexivity|eauto].
Ltac same i j := eapply (keep i j); [small|small|reflexivity|eauto].
Lemma formula_complete nt ts e : derives nt ts e -> forall ws, Forall2 spelled ts ws -> makes g0 (SRule (nt_name nt)) ws (VTree e).
Proof.
  induction 1 as [a b c x y z _ IHa _ IHb _ IHc|a x _ IH|a b x y _ IHa _ IHb|a b x y _ IHa _ IHb|a x _ IH
    |a b x y _ IHa _ IHb|a b x y _ IHa _ IHb|a x _ IH|a b x y _ IHa _ IHb|a b x y _ IHa _ IHb|a b x y _ IHa _ IHb|a b x y _ IHa _ IHb|a b x y _ IHa _ IHb|a b x y _ IHa _ IHb|a x _ IH
    |a x _ IH|a x _ IH|a x _ IH|a b x y _ IHa _ IHb|a b x y _ IHa _ IHb|a x _ IH
    |a b x y _ IHa _ IHb|a b x y _ IHa _ IHb|a b x y _ IHa _ IHb|a x _ IH|a x _ IH|a x _ IH|ds N0 D L| |a x _ IH]; intros ws F; split2.
  - match goal with A : Forall2 spelled a ?wa, B : Forall2 spelled b ?wb, C : Forall2 spelled c ?wc |- _ =>
      refine (by_alternative 1 0 _ [VTree x; VPiece (lit "?"); VTree y; VPiece (lit ":"); VTree z] _ _ _ _ _); [small|small| |reflexivity];
      rewrite <- (app_nil_r wc); apply mk_cons; [exact (IHa _ A)|]; apply (mk_cons g0 _ _ [lit "?"]); [apply text_made; vm_compute; reflexivity|];
      apply mk_cons; [exact (IHb _ B)|]; apply (mk_cons g0 _ _ [lit ":"]); [apply text_made; vm_compute; reflexivity|]; apply mk_cons; [exact (IHc _ C)|apply mk_nil] end.
  - same 1%nat 1%nat.
  - bin 2%nat 0%nat.
  - bin 2%nat 1%nat.
  - same 2%nat 2%nat.
  - bin 3%nat 0%nat.
  - bin 3%nat 1%nat.
  - same 3%nat 2%nat.
  - bin 4%nat 0%nat.
  - bin 4%nat 1%nat.
  - bin 4%nat 2%nat.
  - bin 4%nat 3%nat.
  - bin 4%nat 4%nat.
  - bin 4%nat 5%nat.
  - same 4%nat 6%nat.
  - un 5%nat 0%nat.
  - un 5%nat 1%nat.
  - same 5%nat 2%nat.
  - bin 6%nat 0%nat.
  - bin 6%nat 1%nat.
  - same 6%nat 2%nat.
  - bin 7%nat 0%nat.
  - bin 7%nat 1%nat.
  - bin 7%nat 2%nat.
  - same 7%nat 3%nat.
  - un 8%nat 0%nat.
  - same 8%nat 1%nat.
  - match goal with |- makes _ _ [?ds] _ =>
      refine (by_alternative 9 0 _ [VInt (digits_value ds)] _ _ _ _ _); [small|small| |lazy -[digits_value]; reflexivity];
      apply (mk_cons g0 _ _ [ds] []); [apply number_made; assumption|apply mk_nil] end.
  - refine (by_alternative 9 1 _ [VPiece (lit "n")] _ _ _ _ _); [small|small| |reflexivity].
    apply (mk_cons g0 _ _ [lit "n"] []); [apply text_made; vm_compute; reflexivity|apply mk_nil].
  - refine (by_alternative 9 2 _ [VPiece (lit "("); VTree x; VPiece (lit ")")] _ _ _ _ _); [small|small| |reflexivity].
    apply (mk_cons g0 _ _ [lit "("]); [apply text_made; vm_compute; reflexivity|]. apply mk_cons; [eauto|].
    apply (mk_cons g0 _ _ [lit ")"] []); [apply text_made; vm_compute; reflexivity|apply mk_nil].
Qed.
Lemma formula_made ts ws e : derives GExpr ts e -> Forall2 spelled ts ws -> makes g0 (SRule (lit "Formula")) ws (VTree e).
Proof. intros D F. apply (keep 0 0 (nt_name GExpr)); [small|small|reflexivity|]. exact (formula_complete _ _ _ D ws F). Qed.

Lemma spelled_token t t' w : spelled t w -> spelled t' w -> t = t'.
Proof.
  intros H H'. apply spelled_cases in H as [H|(-> & _ & D)]; apply spelled_cases in H' as [H'|(-> & _ & D')].
  - cbn [quoted_list In] in H, H'. repeat (destruct H as [H|H]; [injection H as <- <-; vm_compute in H'; repeat (destruct H' as [H'|H']; [try discriminate H'; injection H' as <-; reflexivity|]); destruct H'|]). destruct H.
  - destruct (quoted_no_digits _ _ H D').
  - destruct (quoted_no_digits _ _ H' D).
  - reflexivity.
Qed.
Lemma same_tokens ts ws : Forall2 spelled ts ws -> forall ts', Forall2 spelled ts' ws -> ts' = ts.
Proof.
  induction 1 as [|t w ts ws S _ IH]; intros ts' F; inversion F as [|t' w' l l' S' F']; subst; [reflexivity|]. f_equal; [exact (spelled_token _ _ _ S' S)|apply IH, F'].
Qed.
Lemma grammar_formula_iff s e : grammar_formula g0 s e <-> exists ts, tokens_of s ts /\ derives GExpr ts e.
Proof.
  unfold grammar_formula. split.
  - intros (ws & C & M). apply formula_sound in M as (ts & F & D). apply cut_tokens in C as (ts' & T & F').
    rewrite (same_tokens _ _ F _ F') in T. exists ts. auto.
  - intros (ts & T & D). assert (exists ws, Forall2 spelled ts ws) as (ws & F).
    { clear D. induction T as [|c s ts W _ IH|t w s ts S _ _ (ws & F)]; [exists []; constructor|exact IH|exists (w :: ws); constructor; assumption]. }
    exists ws. split; [apply cut_tokens; exists ts; auto|exact (formula_made ts ws e D F)].
Qed.
(** The formulas read are those of the grammar file. *)
Theorem grammar_file_read : exists g, grammar_of grammar_file = Some g
  /\ forall s e, formula_parse s = Some e <-> (blanks s /\ e = NVar) \/ (~ blanks s /\ grammar_formula g s e).
Proof.
  exists g0. split; [exact grammar_is|]. intros s e. rewrite formula_parse_iff, grammar_formula_iff. reflexivity.
Qed.
