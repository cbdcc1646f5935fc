(** Formulas: texts, printing, precedence, comparison with the C grammar. *)
From Coq Require Import String Arith NArith ZArith Bool List Lia.
From Coq Require Import ZifyBool ZifyNat ZifyN.
From Coq Require Decimal DecimalN.
From Verif Require Import ModelBase ModelFormula BaseFacts SpecLine LineFacts SpecFormula FormulaFacts LexFacts.
Import ListNotations.

(** * From texts to trees *)
Lemma spelled_nonwhite t w : spelled t w -> forall c, In c w -> ~ white c.
Proof.
  intros S c Hc. apply is_ws_not_white. apply spelled_cases in S as [S|(_ & _ & H)].
  - cbn [In lit_tokens] in S.
    repeat (destruct S as [S|S]; [injection S as <- <-; cbn in Hc; repeat (destruct Hc as [<-|Hc]; [reflexivity|]); destruct Hc|]).
    destruct S.
  - apply digit_not_ws, is_digit_iff, H, Hc.
Qed.

Lemma nonwhite_prefix a b s w :
  (forall c, In c a -> ~ white c) -> blanks w -> a ++ b = s ++ w -> exists s', s = a ++ s' /\ b = s' ++ w.
Proof.
  revert s. induction a as [|x a IH]; intros s Ha Hw E.
  - exists s. auto.
  - destruct s as [|y s].
    + exfalso. cbn in E. apply (Ha x (or_introl eq_refl)), Hw. rewrite <- E. left; reflexivity.
    + injection E as <- E. destruct (IH s) as (s' & -> & ->); try assumption.
      * intros c Hc; apply Ha; right; exact Hc.
      * exists s'. auto.
Qed.

Lemma tokens_of_app_blanks s w ts : blanks w -> tokens_of (s ++ w) ts <-> tokens_of s ts.
Proof.
  intros Hw. split.
  - intros H. remember (s ++ w) as u eqn:E. revert s w Hw E.
    induction H as [|c u ts Hc H IH|t w0 u ts S L H IH]; intros s w Hw E.
    + symmetry in E. apply app_eq_nil in E as [-> _]. constructor.
    + destruct s as [|y s]; cbn in E.
      * apply (IH [] u); [|reflexivity]. intros x Hx. apply Hw. rewrite <- E. right; exact Hx.
      * injection E as <- E. constructor; [exact Hc|]. exact (IH _ _ Hw E).
    + destruct (nonwhite_prefix w0 u s w (spelled_nonwhite _ _ S) Hw E) as (s' & -> & ->).
      constructor; [exact S| |exact (IH _ _ Hw eq_refl)].
      intros t' w' s'' S' E'. apply (L t' w' (s'' ++ w) S').
      rewrite !app_assoc, E'. rewrite <- app_assoc. reflexivity.
  - intros H. induction H as [|c s ts Hc H IH|t w0 s ts S L H IH].
    + rewrite <- (app_nil_r w). cbn [app]. apply tokens_of_skips; [exact Hw|constructor].
    + constructor; assumption.
    + rewrite <- app_assoc. constructor; [exact S| |exact IH].
      intros t' w' s'' S' E'. rewrite app_assoc in E'.
      destruct (nonwhite_prefix w' s'' (w0 ++ s) w (spelled_nonwhite _ _ S') Hw (eq_sym E')) as (s' & E2 & _).
      exact (L _ _ _ S' E2).
Qed.

Theorem formula_parse_iff s e :
  formula_parse s = Some e <->
  (blanks s /\ e = NVar) \/ (~ blanks s /\ exists ts, tokens_of s ts /\ derives GExpr ts e).
Proof.
  unfold formula_parse. destruct (trim_decomp s) as (w1 & w2 & E & H1 & H2 & H3).
  apply blanks_forallb in H1, H2.
  destruct (trim s) as [|c u] eqn:Et; cbn [is_empty].
  - assert (blanks s) as B.
    { rewrite E. intros x Hx. apply in_app_iff in Hx as [Hx|Hx]; auto. }
    split; [intros [= <-]; auto|]. intros [[_ ->]|[N _]]; [reflexivity|contradiction].
  - assert (~ blanks s) as NB.
    { intros B. assert (white c) as W by (apply B; rewrite E, !in_app_iff; right; left; left; reflexivity).
      destruct H3 as [H3 _]. cbn in H3. apply is_ws_white in W. congruence. }
    assert (forall ts, tokens_of s ts <-> tokens_of (c :: u) ts) as Ht.
    { intros ts. rewrite E, tokens_of_skips by exact H1. apply tokens_of_app_blanks; exact H2. }
    pose proof (lex_iff (S (length (c :: u))) (c :: u)) as L.
    split.
    + intros Hp. right. split; [exact NB|].
      destruct (lex (S (length (c :: u))) (c :: u)) as [ts|] eqn:El; [|discriminate Hp].
      exists ts. rewrite Ht, <- parse_tokens_iff. split; [|exact Hp]. apply L; [lia|reflexivity].
    + intros [[B _]|(_ & ts & T & D)]; [contradiction|].
      apply Ht in T. apply L in T; [|lia]. rewrite T. apply parse_tokens_iff; exact D.
Qed.

Lemma tokens_of_det s ts ts' : tokens_of s ts -> tokens_of s ts' -> ts = ts'.
Proof.
  intros H H'. apply (lex_iff (S (length s))) in H; [|lia]. apply (lex_iff (S (length s))) in H'; [|lia]. congruence.
Qed.

(** * Printing *)
Lemma nonwhite_short a b w c s :
  (forall x, In x a -> ~ white x) -> white c -> w ++ c :: s = a ++ b -> length a <= length w.
Proof.
  revert w. induction a as [|x a IH]; intros w Ha Hc E; [cbn; lia|].
  destruct w as [|y w].
  - exfalso. injection E as <- _. exact (Ha c (or_introl eq_refl) Hc).
  - injection E as <- E. cbn. apply le_n_S, (IH w); try assumption. intros z Hz; apply Ha; right; exact Hz.
Qed.

Lemma spaced_tokens s ts : spaced s ts -> tokens_of s ts.
Proof.
  induction 1 as [|t w b bs s ts S Hb Hbs H IH]; [constructor|].
  constructor; [exact S| |].
  - intros t' w' s' S' E'. exact (nonwhite_short _ _ _ _ _ (spelled_nonwhite _ _ S') Hb E').
  - constructor; [exact Hb|]. apply tokens_of_skips; assumption.
Qed.

Lemma uint_str_digits d : forall c, In c (uint_str d) -> (48 <= c <= 57)%N.
Proof. induction d; cbn; intros c Hc; try tauto; destruct Hc as [<-|Hc]; auto; lia. Qed.

Lemma dv_acc d : forall acc, dv (Z.pos acc) (uint_str d) = Z.pos (Pos.of_uint_acc d acc).
Proof.
  induction d; intros acc; cbn [uint_str Pos.of_uint_acc]; [reflexivity|..];
    unfold dv in *; cbn [fold_left];
    match goal with |- fold_left _ _ ?z = Z.pos (Pos.of_uint_acc _ ?p) =>
      replace z with (Z.pos p) by lia end; apply IHd.
Qed.
Lemma digits_value_uint d : digits_value (uint_str d) = Z.of_N (N.of_uint d).
Proof.
  unfold N.of_uint. induction d; cbn [uint_str Pos.of_uint]; [reflexivity|..];
    unfold digits_value in *; cbn [fold_left].
  - exact IHd.
  - exact (dv_acc d 1).
  - exact (dv_acc d 2).
  - exact (dv_acc d 3).
  - exact (dv_acc d 4).
  - exact (dv_acc d 5).
  - exact (dv_acc d 6).
  - exact (dv_acc d 7).
  - exact (dv_acc d 8).
  - exact (dv_acc d 9).
Qed.
Lemma digits_value_dec n : digits_value (dec_str n) = Z.of_N n.
Proof. unfold dec_str. rewrite digits_value_uint, DecimalN.Unsigned.of_to. reflexivity. Qed.
Lemma dec_str_digits n c : In c (dec_str n) -> (48 <= c <= 57)%N.
Proof. apply uint_str_digits. Qed.
Lemma dec_str_nonempty n : dec_str n <> [].
Proof.
  intros E. assert (N.to_uint n = Decimal.Nil) as H.
  { unfold dec_str in E. destruct (N.to_uint n); try discriminate E. reflexivity. }
  destruct n as [|p]; [discriminate H|]. cbn in H. 
  apply DecimalPos.Unsigned.to_uint_nonnil in H. exact H.
Qed.

(** Levels as numbers. *)
Definition L (i : nat) : nonterm :=
  match i with 0 => GExpr | 1 => GOr | 2 => GAnd | 3 => GLogical | 4 => GAdd | 5 => GMul | 6 => GFactor | _ => GTerm end.
Lemma lift1 i a x : derives (L (S i)) a x -> derives (L i) a x.
Proof.
  destruct i as [|[|[|[|[|[|[|i]]]]]]]; cbn [L]; intros D;
    first [exact D|constructor; exact D|constructor; constructor; exact D].
Qed.
Lemma lift i j a x : i <= j -> derives (L j) a x -> derives (L i) a x.
Proof. induction 1; [auto|]. intros D. apply IHle, lift1, D. Qed.

Lemma bin_derives op a b x y :
  derives (L (level op)) a x -> derives (L (S (level op))) b y ->
  derives (L (level op)) (a ++ binop_tok op :: b) (NBin op x y).
Proof.
  destruct op; cbn [level L binop_tok]; intros D1 D2; constructor; try assumption; constructor; assumption.
Qed.

Lemma full_derives e : literals_ok e -> derives GTerm (full_tokens e) e.
Proof.
  induction e as [|v|op x IH|op x IHx y IHy|x IHx y IHy z IHz]; cbn [literals_ok full_tokens]; intros H.
  - constructor.
  - assert (v = digits_value (dec_str (Z.to_N v))) as E by (rewrite digits_value_dec; lia).
    rewrite E at 2. constructor; [apply dec_str_nonempty|apply dec_str_digits|lia].
  - specialize (IH H). change (derives GTerm (TLParen :: (unop_tok op :: full_tokens x) ++ [TRParen]) (NUn op x)).
    constructor. destruct op; cbn [unop_tok].
    + apply (lift 0 6); [lia|]. constructor; exact IH.
    + apply (lift 0 3); [lia|]. apply d_logical, d_not_sym. apply (lift 4 7); [lia|exact IH].
  - destruct H as [H1 H2]. specialize (IHx H1). specialize (IHy H2).
    replace (full_tokens x ++ binop_tok op :: full_tokens y ++ [TRParen])
      with ((full_tokens x ++ binop_tok op :: full_tokens y) ++ [TRParen]) by (rewrite <- app_assoc; reflexivity).
    constructor. apply (lift 0 (level op)); [lia|].
    apply bin_derives.
    + apply (lift _ 7); [destruct op; cbn; lia|exact IHx].
    + apply (lift _ 7); [destruct op; cbn; lia|exact IHy].
  - destruct H as (H1 & H2 & H3). specialize (IHx H1). specialize (IHy H2). specialize (IHz H3).
    replace (full_tokens x ++ TQuestion :: full_tokens y ++ TColon :: full_tokens z ++ [TRParen])
      with ((full_tokens x ++ TQuestion :: full_tokens y ++ TColon :: full_tokens z) ++ [TRParen])
      by (rewrite <- app_assoc; cbn [app]; rewrite <- app_assoc; reflexivity).
    constructor. constructor.
    + apply (lift 1 7); [lia|exact IHx].
    + apply (lift 0 7); [lia|exact IHy].
    + apply (lift 0 7); [lia|exact IHz].
Qed.

Lemma tokens_nonempty_not_blank s t ts : tokens_of s (t :: ts) -> ~ blanks s.
Proof.
  intros H. remember (t :: ts) as l eqn:E. revert E.
  induction H as [|c s l Hc H IH|t' w s l S Lw H IH]; intros E B; [discriminate E| |].
  - apply (IH E). intros x Hx; apply B; right; exact Hx.
  - destruct (spelled_head _ _ S) as (x & r & -> & Hx). apply is_ws_not_white in Hx. apply Hx, B. left; reflexivity.
Qed.

Lemma derives_nonempty nt ts e : derives nt ts e -> ts <> [].
Proof. induction 1; try discriminate; try assumption; intros E; apply app_eq_nil in E as [_ [=]]. Qed.

Theorem print_parse e s : literals_ok e -> spaced s (full_tokens e) -> formula_parse s = Some e.
Proof.
  intros Hl Hs. apply spaced_tokens in Hs. pose proof (full_derives e Hl) as D.
  apply formula_parse_iff. right. split.
  - pose proof (derives_nonempty _ _ _ D) as Hn. destruct (full_tokens e) as [|t ts]; [congruence|].
    exact (tokens_nonempty_not_blank _ _ _ Hs).
  - exists (full_tokens e). split; [exact Hs|]. apply (lift 0 7); [lia|exact D].
Qed.

(** The literals of an accepted formula fit. *)
Lemma derives_literals nt ts e : derives nt ts e -> literals_ok e.
Proof.
  induction 1; cbn [literals_ok] in *; auto.
  split; [apply digits_value_nonneg|]; assumption.
Qed.
Lemma formula_literals s e : formula_parse s = Some e -> literals_ok e.
Proof.
  intros H. apply formula_parse_iff in H as [[_ ->]|(_ & ts & _ & D)]; [exact I|exact (derives_literals _ _ _ D)].
Qed.

(** * Precedence *)
Theorem precedence op1 op2 a b c x y z :
  derives GFactor a x -> derives GFactor b y -> derives GFactor c z ->
  parse_tokens (a ++ binop_tok op1 :: b ++ binop_tok op2 :: c) =
  Some (if level op2 <=? level op1 then NBin op2 (NBin op1 x y) z else NBin op1 x (NBin op2 y z)).
Proof.
  intros Ha Hb Hc. apply parse_tokens_iff.
  assert (forall op, level op <= 5) as Hle by (intros []; cbn; lia).
  assert (forall i u v, i <= 6 -> derives GFactor u v -> derives (L i) u v) as Hf by (intros; apply (lift i 6); assumption).
  destruct (Nat.leb_spec (level op2) (level op1)) as [H|H].
  - replace (a ++ binop_tok op1 :: b ++ binop_tok op2 :: c) with ((a ++ binop_tok op1 :: b) ++ binop_tok op2 :: c)
      by (rewrite <- app_assoc; reflexivity).
    apply (lift 0 (level op2)); [lia|]. apply bin_derives.
    + apply (lift _ (level op1)); [exact H|]. apply bin_derives; apply Hf; try assumption.
      * specialize (Hle op1); lia.
      * specialize (Hle op1); lia.
    + apply Hf; [specialize (Hle op2); lia|assumption].
  - apply (lift 0 (level op1)); [lia|]. apply bin_derives.
    + apply Hf; [specialize (Hle op1); lia|assumption].
    + apply (lift _ (level op2)); [exact H|]. apply bin_derives; apply Hf; try assumption.
      * specialize (Hle op2); lia.
      * specialize (Hle op2); lia.
Qed.

Theorem precedence_not op t a b x y :
  t = TNotSym \/ t = TNotWord -> derives GFactor a x -> derives GFactor b y ->
  parse_tokens (t :: a ++ binop_tok op :: b) =
  Some (if 4 <=? level op then NUn UNot (NBin op x y) else NBin op (NUn UNot x) y).
Proof.
  intros Ht Ha Hb. apply parse_tokens_iff.
  assert (level op <= 5) as Hle by (destruct op; cbn; lia).
  assert (forall i u v, i <= 6 -> derives GFactor u v -> derives (L i) u v) as Hf by (intros; apply (lift i 6); assumption).
  destruct (Nat.leb_spec 4 (level op)) as [H|H].
  - apply (lift 0 3); [lia|]. apply d_logical.
    assert (derives GAdd (a ++ binop_tok op :: b) (NBin op x y)) as D.
    { apply (lift 4 (level op)); [lia|]. apply bin_derives; apply Hf; assumption || lia. }
    destruct Ht as [-> | ->]; constructor; exact D.
  - change (t :: a ++ binop_tok op :: b) with ((t :: a) ++ binop_tok op :: b).
    apply (lift 0 (level op)); [lia|]. apply bin_derives; [|apply Hf; [lia|assumption]].
    apply (lift _ 3); [lia|]. apply d_logical. assert (derives GAdd a x) as D by (apply (Hf 4); [lia|assumption]).
    destruct Ht as [-> | ->]; constructor; exact D.
Qed.

Theorem precedence_minus op a b x y :
  derives GTerm a x -> derives GFactor b y ->
  parse_tokens (TMinus :: a ++ binop_tok op :: b) = Some (NBin op (NUn UNeg x) y).
Proof.
  intros Ha Hb. apply parse_tokens_iff.
  change (TMinus :: a ++ binop_tok op :: b) with ((TMinus :: a) ++ binop_tok op :: b).
  assert (level op <= 5) as Hle by (destruct op; cbn; lia).
  apply (lift 0 (level op)); [lia|]. apply bin_derives.
  - apply (lift _ 6); [lia|]. constructor; exact Ha.
  - apply (lift _ 6); [lia|]. exact Hb.
Qed.

Theorem cond_right_assoc a b c d e u v w x y :
  derives GOr a u -> derives GExpr b v -> derives GOr c w -> derives GExpr d x -> derives GExpr e y ->
  parse_tokens (a ++ TQuestion :: b ++ TColon :: c ++ TQuestion :: d ++ TColon :: e) =
  Some (NCond u v (NCond w x y)).
Proof. intros. apply parse_tokens_iff. constructor; [assumption|assumption|]. constructor; assumption. Qed.

Theorem cond_loosest op a b c d x y z v :
  derives GFactor a x -> derives GFactor b y -> derives GExpr c z -> derives GExpr d v ->
  parse_tokens (a ++ binop_tok op :: b ++ TQuestion :: c ++ TColon :: d) = Some (NCond (NBin op x y) z v).
Proof.
  intros Ha Hb Hc Hd. apply parse_tokens_iff.
  replace (a ++ binop_tok op :: b ++ TQuestion :: c ++ TColon :: d)
    with ((a ++ binop_tok op :: b) ++ TQuestion :: c ++ TColon :: d) by (rewrite <- app_assoc; reflexivity).
  constructor; [|assumption|assumption].
  assert (1 <= level op <= 5) as Hle by (destruct op; cbn; lia).
  apply (lift 1 (level op)); [lia|]. apply bin_derives; apply (lift _ 6); assumption || lia.
Qed.

(** Words and symbols. *)
Lemma derives_symbols nt ts e : derives nt ts e -> derives nt (map to_symbol ts) e.
Proof.
  induction 1; cbn [map to_symbol]; repeat (rewrite map_app; cbn [map to_symbol]); constructor; assumption.
Qed.
Lemma to_symbol_fix t : to_symbol t <> t -> t = TOrWord \/ t = TAndWord \/ t = TNotWord.
Proof. destruct t; cbn; intros H; tauto || congruence. Qed.

Lemma derives_words nt ts' e : derives nt ts' e -> forall ts, map to_symbol ts = ts' -> derives nt ts e.
Proof.
  assert (forall ts a b (t : tok), map to_symbol ts = a ++ t :: b ->
    exists a' t' b', ts = a' ++ t' :: b' /\ map to_symbol a' = a /\ to_symbol t' = t /\ map to_symbol b' = b) as M.
  { intros ts a b t E. apply map_eq_app in E as (a' & r & -> & <- & E).
    apply map_eq_cons in E as (t' & b' & -> & <- & <-). eauto 10. }
  induction 1; intros ts E;
    repeat match goal with
    | H : map to_symbol _ = _ ++ _ :: _ |- _ => apply M in H as (? & ? & ? & -> & ? & ? & ?)
    | H : map to_symbol _ = _ :: _ |- _ => apply map_eq_cons in H as (? & ? & -> & ? & ?)
    | H : map to_symbol _ = [] |- _ => apply map_eq_nil in H as ->
    end;
    repeat match goal with
    | H : to_symbol ?t = _ |- _ => destruct t; cbn [to_symbol] in H; try discriminate H; try injection H as ->; try clear H
    end;
    try (constructor; auto; fail).
Qed.

Theorem words_are_symbols ts : parse_tokens (map to_symbol ts) = parse_tokens ts.
Proof.
  destruct (parse_tokens ts) as [e|] eqn:E.
  - apply parse_tokens_iff, derives_symbols, parse_tokens_iff, E.
  - destruct (parse_tokens (map to_symbol ts)) as [e|] eqn:E'; [|reflexivity].
    apply parse_tokens_iff in E'. pose proof (derives_words _ _ _ E' ts eq_refl) as D.
    apply parse_tokens_iff in D. congruence.
Qed.

(** * The C grammar *)
(** A parser for it, only used to show that it is unambiguous. *)
Fixpoint c_un (px : parser) (fuel : nat) : parser := fun ts =>
  match fuel with
  | O => None
  | S fuel' =>
      match ts with
      | TNotSym :: ts' => option_map (fun r => (NUn UNot (fst r), snd r)) (c_un px fuel' ts')
      | _ => p_term px ts
      end
  end.
Definition ops_eq (t : tok) : option binop := match t with TEq => Some BEq | TNe => Some BNe | _ => None end.
Definition ops_rel (t : tok) : option binop :=
  match t with TLt => Some BLt | TLte => Some BLte | TGt => Some BGt | TGte => Some BGte | _ => None end.
Definition ops_and_c (t : tok) : option binop := match t with TAndSym => Some BAnd | _ => None end.
Definition ops_or_c (t : tok) : option binop := match t with TOrSym => Some BOr | _ => None end.
Definition c_or (px : parser) (fuel : nat) : parser :=
  p_lassoc ops_or_c (p_lassoc ops_and_c (p_lassoc ops_eq (p_lassoc ops_rel (p_lassoc ops_add (p_lassoc ops_mul (c_un px fuel)))))).
Fixpoint c_expr (fuel : nat) : parser := fun ts =>
  match fuel with
  | O => None
  | S fuel' =>
      match c_or (c_expr fuel') fuel ts with
      | Some (test, TQuestion :: ts1) =>
          match c_expr fuel' ts1 with
          | Some (if_true, TColon :: ts2) =>
              match c_expr fuel' ts2 with
              | Some (if_false, ts3) => Some (NCond test if_true if_false, ts3)
              | None => None
              end
          | _ => None
          end
      | r => r
      end
  end.

Definition c_shape (nt : gterm) (ts : list tok) (e : node) : Prop :=
  match nt with
  | CExpr => gnu COr ts e \/ exists a b c x y z, ts = a ++ TQuestion :: b ++ TColon :: c
               /\ e = NCond x y z /\ gnu COr a x /\ gnu CExpr b y /\ gnu CExpr c z
  | COr => chain ops_or_c (gnu CAnd) ts e
  | CAnd => chain ops_and_c (gnu CEq) ts e
  | CEq => chain ops_eq (gnu CRel) ts e
  | CRel => chain ops_rel (gnu CAdd) ts e
  | CAdd => chain ops_add (gnu CMul) ts e
  | CMul => chain ops_mul (gnu CUn) ts e
  | CUn => (exists d v, ts = [TNum d] /\ num_value d = Some v /\ e = NNum v)
           \/ (ts = [TVar] /\ e = NVar)
           \/ (exists a, ts = TLParen :: a ++ [TRParen] /\ gnu CExpr a e)
           \/ (exists a x, ts = TNotSym :: a /\ gnu CUn a x /\ e = NUn UNot x)
  end.
Lemma gnu_shape nt ts e : gnu nt ts e -> c_shape nt ts e.
Proof.
  intros D. induction D; cbn [c_shape] in *; try (econstructor; [eassumption|reflexivity|eassumption]);
    try (constructor; assumption).
  - right. exists a, b, c, x, y, z. auto.
  - do 3 right. eauto.
  - left. exists ds, (digits_value ds). split; [reflexivity|]. split; [|reflexivity]. apply num_value_ok. auto.
  - right; left; auto.
  - right; right; left; eauto.
Qed.

Definition cc_rel (t : tok) : bool := is_some (ops_rel t) || cont_add t.
Definition cc_eq (t : tok) : bool := is_some (ops_eq t) || cc_rel t.
Definition cc_and (t : tok) : bool := is_some (ops_and_c t) || cc_eq t.
Definition cc_or (t : tok) : bool := is_some (ops_or_c t) || cc_and t.
Definition cc_expr (t : tok) : bool := match t with TQuestion => true | _ => cc_or t end.

Section CComplete.
  Variables (px : parser) (m : nat).
  Hypothesis px_complete : forall pre e rest, gnu CExpr pre e -> length pre < m ->
    stop cc_expr rest -> px (pre ++ rest) = Some (e, rest).

  Lemma c_un_complete_fuel : forall fuel pre e rest, gnu CUn pre e -> length pre <= m -> length pre < fuel ->
    c_un px fuel (pre ++ rest) = Some (e, rest).
  Proof.
    induction fuel as [|fuel IH]; intros pre e rest D Hl Hf; [lia|].
    apply gnu_shape in D. cbn [c_shape] in D.
    destruct D as [(d & v & -> & Hv & ->)|[(-> & ->)|[(a & -> & D)|(a & x & -> & D & ->)]]].
    - cbn. rewrite Hv. reflexivity.
    - reflexivity.
    - cbn [app c_un p_term]. rewrite <- app_assoc. cbn [length] in Hl. rewrite app_length in Hl. cbn [length] in Hl.
      rewrite (px_complete a e) by (try assumption; try reflexivity; lia). reflexivity.
    - cbn [app c_un]. cbn [length] in *. rewrite (IH a x rest) by (assumption || lia). reflexivity.
  Qed.
  Lemma c_un_complete : pcomplete (until m (gnu CUn)) (fun _ => false) (c_un px (S m)).
  Proof. intros pre e rest [D Hl] _. apply c_un_complete_fuel; assumption || lia. Qed.

  Lemma c_or_complete : pcomplete (until m (gnu COr)) cc_or (c_or px (S m)).
  Proof.
    assert (forall nt ops R cont p, (forall ts e, gnu nt ts e -> chain ops R ts e) ->
      pcomplete (until m R) cont p -> (forall t op, ops t = Some op -> cont t = false) ->
      pcomplete (until m (gnu nt)) (fun t => is_some (ops t) || cont t) (p_lassoc ops p)) as Step.
    { intros nt ops R cont p Hs Hp Ho pre e rest [D Hl] Hst.
      exact (lassoc_complete_until ops R cont p m Hp Ho pre e rest (conj (Hs _ _ D) Hl) Hst). }
    assert (pcomplete (until m (gnu CMul)) cont_mul (p_lassoc ops_mul (c_un px (S m)))) as H1.
    { eapply Step; [exact (gnu_shape CMul)|exact c_un_complete|reflexivity]. }
    assert (pcomplete (until m (gnu CAdd)) cont_add (p_lassoc ops_add (p_lassoc ops_mul (c_un px (S m))))) as H2.
    { eapply Step; [exact (gnu_shape CAdd)|exact H1|intros []; discriminate || reflexivity]. }
    eapply Step; [exact (gnu_shape COr)| |intros []; discriminate || reflexivity].
    eapply Step; [exact (gnu_shape CAnd)| |intros []; discriminate || reflexivity].
    eapply Step; [exact (gnu_shape CEq)| |intros []; discriminate || reflexivity].
    eapply Step; [exact (gnu_shape CRel)|exact H2|intros []; discriminate || reflexivity].
  Qed.
End CComplete.

Lemma c_expr_eq fuel ts : c_expr (S fuel) ts =
      match c_or (c_expr fuel) (S fuel) ts with
      | Some (test, TQuestion :: ts1) =>
          match c_expr fuel ts1 with
          | Some (if_true, TColon :: ts2) =>
              match c_expr fuel ts2 with
              | Some (if_false, ts3) => Some (NCond test if_true if_false, ts3)
              | None => None
              end
          | _ => None
          end
      | r => r
      end.
Proof. reflexivity. Qed.

Lemma c_expr_complete fuel : forall pre e rest, gnu CExpr pre e -> length pre < fuel ->
  stop cc_expr rest -> c_expr fuel (pre ++ rest) = Some (e, rest).
Proof.
  induction fuel as [|fuel IH]; intros pre e rest D Hl Hs; [lia|].
  apply gnu_shape in D. cbn [c_shape] in D. rewrite c_expr_eq.
  destruct D as [D|(a & b & c & x & y & z & -> & -> & D1 & D2 & D3)].
  - rewrite (c_or_complete _ fuel IH pre e rest).
    + destruct rest as [|[] rest]; try reflexivity. discriminate Hs.
    + split; [exact D|lia].
    + destruct rest as [|[] rest]; cbn in *; congruence.
  - repeat (rewrite app_length in Hl; cbn [length] in Hl).
    rewrite <- app_assoc. cbn [app]. rewrite <- app_assoc. cbn [app].
    rewrite (c_or_complete _ fuel IH a x) by first [reflexivity|split; [exact D1|lia]].
    rewrite (IH b y) by (try assumption; try reflexivity; lia).
    rewrite (IH c z) by (try assumption; lia). reflexivity.
Qed.

Theorem gnu_unambiguous ts e e' : gnu CExpr ts e -> gnu CExpr ts e' -> e = e'.
Proof.
  intros D D'.
  pose proof (c_expr_complete (S (length ts)) ts e [] D ltac:(lia) I) as E.
  pose proof (c_expr_complete (S (length ts)) ts e' [] D' ltac:(lia) I) as E'. congruence.
Qed.

Definition m_to_g (x : mterm) : nonterm :=
  match x with MExpr => GExpr | MOr => GOr | MAnd => GAnd | MEq | MRel => GLogical | MNot => GNot
  | MAdd => GAdd | MMul => GMul | MTerm => GTerm end.
Definition m_to_c (x : mterm) : gterm :=
  match x with MExpr => CExpr | MOr => COr | MAnd => CAnd | MEq => CEq | MRel => CRel | MNot => CAdd
  | MAdd => CAdd | MMul => CMul | MTerm => CUn end.
Lemma common_derives nt ts e : common nt ts e -> derives (m_to_g nt) ts e.
Proof.
  induction 1; cbn [m_to_g] in *; try (constructor; assumption).
  - assumption.
  - constructor. apply (lift 4 7); [lia|exact IHcommon].
  - constructor; [assumption|constructor; assumption].
  - constructor; [assumption|constructor; assumption].
  - constructor; [assumption|constructor; assumption].
  - constructor. constructor. assumption.
Qed.
Lemma common_gnu nt ts e : common nt ts e -> gnu (m_to_c nt) ts e.
Proof.
  induction 1; cbn [m_to_c] in *; try (constructor; assumption); try assumption.
  - constructor; [assumption|constructor; assumption].
  - constructor; [assumption|constructor; assumption].
  - constructor. constructor. constructor. assumption.
Qed.

Theorem common_agreement ts e : common MExpr ts e ->
  parse_tokens ts = Some e /\ gnu CExpr ts e /\ forall e', gnu CExpr ts e' -> e' = e.
Proof.
  intros C. split; [apply parse_tokens_iff, (common_derives _ _ _ C)|].
  pose proof (common_gnu _ _ _ C) as D. split; [exact D|]. intros e' D'. exact (gnu_unambiguous _ _ _ D' D).
Qed.

