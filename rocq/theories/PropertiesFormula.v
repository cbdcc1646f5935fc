(** Properties of plural formulas and of the data types (C30-C38, C43-C46). *)
From Coq Require Import String Arith NArith ZArith Bool List Lia.
From Verif Require Import ModelBase ModelLine ModelFormula ModelData SpecLine SpecFormula SpecData
  FormulaFacts LexFacts FormulaThms EvalFacts DataFacts FormulaWitness CommonFacts PanicFacts.
Import ListNotations.

(** C30 *)
Theorem C30_formula_accepted_iff_derivable : forall s e,
  formula_parse s = Some e <->
  (blanks s /\ e = NVar) \/ (~ blanks s /\ exists ts, tokens_of s ts /\ derives GExpr ts e).
Proof. exact formula_parse_iff. Qed.
Print Assumptions C30_formula_accepted_iff_derivable.

Theorem C30_grammar_unambiguous : forall ts e e', derives GExpr ts e -> derives GExpr ts e' -> e = e'.
Proof. exact grammar_unambiguous. Qed.
Print Assumptions C30_grammar_unambiguous.

Theorem C30_tokens_unique : forall s ts ts', tokens_of s ts -> tokens_of s ts' -> ts = ts'.
Proof. exact tokens_of_det. Qed.
Print Assumptions C30_tokens_unique.

Theorem C30_literals_fit : forall s e, formula_parse s = Some e -> literals_ok e.
Proof. exact formula_literals. Qed.
Print Assumptions C30_literals_fit.

Example C30_example :
  formula_parse (lit " n%10==1&&n%100!=11?0:n>1 ") =
    Some (NCond (NBin BAnd (NBin BEq (NBin BMod NVar (NNum 10)) (NNum 1))
                           (NBin BNe (NBin BMod NVar (NNum 100)) (NNum 11)))
                (NNum 0) (NBin BGt NVar (NNum 1)))
  /\ formula_parse (lit "9223372036854775807") = Some (NNum 9223372036854775807)
  /\ formula_parse (lit "9223372036854775808") = None
  /\ formula_parse (lit "n n") = None.
Proof. repeat split; vm_compute; reflexivity. Qed.

(** C31 *)
Theorem C31_print_parse : forall e s, literals_ok e -> spaced s (full_tokens e) -> formula_parse s = Some e.
Proof. exact print_parse. Qed.
Print Assumptions C31_print_parse.

Example C31_example :
  formula_parse (lit "( ( n % 10 ) == ( ! n ) ) ") = Some (NBin BEq (NBin BMod NVar (NNum 10)) (NUn UNot NVar))
  /\ full_tokens (NBin BEq (NBin BMod NVar (NNum 10)) (NUn UNot NVar)) =
     [TLParen; TLParen; TVar; TPercent; TNum (lit "10"); TRParen; TEq; TLParen; TNotSym; TVar; TRParen; TRParen].
Proof. split; vm_compute; reflexivity. Qed.

(** C32 *)
Theorem C32_precedence_and_left_associativity : forall op1 op2 a b c x y z,
  derives GFactor a x -> derives GFactor b y -> derives GFactor c z ->
  parse_tokens (a ++ binop_tok op1 :: b ++ binop_tok op2 :: c) =
  Some (if level op2 <=? level op1 then NBin op2 (NBin op1 x y) z else NBin op1 x (NBin op2 y z)).
Proof. exact precedence. Qed.
Print Assumptions C32_precedence_and_left_associativity.

Theorem C32_not_between_comparison_and_sum : forall op t a b x y,
  t = TNotSym \/ t = TNotWord -> derives GFactor a x -> derives GFactor b y ->
  parse_tokens (t :: a ++ binop_tok op :: b) =
  Some (if 4 <=? level op then NUn UNot (NBin op x y) else NBin op (NUn UNot x) y).
Proof. exact precedence_not. Qed.
Print Assumptions C32_not_between_comparison_and_sum.

Theorem C32_minus_tightest : forall op a b x y,
  derives GTerm a x -> derives GFactor b y ->
  parse_tokens (TMinus :: a ++ binop_tok op :: b) = Some (NBin op (NUn UNeg x) y).
Proof. exact precedence_minus. Qed.
Print Assumptions C32_minus_tightest.

Theorem C32_cond_loosest : forall op a b c d x y z v,
  derives GFactor a x -> derives GFactor b y -> derives GExpr c z -> derives GExpr d v ->
  parse_tokens (a ++ binop_tok op :: b ++ TQuestion :: c ++ TColon :: d) = Some (NCond (NBin op x y) z v).
Proof. exact cond_loosest. Qed.
Print Assumptions C32_cond_loosest.

Theorem C32_cond_right_associative : forall a b c d e u v w x y,
  derives GOr a u -> derives GExpr b v -> derives GOr c w -> derives GExpr d x -> derives GExpr e y ->
  parse_tokens (a ++ TQuestion :: b ++ TColon :: c ++ TQuestion :: d ++ TColon :: e) =
  Some (NCond u v (NCond w x y)).
Proof. exact cond_right_assoc. Qed.
Print Assumptions C32_cond_right_associative.

Theorem C32_words_are_symbols : forall ts, parse_tokens (map to_symbol ts) = parse_tokens ts.
Proof. exact words_are_symbols. Qed.
Print Assumptions C32_words_are_symbols.

Example C32_example :
  formula_parse (lit "n?1:n?2:3") = Some (NCond NVar (NNum 1) (NCond NVar (NNum 2) (NNum 3))) /\
  formula_parse (lit "n-1-2*n") = Some (NBin BSub (NBin BSub NVar (NNum 1)) (NBin BMul (NNum 2) NVar))
  /\ formula_parse (lit "n or n and not n") = formula_parse (lit "n||n&&!n")
  /\ derives GFactor [TVar] NVar.
Proof. split; [vm_compute; reflexivity|]. split; [vm_compute; reflexivity|split; [vm_compute; reflexivity|repeat constructor]]. Qed.

(** C33 is false: == and < have the same level, ! is looser than + and *, !! is refused *)
Theorem C33_c_meaning_refuted :
  exists text ts e e', tokens_of text ts /\ gnu CExpr ts e /\ formula_parse text = Some e'
    /\ value e 2 = Some 1%Z /\ value e' 2 = Some 0%Z.
Proof. exact c_meaning_differs. Qed.
Print Assumptions C33_c_meaning_refuted.

Theorem C33_c_meaning_of_not_refuted :
  exists text ts e e', tokens_of text ts /\ gnu CExpr ts e /\ formula_parse text = Some e'
    /\ value e 0 = Some 2%Z /\ value e' 0 = Some 0%Z.
Proof. exact c_meaning_differs_not. Qed.
Print Assumptions C33_c_meaning_of_not_refuted.

Theorem C33_c_formula_accepted_refuted :
  exists text ts e, tokens_of text ts /\ gnu CExpr ts e /\ formula_parse text = None.
Proof. exact c_formula_refused. Qed.
Print Assumptions C33_c_formula_accepted_refuted.

(** The true variant: agreement on the part of C without these spots. *)
Theorem C33_agreement_with_c_partial : forall ts e, common MExpr ts e ->
  parse_tokens ts = Some e /\ gnu CExpr ts e /\ forall e', gnu CExpr ts e' -> e' = e.
Proof. exact common_agreement. Qed.
Print Assumptions C33_agreement_with_c_partial.

(** This part is as large as possible: it is where the crate and C read the same tree. *)
Theorem C33_agreement_exact_partial : forall ts e, common MExpr ts e <-> parse_tokens ts = Some e /\ gnu CExpr ts e.
Proof. exact common_iff. Qed.
Print Assumptions C33_agreement_exact_partial.

Example C33_example : common MExpr ([TVar] ++ TGt :: [TVar]) (NBin BGt NVar NVar).
Proof. apply m_expr, m_or, m_and, m_eq0, m_gt; [apply m_rel|]; apply m_not, m_add, m_mul, m_var. Qed.

(** C34 *)
Theorem C34_arithmetic_in_range : forall checks e n v, value e n = Some v -> execute checks e n = Some v.
Proof. exact execute_value. Qed.
Print Assumptions C34_arithmetic_in_range.

Example C34_example :
  value (NCond (NBin BGt NVar (NNum 1)) (NBin BDiv (NUn UNeg NVar) (NNum 2)) (NNum 7)) 5 = Some (-2)%Z
  /\ execute false (NCond (NBin BGt NVar (NNum 1)) (NBin BDiv (NUn UNeg NVar) (NNum 2)) (NNum 7)) 5 = Some (-2)%Z
  /\ execute false (NBin BLte NVar (NNum 5)) 5 = Some 1%Z /\ execute false (NBin BOr NVar (NNum 0)) 5 = Some 1%Z.
Proof. repeat split; vm_compute; reflexivity. Qed.

(** C35 *)
Theorem C35_evaluation_is_machine_arithmetic : forall e n v, in64 n -> literals_ok e ->
  (execute false e n = Some v <-> runs n e v).
Proof. exact execute_runs. Qed.
Print Assumptions C35_evaluation_is_machine_arithmetic.

Theorem C35_evaluation_total : forall e n, in64 n -> literals_ok e ->
  exists v, execute false e n = Some v /\ in64 v.
Proof. exact execute_total. Qed.
Print Assumptions C35_evaluation_total.

Theorem C35_checks_only_add_panics : forall e n v, execute true e n = Some v -> execute false e n = Some v.
Proof. exact execute_checks. Qed.
Print Assumptions C35_checks_only_add_panics.

Example C35_example :
  execute false (NBin BAdd (NNum 9223372036854775807) NVar) 1 = Some (-9223372036854775808)%Z
  /\ execute false (NBin BDiv NVar (NNum 0)) 3 = Some 9223372036854775807%Z
  /\ execute false (NBin BMod NVar (NNum 0)) 3 = Some 3%Z.
Proof. repeat split; vm_compute; reflexivity. Qed.

(** C36 is false in builds with overflow checks *)
Theorem C36_lookup_panics_refuted :
  exists def f count, plural_forms_parse debug64 def = Ok f /\ (count < 2 ^ 64)%N
    /\ forms_get_value debug64 f count = None.
Proof. exact lookup_panics. Qed.
Print Assumptions C36_lookup_panics_refuted.

Theorem C36_lookup_panics_for_any_count_refuted :
  exists def f, plural_forms_parse debug64 def = Ok f /\ forall count, forms_get_value debug64 f count = None.
Proof. exact lookup_panics_any_count. Qed.
Print Assumptions C36_lookup_panics_for_any_count_refuted.

Theorem C36_no_panic_partial : forall pf f count,
  overflow_checks pf = false \/ no_neg (pf_formula f) -> literals_ok (pf_formula f) ->
  forms_get_value pf f count <> None.
Proof. exact get_value_no_panic. Qed.
Print Assumptions C36_no_panic_partial.

(** Exactly when: with overflow checks, if evaluation comes to negate the least integer. *)
Theorem C36_panics_iff_partial : forall pf f count w, literals_ok (pf_formula f) -> congruent w (Z.of_N count) ->
  (forms_get_value pf f count = None <-> overflow_checks pf = true /\ negates_min w (pf_formula f)).
Proof. exact get_value_panics_iff. Qed.
Print Assumptions C36_panics_iff_partial.

Example C36_iff_example : let f := PluralForms (NUn UNeg NVar) 2 [] [] in
  literals_ok (pf_formula f) /\ congruent min64 (Z.of_N 9223372036854775808) /\ negates_min min64 (pf_formula f)
  /\ forms_get_value debug64 f 9223372036854775808 = None /\ ~ negates_min 1 (pf_formula f).
Proof.
  split; [exact Logic.I|]. split; [split; [unfold in64, min64, max64; lia|reflexivity]|].
  split; [apply nm_here; constructor|]. split; [vm_compute; reflexivity|].
  intros H. inversion H; subst; match goal with X : runs _ _ _ |- _ => inversion X | X : negates_min _ NVar |- _ => inversion X end.
Qed.

Example C36_example :
  no_neg (NBin BGt NVar (NNum 1)) /\ literals_ok (NBin BGt NVar (NNum 1))
  /\ forms_get_value debug64 (PluralForms (NBin BGt NVar (NNum 1)) 2 [] []) 18446744073709551615 = Some (Some 0%N).
Proof. split; [cbn; auto|]. split; [cbn; unfold max64; lia|]. vm_compute; reflexivity. Qed.

(** C37 *)
Theorem C37_index_below_count : forall pf f count i,
  forms_get_value pf f count = Some (Some i) -> (i < pf_count f)%N.
Proof. exact get_value_bound. Qed.
Print Assumptions C37_index_below_count.

Theorem C37_index_is_the_value : forall pf f count, word64 pf -> literals_ok (pf_formula f) -> forall i,
  forms_get_value pf f count = Some (Some i) <->
  execute (overflow_checks pf) (pf_formula f) (wrap64 (Z.of_N count)) = Some (Z.of_N i) /\ (i < pf_count f)%N.
Proof. exact get_value_iff. Qed.
Print Assumptions C37_index_is_the_value.

Theorem C37_no_index_iff : forall pf f count, word64 pf -> literals_ok (pf_formula f) ->
  forms_get_value pf f count = Some None <->
  exists v, execute (overflow_checks pf) (pf_formula f) (wrap64 (Z.of_N count)) = Some v
            /\ (v < 0 \/ Z.of_N (pf_count f) <= v)%Z.
Proof. exact get_value_none. Qed.
Print Assumptions C37_no_index_iff.

Theorem C37_index_is_the_mathematical_value : forall pf f count v,
  word64 pf -> literals_ok (pf_formula f) -> (count < 2 ^ 63)%N ->
  value (pf_formula f) (Z.of_N count) = Some v ->
  forms_get_value pf f count =
  Some (if (0 <=? v)%Z && (v <? Z.of_N (pf_count f))%Z then Some (Z.to_N v) else None).
Proof. exact get_value_math. Qed.
Print Assumptions C37_index_is_the_mathematical_value.

(** not on 32-bit targets, where the value is cut to the machine word first *)
Theorem C37_index_on_32_bits_refuted :
  exists def f, plural_forms_parse release32 def = Ok f
    /\ value (pf_formula f) 5 = Some 4294967297%Z /\ pf_count f = 2%N
    /\ forms_get_value release32 f 5 = Some (Some 1%N).
Proof. exact index_truncated. Qed.
Print Assumptions C37_index_on_32_bits_refuted.

Example C37_example :
  word64 debug64 /\ forms_get_value debug64 forms_n 1 = Some (Some 1%N)
  /\ forms_get_value debug64 forms_n 2 = Some None
  /\ forms_get_value debug64 (PluralForms (NUn UNeg NVar) 2 [] []) 1 = Some None.
Proof. repeat split; vm_compute; reflexivity. Qed.

(** C38 *)
Theorem C38_lookup_returns_stored_form : forall pf p count r,
  plural_get pf p count = Some r <->
  match pl_forms p with
  | None => r = None
  | Some f => exists o, forms_get_value pf f count = Some o
              /\ r = match o with None => None | Some i => nth_error (pl_values p) (N.to_nat i) end
  end.
Proof. exact plural_get_iff. Qed.
Print Assumptions C38_lookup_returns_stored_form.

Example C38_example :
  plural_get debug64 (Plural (Some forms_n) [] [] [lit "a"; lit "b"]) 1 = Some (Some (lit "b"))
  /\ plural_get debug64 (Plural (Some forms_n) [] [] [lit "a"]) 1 = Some None
  /\ plural_get debug64 (Plural None [] [] [lit "a"]) 0 = Some None
  /\ plural_get debug64 (Plural (Some (PluralForms (NUn UNeg NVar) 2 [] [])) [] [] [lit "a"; lit "b"]) 1 = Some None.
Proof. repeat split; vm_compute; reflexivity. Qed.

(** C43 *)
Theorem C43_equality_reflexive : forall a, msg_eqb a a = true.
Proof. exact msg_eqb_refl. Qed.
Print Assumptions C43_equality_reflexive.
Theorem C43_equality_symmetric : forall a b, msg_eqb a b = msg_eqb b a.
Proof. exact msg_eqb_sym. Qed.
Print Assumptions C43_equality_symmetric.
Theorem C43_equality_transitive : forall a b c, msg_eqb a b = true -> msg_eqb b c = true -> msg_eqb a c = true.
Proof. exact msg_eqb_trans. Qed.
Print Assumptions C43_equality_transitive.
Theorem C43_equality_meaning : forall a b, msg_eqb a b = true <-> same_message a b.
Proof. exact msg_eqb_iff. Qed.
Print Assumptions C43_equality_meaning.
Example C43_example : msg_eqb (MSimple (lit "a") None) (MSimple (lit "a") (Some [])) = true
  /\ msg_eqb (MSimple (lit "a") None) (MSimple (lit "a") (Some (lit "b"))) = false.
Proof. split; vm_compute; reflexivity. Qed.

(** C44 is false for plural messages *)
Theorem C44_equal_messages_same_texts_refuted :
  exists a b n, msg_eqb a b = true /\ msg_get_plural_text debug64 a n <> msg_get_plural_text debug64 b n
    /\ msg_get_text a <> msg_get_text b.
Proof. exact equal_messages_differ. Qed.
Print Assumptions C44_equal_messages_same_texts_refuted.
Theorem C44_equal_simple_messages_partial : forall a b, msg_eqb a b = true -> msg_is_plural a = false ->
  msg_get_text a = msg_get_text b /\ msg_get_id a = msg_get_id b
  /\ forall pf n, exists x y, msg_get_plural_text pf a n = Some x /\ msg_get_plural_text pf b n = Some y /\ opt_str x = opt_str y.
Proof. exact equal_simple_messages. Qed.
Print Assumptions C44_equal_simple_messages_partial.

(** C45 *)
Theorem C45_accessors_consistent : forall pf m,
  (msg_is_empty m = true \/ msg_is_simple m = true \/ msg_is_plural m = true)
  /\ (msg_is_empty m && msg_is_simple m = false) /\ (msg_is_empty m && msg_is_plural m = false)
  /\ (msg_is_simple m && msg_is_plural m = false)
  /\ (msg_is_plural m = true <-> exists p, msg_plural m = Some p)
  /\ (msg_is_plural m = true <-> exists s, msg_get_plural_id m = Some s)
  /\ (forall p, msg_plural m = Some p ->
        msg_get_id m = pl_singular p /\ msg_get_plural_id m = Some (pl_plural p)
        /\ msg_get_text m = match pl_values p with v :: _ => v | [] => [] end
        /\ (msg_is_blank m = true <-> forall v, In v (pl_values p) -> v = [])
        /\ forall n, msg_get_plural_text pf m n = plural_get pf p n)
  /\ (msg_plural m = None ->
        (msg_is_blank m = true <-> msg_get_text m = [])
        /\ (msg_is_empty m = true <-> msg_get_id m = [])
        /\ exists t, forall n, msg_get_plural_text pf m n = Some t
                     /\ msg_get_text m = match t with Some s => s | None => [] end).
Proof. exact msg_accessors. Qed.
Print Assumptions C45_accessors_consistent.
Example C45_example : msg_is_simple (MSimple (lit "a") None) = true /\ msg_is_empty message_default = true
  /\ msg_is_plural (MPlural (Plural None [] [] [])) = true /\ msg_is_empty (MPlural (Plural None [] [] [])) = false
  /\ msg_get_plural_text debug64 (MSimple (lit "a") (Some (lit "b"))) 7 = Some (Some (lit "b"))
  /\ msg_get_text (MPlural (Plural None (lit "a") (lit "b") [lit "c"; lit "d"])) = lit "c"
  /\ msg_is_blank (MPlural (Plural None (lit "a") (lit "b") [[]; lit "d"])) = false.
Proof. repeat split; vm_compute; reflexivity. Qed.
