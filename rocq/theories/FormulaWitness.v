(** Witnesses for the properties of formulas that do not hold. *)
From Coq Require Import String Arith NArith ZArith Bool List Lia.
From Verif Require Import ModelBase ModelLine ModelFormula ModelData SpecLine SpecFormula SpecData FormulaFacts LexFacts FormulaThms EvalFacts DataFacts.
Import ListNotations.

Definition num1 : list tok := [TNum (lit "1")].
Definition num0 : list tok := [TNum (lit "0")].
Lemma gnu_num1 : gnu CUn num1 (NNum 1).
Proof.
  apply (g_num (lit "1")); [discriminate| |vm_compute; discriminate].
  intros c Hc. cbn in Hc. destruct Hc as [<-|[]]; lia.
Qed.
Lemma gnu_num0 : gnu CUn num0 (NNum 0).
Proof.
  apply (g_num (lit "0")); [discriminate| |vm_compute; discriminate].
  intros c Hc. cbn in Hc. destruct Hc as [<-|[]]; lia.
Qed.

(** 1 == n > 0 *)
Lemma c_meaning_differs :
  exists text ts e e', tokens_of text ts /\ gnu CExpr ts e /\ formula_parse text = Some e'
    /\ value e 2 = Some 1%Z /\ value e' 2 = Some 0%Z.
Proof.
  exists (lit "1 == n > 0"), (num1 ++ TEq :: [TVar] ++ TGt :: num0),
    (NBin BEq (NNum 1) (NBin BGt NVar (NNum 0))), (NBin BGt (NBin BEq (NNum 1) NVar) (NNum 0)).
  split; [apply (lex_iff 20); [vm_compute; lia|vm_compute; reflexivity]|].
  split; [|vm_compute; auto].
  apply g_expr, g_or, g_and, g_eq; [apply g_eq0, g_rel, g_add, g_mul, gnu_num1|].
  apply g_gt; [apply g_rel, g_add, g_mul, g_var|apply g_add, g_mul, gnu_num0].
Qed.

(** !n + 1 *)
Lemma c_meaning_differs_not :
  exists text ts e e', tokens_of text ts /\ gnu CExpr ts e /\ formula_parse text = Some e'
    /\ value e 0 = Some 2%Z /\ value e' 0 = Some 0%Z.
Proof.
  exists (lit "!n + 1"), ((TNotSym :: [TVar]) ++ TPlus :: num1),
    (NBin BAdd (NUn UNot NVar) (NNum 1)), (NUn UNot (NBin BAdd NVar (NNum 1))).
  split; [apply (lex_iff 20); [vm_compute; lia|vm_compute; reflexivity]|].
  split; [|vm_compute; auto].
  apply g_expr, g_or, g_and, g_eq0, g_rel. apply g_plus; [apply g_add, g_mul, g_not, g_var|apply g_mul, gnu_num1].
Qed.

(** !!n is refused *)
Lemma c_formula_refused :
  exists text ts e, tokens_of text ts /\ gnu CExpr ts e /\ formula_parse text = None.
Proof.
  exists (lit "!!n"), (TNotSym :: TNotSym :: [TVar]), (NUn UNot (NUn UNot NVar)).
  split; [apply (lex_iff 20); [vm_compute; lia|vm_compute; reflexivity]|].
  split; [|vm_compute; reflexivity].
  apply g_expr, g_or, g_and, g_eq0, g_rel, g_add, g_mul, g_not, g_not, g_var.
Qed.

(** C36: -n with count 2^63 *)
Definition debug64 : platform := Platform 64 true.
Lemma lookup_panics :
  exists def f count, plural_forms_parse debug64 def = Ok f /\ (count < 2 ^ 64)%N
    /\ forms_get_value debug64 f count = None.
Proof.
  exists (lit "nplurals=2; plural=-n;"),
    (PluralForms (NUn UNeg NVar) 2 (lit "nplurals=2; plural=-n;") (lit "-n")), 9223372036854775808%N.
  split; [vm_compute; reflexivity|]. split; [vm_compute; reflexivity|]. vm_compute; reflexivity.
Qed.
(** also for small counts: 0 - 1 is divided by 0, giving the smallest number, which is negated *)
Lemma lookup_panics_any_count :
  exists def f, plural_forms_parse debug64 def = Ok f /\ forall count, forms_get_value debug64 f count = None.
Proof.
  exists (lit "nplurals=2; plural=-((0-1)/0);"),
    (PluralForms (NUn UNeg (NBin BDiv (NBin BSub (NNum 0) (NNum 1)) (NNum 0))) 2
       (lit "nplurals=2; plural=-((0-1)/0);") (lit "-((0-1)/0)")).
  split; [vm_compute; reflexivity|]. intros count. reflexivity.
Qed.

(** On a 32-bit target the value is truncated before it is compared. *)
Definition release32 : platform := Platform 32 false.
Lemma index_truncated :
  exists def f, plural_forms_parse release32 def = Ok f
    /\ value (pf_formula f) 5 = Some 4294967297%Z /\ pf_count f = 2%N
    /\ forms_get_value release32 f 5 = Some (Some 1%N).
Proof.
  exists (lit "nplurals=2; plural=4294967297;"),
    (PluralForms (NNum 4294967297) 2 (lit "nplurals=2; plural=4294967297;") (lit "4294967297")).
  split; [vm_compute; reflexivity|]. vm_compute; auto.
Qed.

(** C44 *)
Definition forms_n : plural_forms := PluralForms NVar 2 (lit "nplurals=2; plural=n;") (lit "n").
Lemma equal_messages_differ :
  exists a b n, msg_eqb a b = true /\ msg_get_plural_text debug64 a n <> msg_get_plural_text debug64 b n
    /\ msg_get_text a <> msg_get_text b.
Proof.
  exists (MPlural (Plural (Some forms_n) (lit "a") (lit "b") [lit "x"])),
         (MPlural (Plural (Some forms_n) (lit "a") (lit "b") [lit "y"])), 0%N.
  split; [vm_compute; reflexivity|]. split; vm_compute; discriminate.
Qed.
Lemma equal_simple_messages a b : msg_eqb a b = true -> msg_is_plural a = false ->
  msg_get_text a = msg_get_text b /\ msg_get_id a = msg_get_id b
  /\ forall pf n, exists x y, msg_get_plural_text pf a n = Some x /\ msg_get_plural_text pf b n = Some y /\ opt_str x = opt_str y.
Proof.
  intros H P. apply msg_eqb_iff in H. destruct a as [i t|p]; [|discriminate]. destruct b as [i' t'|p']; [|contradiction]. destruct H as [-> H].
  split; [exact H|]. split; [reflexivity|]. intros pf n. exists t, t'. auto.
Qed.
