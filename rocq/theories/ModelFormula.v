(** Plural formulas: src/plural/formula/{formula.lalrpop,node.rs,mod.rs}. *)
From Coq Require Import String Arith NArith ZArith Bool List.
From Verif Require Import ModelBase.
Import ListNotations.

(** * Syntax trees: node.rs:1-60 *)
Inductive unop := UNeg | UNot.
Inductive binop := BAdd | BSub | BMul | BDiv | BMod | BAnd | BOr | BEq | BNe | BLt | BLte | BGt | BGte.
Inductive node :=
| NVar
| NNum (v : Z)
| NUn (op : unop) (rhs : node)
| NBin (op : binop) (lhs rhs : node)
| NCond (test if_true if_false : node).

(** * Tokens: the terminals of formula.lalrpop *)
Inductive tok :=
| TQuestion | TColon
| TOrSym | TOrWord | TAndSym | TAndWord
| TEq | TNe | TLt | TLte | TGt | TGte
| TNotSym | TNotWord
| TPlus | TMinus | TStar | TSlash | TPercent
| TVar | TLParen | TRParen
| TNum (digits : str).

(** The string terminals. *)
Definition lit_tokens : list (str * tok) :=
  [ (lit "?", TQuestion); (lit ":", TColon);
    (lit "||", TOrSym); (lit "or", TOrWord); (lit "&&", TAndSym); (lit "and", TAndWord);
    (lit "==", TEq); (lit "!=", TNe); (lit "<", TLt); (lit "<=", TLte); (lit ">", TGt);
    (lit ">=", TGte); (lit "!", TNotSym); (lit "not", TNotWord);
    (lit "+", TPlus); (lit "-", TMinus); (lit "*", TStar); (lit "/", TSlash); (lit "%", TPercent);
    (lit "n", TVar); (lit "(", TLParen); (lit ")", TRParen) ].

Fixpoint strip_prefix (p s : str) : option str :=
  match p, s with
  | [], _ => Some s
  | c :: p', x :: s' => if N.eqb c x then strip_prefix p' s' else None
  | _ :: _, [] => None
  end.

(** Longest prefix of characters satisfying [p] and the rest. *)
Fixpoint span (p : char -> bool) (s : str) : str * str :=
  match s with
  | c :: s' => if p c then let (a, b) := span p s' in (c :: a, b) else ([], s)
  | [] => ([], [])
  end.

(** Longest string terminal at the start of the input (LALRPOP's lexer takes the longest
    match). *)
Definition lex_literal (s : str) : option (tok * str) :=
  fold_left
    (fun best lt =>
       match strip_prefix (fst lt) s with
       | None => best
       | Some rest =>
           match best with
           | Some (_, rest') => if length rest <? length rest' then Some (snd lt, rest) else best
           | None => Some (snd lt, rest)
           end
       end) lit_tokens None.

(** LALRPOP's generated lexer (lalrpop-util [Matcher::next]): at each position the longest
    of the terminals, of [[0-9]+] and of the skipped [\s*]; [None] is InvalidToken.
    Digits, white space and string terminals start with different characters, so
    there are no ties. *)
Fixpoint lex (fuel : nat) (s : str) : option (list tok) :=
  match fuel with
  | O => None
  | S fuel' =>
      match s with
      | [] => Some []
      | c :: s' =>
          if is_ws c then lex fuel' (snd (span is_ws s))
          else if is_digit c then
            let (d, rest) := span is_digit s in
            option_map (cons (TNum d)) (lex fuel' rest)
          else
            match lex_literal s with
            | Some (t, rest) => option_map (cons t) (lex fuel' rest)
            | None => None
            end
      end
  end.

(** * Parser

    LALRPOP generates an LR(1) parser for the grammar; here a recursive-descent parser
    which is proved equivalent to the grammar in FormulaFacts.v.  [None] is any parse
    error (syntax error or a literal that does not fit an [i64]). *)
Definition parser := list tok -> option (node * list tok).

Definition i64_max : N := 9223372036854775807.

(** formula.lalrpop:68-71 [Num]: [<i64 as FromStr>::from_str]; the token consists of digits,
    so the branches for signs are not needed. *)
Definition num_value (d : str) : option Z :=
  match d with
  | [] => None
  | _ => match parse_digits i64_max 0 d with inl v => Some (Z.of_N v) | inr _ => None end
  end.

(** formula.lalrpop:62-66 [Term] *)
Definition p_term (p_expr : parser) : parser := fun ts =>
  match ts with
  | TNum d :: ts' => option_map (fun v => (NNum v, ts')) (num_value d)
  | TVar :: ts' => Some (NVar, ts')
  | TLParen :: ts' =>
      match p_expr ts' with
      | Some (e, TRParen :: ts'') => Some (e, ts'')
      | _ => None
      end
  | _ => None
  end.

(** formula.lalrpop:57-60 [Factor] *)
Definition p_factor (p_expr : parser) : parser := fun ts =>
  match ts with
  | TMinus :: ts' => option_map (fun r => (NUn UNeg (fst r), snd r)) (p_term p_expr ts')
  | _ => p_term p_expr ts
  end.

(** Left-associative chains [X: X op Y | Y] *)
Fixpoint p_chain (ops : tok -> option binop) (p_next : parser) (fuel : nat) (lhs : node) (ts : list tok)
  : option (node * list tok) :=
  match ts with
  | t :: ts' =>
      match ops t with
      | Some op =>
          match fuel with
          | O => None
          | S fuel' =>
              match p_next ts' with
              | Some (rhs, ts'') => p_chain ops p_next fuel' (NBin op lhs rhs) ts''
              | None => None
              end
          end
      | None => Some (lhs, ts)
      end
  | [] => Some (lhs, [])
  end.
Definition p_lassoc (ops : tok -> option binop) (p_next : parser) : parser := fun ts =>
  match p_next ts with
  | Some (lhs, ts') => p_chain ops p_next (length ts') lhs ts'
  | None => None
  end.

(** formula.lalrpop:50-55 [Mul] *)
Definition ops_mul (t : tok) : option binop :=
  match t with TStar => Some BMul | TSlash => Some BDiv | TPercent => Some BMod | _ => None end.
Definition p_mul (p_expr : parser) : parser := p_lassoc ops_mul (p_factor p_expr).

(** formula.lalrpop:44-48 [Add] *)
Definition ops_add (t : tok) : option binop :=
  match t with TPlus => Some BAdd | TMinus => Some BSub | _ => None end.
Definition p_add (p_expr : parser) : parser := p_lassoc ops_add (p_mul p_expr).

(** formula.lalrpop:38-42 [Not] *)
Definition p_not (p_expr : parser) : parser := fun ts =>
  match ts with
  | TNotSym :: ts' | TNotWord :: ts' =>
      option_map (fun r => (NUn UNot (fst r), snd r)) (p_add p_expr ts')
  | _ => p_add p_expr ts
  end.

(** formula.lalrpop:28-36 [Logical] *)
Definition ops_logical (t : tok) : option binop :=
  match t with
  | TEq => Some BEq | TNe => Some BNe | TLt => Some BLt | TLte => Some BLte
  | TGt => Some BGt | TGte => Some BGte | _ => None
  end.
Definition p_logical (p_expr : parser) : parser := p_lassoc ops_logical (p_not p_expr).

(** formula.lalrpop:22-26 [And] *)
Definition ops_and (t : tok) : option binop :=
  match t with TAndSym | TAndWord => Some BAnd | _ => None end.
Definition p_and (p_expr : parser) : parser := p_lassoc ops_and (p_logical p_expr).

(** formula.lalrpop:16-20 [Or] *)
Definition ops_or (t : tok) : option binop :=
  match t with TOrSym | TOrWord => Some BOr | _ => None end.
Definition p_or (p_expr : parser) : parser := p_lassoc ops_or (p_and p_expr).

(** formula.lalrpop:11-14 [Expr] *)
Fixpoint p_expr (fuel : nat) : parser := fun ts =>
  match fuel with
  | O => None
  | S fuel' =>
      match p_or (p_expr fuel') ts with
      | Some (test, TQuestion :: ts1) =>
          match p_expr fuel' ts1 with
          | Some (if_true, TColon :: ts2) =>
              match p_expr fuel' ts2 with
              | Some (if_false, ts3) => Some (NCond test if_true if_false, ts3)
              | None => None
              end
          | _ => None
          end
      | r => r
      end
  end.

(** formula.lalrpop:9 [Formula = Expr] up to the end of input *)
Definition parse_tokens (ts : list tok) : option node :=
  match p_expr (S (length ts)) ts with
  | Some (e, []) => Some e
  | _ => None
  end.

(** formula/mod.rs:14-28 [Formula::parse]; [None] is [Error::PluralForms(_)] *)
Definition formula_parse (input : str) : option node :=
  let input := trim input in
  if is_empty input then Some NVar
  else
    match lex (S (length input)) input with
    | Some ts => parse_tokens ts
    | None => None
    end.

(** * Equality *)
(** node.rs:1-22: the derived [PartialEq] of [UnOp] and [BinOp] *)
Definition unop_eqb (a b : unop) : bool := match a, b with UNeg, UNeg | UNot, UNot => true | _, _ => false end.
Definition binop_eqb (a b : binop) : bool :=
  match a, b with
  | BAdd, BAdd | BSub, BSub | BMul, BMul | BDiv, BDiv | BMod, BMod | BAnd, BAnd | BOr, BOr
  | BEq, BEq | BNe, BNe | BLt, BLt | BLte, BLte | BGt, BGt | BGte, BGte => true
  | _, _ => false
  end.
(** node.rs:149-182 [PartialEq for Node]; formula/mod.rs:8-11: [Formula] derives it from its
    only field *)
Fixpoint node_eqb (a b : node) : bool :=
  match a, b with
  | NVar, NVar => true
  | NNum l, NNum r => Z.eqb l r
  | NUn lo lr, NUn ro rr => unop_eqb lo ro && node_eqb lr rr
  | NBin lo ll lr, NBin ro rl rr => binop_eqb lo ro && node_eqb ll rl && node_eqb lr rr
  | NCond lc lt lf, NCond rc rt rf => node_eqb lc rc && node_eqb lt rt && node_eqb lf rf
  | _, _ => false
  end.

(** * Evaluation *)
Local Open Scope Z_scope.

Definition i64_min_z : Z := -9223372036854775808.
Definition i64_max_z : Z := 9223372036854775807.

(** Two's complement wrap-around to 64 bits: the value part of [overflowing_*] *)
Definition wrap64 (z : Z) : Z := (z + 9223372036854775808) mod 18446744073709551616 - 9223372036854775808.

(** node.rs:24-31 *)
Definition bool_to_num (b : bool) : Z := if b then 1 else 0.
(** node.rs:33-40 *)
Definition get_infinity (v : Z) : Z := if v <? 0 then i64_min_z else i64_max_z.

(** node.rs:91-146 [Node::execute].  [None] is the panic of the plain negation [-x] on
    [i64::MIN] when overflow checks are on; without them it wraps. *)
Fixpoint execute (checks : bool) (e : node) (n : Z) : option Z :=
  match e with
  | NVar => Some n
  | NNum v => Some v
  | NUn op rhs =>
      match execute checks rhs n with
      | None => None
      | Some r =>
          match op with
          | UNot => Some (bool_to_num (r =? 0))
          | UNeg => if checks && (r =? i64_min_z) then None else Some (wrap64 (- r))
          end
      end
  | NBin op lhs rhs =>
      match execute checks lhs n with
      | None => None
      | Some l =>
          let strict (f : Z -> Z) :=
            match execute checks rhs n with None => None | Some r => Some (f r) end in
          match op with
          | BAdd => strict (fun r => wrap64 (l + r))
          | BSub => strict (fun r => wrap64 (l - r))
          | BMul => strict (fun r => wrap64 (l * r))
          | BDiv => strict (fun r => if negb (r =? 0) then wrap64 (Z.quot l r) else get_infinity l)
          | BMod => strict (fun r => if negb (r =? 0) then wrap64 (Z.rem l r) else l)
          | BAnd => if negb (l =? 0) then strict (fun r => bool_to_num (negb (r =? 0)))
                    else Some (bool_to_num false)
          | BOr => if negb (l =? 0) then Some (bool_to_num true)
                   else strict (fun r => bool_to_num (negb (r =? 0)))
          | BEq => strict (fun r => bool_to_num (l =? r))
          | BNe => strict (fun r => bool_to_num (negb (l =? r)))
          | BLt => strict (fun r => bool_to_num (l <? r))
          | BLte => strict (fun r => bool_to_num (l <=? r))
          | BGt => strict (fun r => bool_to_num (r <? l))
          | BGte => strict (fun r => bool_to_num (r <=? l))
          end
      end
  | NCond test t f =>
      match execute checks test n with
      | None => None
      | Some c => if negb (c =? 0) then execute checks t n else execute checks f n
      end
  end.

(** formula/mod.rs:30-38 [Formula::execute]: [count as i64], then [res as usize].
    Outer [None]: panic. *)
Definition formula_execute (pf : platform) (e : node) (count : N) : option (option N) :=
  match execute (overflow_checks pf) e (wrap64 (Z.of_N count)) with
  | None => None
  | Some res =>
      if res <? 0 then Some None
      else Some (Some (N.modulo (Z.to_N res) (2 ^ usize_bits pf)))
  end.
