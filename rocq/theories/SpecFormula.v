(** Declarative vocabulary for plural formulas: spelling of tokens, the grammar as
    inductive relations, mathematical meaning.  Independent of the lexer, parser and
    evaluator of the model (only the types of tokens and trees are shared). *)
From Coq Require Import String Arith NArith ZArith Bool List.
From Verif Require Import ModelBase ModelFormula SpecLine.
Import ListNotations.

(** * Spelling *)
Inductive spelled : tok -> str -> Prop :=
| sp_question : spelled TQuestion (lit "?")
| sp_colon : spelled TColon (lit ":")
| sp_or : spelled TOrSym (lit "||")
| sp_or_word : spelled TOrWord (lit "or")
| sp_and : spelled TAndSym (lit "&&")
| sp_and_word : spelled TAndWord (lit "and")
| sp_eq : spelled TEq (lit "==")
| sp_ne : spelled TNe (lit "!=")
| sp_lt : spelled TLt (lit "<")
| sp_lte : spelled TLte (lit "<=")
| sp_gt : spelled TGt (lit ">")
| sp_gte : spelled TGte (lit ">=")
| sp_not : spelled TNotSym (lit "!")
| sp_not_word : spelled TNotWord (lit "not")
| sp_plus : spelled TPlus (lit "+")
| sp_minus : spelled TMinus (lit "-")
| sp_star : spelled TStar (lit "*")
| sp_slash : spelled TSlash (lit "/")
| sp_percent : spelled TPercent (lit "%")
| sp_var : spelled TVar (lit "n")
| sp_lparen : spelled TLParen (lit "(")
| sp_rparen : spelled TRParen (lit ")")
| sp_num ds : ds <> [] -> (forall c, In c ds -> (48 <= c <= 57)%N) -> spelled (TNum ds) ds.

(** [w] is the longest token spelling at the start of [w ++ s]. *)
Definition longest (w s : str) : Prop :=
  forall t' w' s', spelled t' w' -> w ++ s = w' ++ s' -> length w' <= length w.

(** A text and its tokens: blanks are skipped, otherwise the longest token is taken. *)
Inductive tokens_of : str -> list tok -> Prop :=
| to_nil : tokens_of [] []
| to_white c s ts : white c -> tokens_of s ts -> tokens_of (c :: s) ts
| to_token t w s ts : spelled t w -> longest w s -> tokens_of s ts -> tokens_of (w ++ s) (t :: ts).

(** * Numbers: digits read in base ten *)
Local Open Scope Z_scope.
Definition digits_value (ds : str) : Z := fold_left (fun a c => a * 10 + (Z.of_N c - 48)) ds 0.
Definition max64 : Z := 2 ^ 63 - 1.
Definition min64 : Z := - 2 ^ 63.
Definition in64 (z : Z) : Prop := min64 <= z <= max64.

(** * The grammar, formula.lalrpop:9-71, one constructor per production *)
Inductive nonterm := GExpr | GOr | GAnd | GLogical | GNot | GAdd | GMul | GFactor | GTerm.

Inductive derives : nonterm -> list tok -> node -> Prop :=
| d_cond a b c x y z : derives GOr a x -> derives GExpr b y -> derives GExpr c z ->
    derives GExpr (a ++ TQuestion :: b ++ TColon :: c) (NCond x y z)
| d_expr a x : derives GOr a x -> derives GExpr a x
| d_or_sym a b x y : derives GOr a x -> derives GAnd b y -> derives GOr (a ++ TOrSym :: b) (NBin BOr x y)
| d_or_word a b x y : derives GOr a x -> derives GAnd b y -> derives GOr (a ++ TOrWord :: b) (NBin BOr x y)
| d_or a x : derives GAnd a x -> derives GOr a x
| d_and_sym a b x y : derives GAnd a x -> derives GLogical b y -> derives GAnd (a ++ TAndSym :: b) (NBin BAnd x y)
| d_and_word a b x y : derives GAnd a x -> derives GLogical b y -> derives GAnd (a ++ TAndWord :: b) (NBin BAnd x y)
| d_and a x : derives GLogical a x -> derives GAnd a x
| d_eq a b x y : derives GLogical a x -> derives GNot b y -> derives GLogical (a ++ TEq :: b) (NBin BEq x y)
| d_ne a b x y : derives GLogical a x -> derives GNot b y -> derives GLogical (a ++ TNe :: b) (NBin BNe x y)
| d_lt a b x y : derives GLogical a x -> derives GNot b y -> derives GLogical (a ++ TLt :: b) (NBin BLt x y)
| d_lte a b x y : derives GLogical a x -> derives GNot b y -> derives GLogical (a ++ TLte :: b) (NBin BLte x y)
| d_gt a b x y : derives GLogical a x -> derives GNot b y -> derives GLogical (a ++ TGt :: b) (NBin BGt x y)
| d_gte a b x y : derives GLogical a x -> derives GNot b y -> derives GLogical (a ++ TGte :: b) (NBin BGte x y)
| d_logical a x : derives GNot a x -> derives GLogical a x
| d_not_sym a x : derives GAdd a x -> derives GNot (TNotSym :: a) (NUn UNot x)
| d_not_word a x : derives GAdd a x -> derives GNot (TNotWord :: a) (NUn UNot x)
| d_not a x : derives GAdd a x -> derives GNot a x
| d_plus a b x y : derives GAdd a x -> derives GMul b y -> derives GAdd (a ++ TPlus :: b) (NBin BAdd x y)
| d_minus a b x y : derives GAdd a x -> derives GMul b y -> derives GAdd (a ++ TMinus :: b) (NBin BSub x y)
| d_add a x : derives GMul a x -> derives GAdd a x
| d_times a b x y : derives GMul a x -> derives GFactor b y -> derives GMul (a ++ TStar :: b) (NBin BMul x y)
| d_div a b x y : derives GMul a x -> derives GFactor b y -> derives GMul (a ++ TSlash :: b) (NBin BDiv x y)
| d_mod a b x y : derives GMul a x -> derives GFactor b y -> derives GMul (a ++ TPercent :: b) (NBin BMod x y)
| d_mul a x : derives GFactor a x -> derives GMul a x
| d_neg a x : derives GTerm a x -> derives GFactor (TMinus :: a) (NUn UNeg x)
| d_factor a x : derives GTerm a x -> derives GFactor a x
| d_num ds : ds <> [] -> (forall c, In c ds -> (48 <= c <= 57)%N) -> digits_value ds <= max64 ->
    derives GTerm [TNum ds] (NNum (digits_value ds))
| d_var : derives GTerm [TVar] NVar
| d_paren a x : derives GExpr a x -> derives GTerm (TLParen :: a ++ [TRParen]) x.

(** * Writing a tree with all parentheses *)
Definition unop_tok (op : unop) : tok := match op with UNeg => TMinus | UNot => TNotSym end.
Definition binop_tok (op : binop) : tok :=
  match op with
  | BAdd => TPlus | BSub => TMinus | BMul => TStar | BDiv => TSlash | BMod => TPercent
  | BAnd => TAndSym | BOr => TOrSym
  | BEq => TEq | BNe => TNe | BLt => TLt | BLte => TLte | BGt => TGt | BGte => TGte
  end.
Fixpoint full_tokens (e : node) : list tok :=
  match e with
  | NVar => [TVar]
  | NNum v => [TNum (dec_str (Z.to_N v))]
  | NUn op x => TLParen :: unop_tok op :: full_tokens x ++ [TRParen]
  | NBin op x y => TLParen :: full_tokens x ++ binop_tok op :: full_tokens y ++ [TRParen]
  | NCond x y z => TLParen :: full_tokens x ++ TQuestion :: full_tokens y ++ TColon :: full_tokens z ++ [TRParen]
  end.
(** Literals of a tree that can be written. *)
Fixpoint literals_ok (e : node) : Prop :=
  match e with
  | NVar => True
  | NNum v => 0 <= v <= max64
  | NUn _ x => literals_ok x
  | NBin _ x y => literals_ok x /\ literals_ok y
  | NCond x y z => literals_ok x /\ literals_ok y /\ literals_ok z
  end.
(** A text in which every token is followed by at least one blank. *)
Inductive spaced : str -> list tok -> Prop :=
| sd_nil : spaced [] []
| sd_cons t w b bs s ts : spelled t w -> white b -> blanks bs -> spaced s ts ->
    spaced (w ++ b :: bs ++ s) (t :: ts).

(** * Levels of the binary operators (higher binds tighter) *)
Definition level (op : binop) : nat :=
  match op with
  | BOr => 1
  | BAnd => 2
  | BEq | BNe | BLt | BLte | BGt | BGte => 3
  | BAdd | BSub => 4
  | BMul | BDiv | BMod => 5
  end.
(** The word operators and their symbols. *)
Definition to_symbol (t : tok) : tok :=
  match t with TOrWord => TOrSym | TAndWord => TAndSym | TNotWord => TNotSym | _ => t end.

(** * Meaning over the integers; [None] when a value leaves 64 bits or a divisor is 0 *)
Definition b2z (b : bool) : Z := if b then 1 else 0.
Definition fits (z : Z) : option Z := if (min64 <=? z) && (z <=? max64) then Some z else None.
Definition bin_value (op : binop) (l r : Z) : option Z :=
  match op with
  | BAdd => fits (l + r)
  | BSub => fits (l - r)
  | BMul => fits (l * r)
  | BDiv => if r =? 0 then None else fits (Z.quot l r)
  | BMod => if r =? 0 then None else Some (Z.rem l r)
  | BAnd => Some (b2z (negb (l =? 0) && negb (r =? 0)))
  | BOr => Some (b2z (negb (l =? 0) || negb (r =? 0)))
  | BEq => Some (b2z (l =? r))
  | BNe => Some (b2z (negb (l =? r)))
  | BLt => Some (b2z (l <? r))
  | BLte => Some (b2z (l <=? r))
  | BGt => Some (b2z (l >? r))
  | BGte => Some (b2z (l >=? r))
  end.
Fixpoint value (e : node) (n : Z) : option Z :=
  match e with
  | NVar => fits n
  | NNum v => fits v
  | NUn UNeg x => match value x n with Some v => fits (- v) | None => None end
  | NUn UNot x => match value x n with Some v => Some (b2z (v =? 0)) | None => None end
  | NBin BAnd x y =>                       (* the right side only when needed *)
      match value x n with
      | None => None
      | Some l => if l =? 0 then Some 0 else match value y n with Some r => Some (b2z (negb (r =? 0))) | None => None end
      end
  | NBin BOr x y =>
      match value x n with
      | None => None
      | Some l => if negb (l =? 0) then Some 1 else match value y n with Some r => Some (b2z (negb (r =? 0))) | None => None end
      end
  | NBin op x y =>
      match value x n, value y n with Some l, Some r => bin_value op l r | _, _ => None end
  | NCond x y z =>
      match value x n with
      | None => None
      | Some c => if c =? 0 then value z n else value y n
      end
  end.

(** * The grammar of GNU gettext's plural.y (C precedences; no unary minus) *)
Inductive gterm := CExpr | COr | CAnd | CEq | CRel | CAdd | CMul | CUn.
Inductive gnu : gterm -> list tok -> node -> Prop :=
| g_cond a b c x y z : gnu COr a x -> gnu CExpr b y -> gnu CExpr c z ->
    gnu CExpr (a ++ TQuestion :: b ++ TColon :: c) (NCond x y z)
| g_expr a x : gnu COr a x -> gnu CExpr a x
| g_or_sym a b x y : gnu COr a x -> gnu CAnd b y -> gnu COr (a ++ TOrSym :: b) (NBin BOr x y)
| g_or a x : gnu CAnd a x -> gnu COr a x
| g_and_sym a b x y : gnu CAnd a x -> gnu CEq b y -> gnu CAnd (a ++ TAndSym :: b) (NBin BAnd x y)
| g_and a x : gnu CEq a x -> gnu CAnd a x
| g_eq a b x y : gnu CEq a x -> gnu CRel b y -> gnu CEq (a ++ TEq :: b) (NBin BEq x y)
| g_ne a b x y : gnu CEq a x -> gnu CRel b y -> gnu CEq (a ++ TNe :: b) (NBin BNe x y)
| g_eq0 a x : gnu CRel a x -> gnu CEq a x
| g_lt a b x y : gnu CRel a x -> gnu CAdd b y -> gnu CRel (a ++ TLt :: b) (NBin BLt x y)
| g_lte a b x y : gnu CRel a x -> gnu CAdd b y -> gnu CRel (a ++ TLte :: b) (NBin BLte x y)
| g_gt a b x y : gnu CRel a x -> gnu CAdd b y -> gnu CRel (a ++ TGt :: b) (NBin BGt x y)
| g_gte a b x y : gnu CRel a x -> gnu CAdd b y -> gnu CRel (a ++ TGte :: b) (NBin BGte x y)
| g_rel a x : gnu CAdd a x -> gnu CRel a x
| g_plus a b x y : gnu CAdd a x -> gnu CMul b y -> gnu CAdd (a ++ TPlus :: b) (NBin BAdd x y)
| g_minus a b x y : gnu CAdd a x -> gnu CMul b y -> gnu CAdd (a ++ TMinus :: b) (NBin BSub x y)
| g_add a x : gnu CMul a x -> gnu CAdd a x
| g_times a b x y : gnu CMul a x -> gnu CUn b y -> gnu CMul (a ++ TStar :: b) (NBin BMul x y)
| g_div a b x y : gnu CMul a x -> gnu CUn b y -> gnu CMul (a ++ TSlash :: b) (NBin BDiv x y)
| g_mod a b x y : gnu CMul a x -> gnu CUn b y -> gnu CMul (a ++ TPercent :: b) (NBin BMod x y)
| g_mul a x : gnu CUn a x -> gnu CMul a x
| g_not a x : gnu CUn a x -> gnu CUn (TNotSym :: a) (NUn UNot x)
| g_num ds : ds <> [] -> (forall c, In c ds -> (48 <= c <= 57)%N) -> digits_value ds <= max64 ->
    gnu CUn [TNum ds] (NNum (digits_value ds))
| g_var : gnu CUn [TVar] NVar
| g_paren a x : gnu CExpr a x -> gnu CUn (TLParen :: a ++ [TRParen]) x.

(** The part of the C syntax without its two delicate spots: ! only in front of a whole
    operand of a comparison or logical operator, and no < <= > >= to the right of an ==
    or != in the same chain of comparisons. *)
Inductive mterm := MExpr | MOr | MAnd | MEq | MRel | MNot | MAdd | MMul | MTerm.
Inductive common : mterm -> list tok -> node -> Prop :=
| m_cond a b c x y z : common MOr a x -> common MExpr b y -> common MExpr c z ->
    common MExpr (a ++ TQuestion :: b ++ TColon :: c) (NCond x y z)
| m_expr a x : common MOr a x -> common MExpr a x
| m_or_sym a b x y : common MOr a x -> common MAnd b y -> common MOr (a ++ TOrSym :: b) (NBin BOr x y)
| m_or a x : common MAnd a x -> common MOr a x
| m_and_sym a b x y : common MAnd a x -> common MEq b y -> common MAnd (a ++ TAndSym :: b) (NBin BAnd x y)
| m_and a x : common MEq a x -> common MAnd a x
| m_eq a b x y : common MEq a x -> common MNot b y -> common MEq (a ++ TEq :: b) (NBin BEq x y)
| m_ne a b x y : common MEq a x -> common MNot b y -> common MEq (a ++ TNe :: b) (NBin BNe x y)
| m_eq0 a x : common MRel a x -> common MEq a x
| m_lt a b x y : common MRel a x -> common MNot b y -> common MRel (a ++ TLt :: b) (NBin BLt x y)
| m_lte a b x y : common MRel a x -> common MNot b y -> common MRel (a ++ TLte :: b) (NBin BLte x y)
| m_gt a b x y : common MRel a x -> common MNot b y -> common MRel (a ++ TGt :: b) (NBin BGt x y)
| m_gte a b x y : common MRel a x -> common MNot b y -> common MRel (a ++ TGte :: b) (NBin BGte x y)
| m_rel a x : common MNot a x -> common MRel a x
| m_not_sym a x : common MTerm a x -> common MNot (TNotSym :: a) (NUn UNot x)
| m_not a x : common MAdd a x -> common MNot a x
| m_plus a b x y : common MAdd a x -> common MMul b y -> common MAdd (a ++ TPlus :: b) (NBin BAdd x y)
| m_minus a b x y : common MAdd a x -> common MMul b y -> common MAdd (a ++ TMinus :: b) (NBin BSub x y)
| m_add a x : common MMul a x -> common MAdd a x
| m_times a b x y : common MMul a x -> common MTerm b y -> common MMul (a ++ TStar :: b) (NBin BMul x y)
| m_div a b x y : common MMul a x -> common MTerm b y -> common MMul (a ++ TSlash :: b) (NBin BDiv x y)
| m_mod a b x y : common MMul a x -> common MTerm b y -> common MMul (a ++ TPercent :: b) (NBin BMod x y)
| m_mul a x : common MTerm a x -> common MMul a x
| m_num ds : ds <> [] -> (forall c, In c ds -> (48 <= c <= 57)%N) -> digits_value ds <= max64 ->
    common MTerm [TNum ds] (NNum (digits_value ds))
| m_var : common MTerm [TVar] NVar
| m_paren a x : common MExpr a x -> common MTerm (TLParen :: a ++ [TRParen]) x.

(** * Machine arithmetic, as a relation *)
Definition congruent (v z : Z) : Prop := in64 v /\ v mod 2 ^ 64 = z mod 2 ^ 64.
Definition machine_bin (op : binop) (l r v : Z) : Prop :=
  match op with
  | BAdd => congruent v (l + r)
  | BSub => congruent v (l - r)
  | BMul => congruent v (l * r)
  | BDiv => (r = 0 /\ l < 0 /\ v = min64) \/ (r = 0 /\ 0 <= l /\ v = max64)
            \/ (l = min64 /\ r = -1 /\ v = min64)
            \/ (r <> 0 /\ ~ (l = min64 /\ r = -1) /\ v = Z.quot l r)
  | BMod => (r = 0 /\ v = l) \/ (r <> 0 /\ v = Z.rem l r)
  | BAnd => (l <> 0 /\ r <> 0 /\ v = 1) \/ ((l = 0 \/ r = 0) /\ v = 0)
  | BOr => ((l <> 0 \/ r <> 0) /\ v = 1) \/ (l = 0 /\ r = 0 /\ v = 0)
  | BEq => (l = r /\ v = 1) \/ (l <> r /\ v = 0)
  | BNe => (l <> r /\ v = 1) \/ (l = r /\ v = 0)
  | BLt => (l < r /\ v = 1) \/ (l >= r /\ v = 0)
  | BLte => (l <= r /\ v = 1) \/ (l > r /\ v = 0)
  | BGt => (l > r /\ v = 1) \/ (l <= r /\ v = 0)
  | BGte => (l >= r /\ v = 1) \/ (l < r /\ v = 0)
  end.
Definition machine_un (op : unop) (r v : Z) : Prop :=
  match op with
  | UNeg => congruent v (- r)
  | UNot => (r = 0 /\ v = 1) \/ (r <> 0 /\ v = 0)
  end.
(** [runs n e v]: with count [n], [e] has the machine value [v]. *)
Inductive runs (n : Z) : node -> Z -> Prop :=
| r_var : runs n NVar n
| r_num v : runs n (NNum v) v
| r_un op x r v : runs n x r -> machine_un op r v -> runs n (NUn op x) v
| r_bin op x y l r v : runs n x l -> runs n y r -> machine_bin op l r v -> runs n (NBin op x y) v
| r_then x y z c v : runs n x c -> c <> 0 -> runs n y v -> runs n (NCond x y z) v
| r_else x y z v : runs n x 0 -> runs n z v -> runs n (NCond x y z) v.

(** No unary minus. *)
Fixpoint no_neg (e : node) : Prop :=
  match e with
  | NVar | NNum _ => True
  | NUn UNeg _ => False
  | NUn UNot x => no_neg x
  | NBin _ x y => no_neg x /\ no_neg y
  | NCond x y z => no_neg x /\ no_neg y /\ no_neg z
  end.

(** Evaluation comes to negate the least integer (the parts of && || ?: that are not
    evaluated do not matter). *)
Definition reached (op : binop) (l : Z) : Prop := match op with BAnd => l <> 0 | BOr => l = 0 | _ => True end.
Inductive negates_min (n : Z) : node -> Prop :=
| nm_here x : runs n x min64 -> negates_min n (NUn UNeg x)
| nm_un op x : negates_min n x -> negates_min n (NUn op x)
| nm_left op x y : negates_min n x -> negates_min n (NBin op x y)
| nm_right op x y l : runs n x l -> reached op l -> negates_min n y -> negates_min n (NBin op x y)
| nm_test x y z : negates_min n x -> negates_min n (NCond x y z)
| nm_then x y z c : runs n x c -> c <> 0 -> negates_min n y -> negates_min n (NCond x y z)
| nm_else x y z : runs n x 0 -> negates_min n z -> negates_min n (NCond x y z).
