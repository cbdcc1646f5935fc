(** The grammar file src/plural/formula/formula.lalrpop as a text, and what it means (LALRPOP book):
    rules with alternatives, symbols selected by angle brackets, actions. *)
From Coq Require Import String Arith NArith ZArith Bool List.
From Verif Require Import ModelBase ModelRegex ModelFormula SpecLine SpecFormula SpecPattern.
Import ListNotations.
Local Open Scope N_scope.

(** formula.lalrpop:9-71 *)
Definition grammar_file : str := lit
"pub(in crate::plural::formula) Formula = Expr;

Expr: Node = {
    <test:Or> ""?"" <if_true:Expr> "":"" <if_false:Expr> => Node::new_cond(test, if_true, if_false),
    Or,
};

Or: Node = {
    <l:Or> ""||"" <r:And> => Node::new_binop(BinOp::Or, l, r),
    <l:Or> ""or"" <r:And> => Node::new_binop(BinOp::Or, l, r),
    And,
};

And: Node = {
    <l:And> ""&&"" <r:Logical> => Node::new_binop(BinOp::And, l, r),
    <l:And> ""and"" <r:Logical> => Node::new_binop(BinOp::And, l, r),
    Logical,
};

Logical: Node = {
    <l:Logical> ""=="" <r:Not> => Node::new_binop(BinOp::Eq, l, r),
    <l:Logical> ""!="" <r:Not> => Node::new_binop(BinOp::Ne, l, r),
    <l:Logical> ""<"" <r:Not> => Node::new_binop(BinOp::Lt, l, r),
    <l:Logical> ""<="" <r:Not> => Node::new_binop(BinOp::Lte, l, r),
    <l:Logical> "">"" <r:Not> => Node::new_binop(BinOp::Gt, l, r),
    <l:Logical> "">="" <r:Not> => Node::new_binop(BinOp::Gte, l, r),
    Not,
};

Not: Node = {
    ""!"" <r:Add> => Node::new_unop(UnOp::Not, r),
    ""not"" <r:Add> => Node::new_unop(UnOp::Not, r),
    Add,
};

Add: Node = {
    <l:Add> ""+"" <r:Mul> => Node::new_binop(BinOp::Add, l, r),
    <l:Add> ""-"" <r:Mul> => Node::new_binop(BinOp::Sub, l, r),
    Mul,
};

Mul: Node = {
    <l:Mul> ""*"" <r:Factor> => Node::new_binop(BinOp::Mul, l, r),
    <l:Mul> ""/"" <r:Factor> => Node::new_binop(BinOp::Div, l, r),
    <l:Mul> ""%"" <r:Factor> => Node::new_binop(BinOp::Mod, l, r),
    Factor,
}

Factor: Node = {
    ""-"" <r:Term> => Node::new_unop(UnOp::Neg, r),
    Term,
};

Term: Node = {
    <n:Num> => Node::new_num(n),
    ""n"" => Node::Var,
    ""("" <Expr> "")"",
};

Num: i64 = r""[0-9]+"" =>? match (<>).parse() {
    Ok(v) => Ok(v),
    Err(err) => Err(err.to_string().into()),
};
".

(** ** Tokens of the file *)
Inductive gtoken := GName (s : str) | GText (s : str) | GRegex (s : str) | GSign (s : str).
Definition name_char (c : char) : bool := ((97 <=? c) && (c <=? 122)) || ((65 <=? c) && (c <=? 90)) || ((48 <=? c) && (c <=? 57)) || (c =? 95).
(** The longest sign first. *)
Definition gsigns : list str := [lit "=>?"; lit "=>"; lit "::"; lit "="; lit ":"; lit "{"; lit "}"; lit "("; lit ")"; lit "<"; lit ">"; lit ","; lit ";"; lit "."].
Fixpoint first_sign (l : list str) (s : str) : option (str * str) :=
  match l with
  | [] => None
  | x :: l => match strip_prefix x s with Some r => Some (x, r) | None => first_sign l s end
  end.
Fixpoint gtokens (fuel : nat) (s : str) : option (list gtoken) :=
  match fuel with
  | O => None
  | S fuel =>
      match s with
      | [] => Some []
      | 34 :: s => let (a, b) := span (fun c => negb (c =? 34)) s in option_map (cons (GText a)) (gtokens fuel (tl b))
      | 114 :: 34 :: s => let (a, b) := span (fun c => negb (c =? 34)) s in option_map (cons (GRegex a)) (gtokens fuel (tl b))
      | c :: s' =>
          if is_ws c then gtokens fuel s'
          else if name_char c then let (a, b) := span name_char s in option_map (cons (GName a)) (gtokens fuel b)
          else match first_sign gsigns s with Some (x, r) => option_map (cons (GSign x)) (gtokens fuel r) | None => None end
      end
  end.

(** ** Rules *)
Inductive gsym := SText (s : str) | SRegex (s : str) | SRule (s : str).
(** How a symbol is selected: not, without name, with a name. *)
Inductive gsel := NotSelected | Selected | Named (s : str).
Record galt := GAlt { ga_symbols : list (gsel * gsym); ga_action : option (list gtoken) }.
Record grule := GRule { gr_name : str; gr_alts : list galt }.
Definition is_sign (s : str) (t : gtoken) : bool := match t with GSign x => str_eqb x s | _ => false end.
Definition gsymbol (t : gtoken) : option gsym :=
  match t with GName s => Some (SRule s) | GText s => Some (SText s) | GRegex s => Some (SRegex s) | GSign _ => None end.
(** An action ends at a comma, semicolon or closing bracket outside of its own brackets. *)
Fixpoint gaction (depth : nat) (ts : list gtoken) : list gtoken * list gtoken :=
  match ts with
  | [] => ([], [])
  | t :: ts' =>
      let opens := is_sign (lit "(") t || is_sign (lit "{") t in
      let closes := is_sign (lit ")") t || is_sign (lit "}") t in
      let ends := is_sign (lit ",") t || is_sign (lit ";") t || closes in
      match depth with
      | O => if ends then ([], ts) else let (a, b) := gaction (if opens then 1 else 0) ts' in (t :: a, b)
      | S d => let (a, b) := gaction (if opens then S depth else if closes then d else depth) ts' in (t :: a, b)
      end
  end.
Fixpoint gsymbols (fuel : nat) (ts : list gtoken) : option (list (gsel * gsym) * list gtoken) :=
  match fuel with
  | O => None
  | S fuel =>
      match ts with
      | GSign x :: GName n :: GSign y :: t :: GSign z :: ts' =>
          if str_eqb x (lit "<") then
            if str_eqb y (lit ":") && str_eqb z (lit ">") then
              match gsymbol t with Some s => option_map (fun r => ((Named n, s) :: fst r, snd r)) (gsymbols fuel ts') | None => None end
            else if str_eqb y (lit ">") then option_map (fun r => ((Selected, SRule n) :: fst r, snd r)) (gsymbols fuel (t :: GSign z :: ts'))
            else None
          else Some ([], ts)
      | GSign x :: GName n :: GSign y :: ts' =>
          if str_eqb x (lit "<") && str_eqb y (lit ">") then option_map (fun r => ((Selected, SRule n) :: fst r, snd r)) (gsymbols fuel ts')
          else Some ([], ts)
      | GSign _ :: _ | [] => Some ([], ts)
      | t :: ts' => match gsymbol t with Some s => option_map (fun r => ((NotSelected, s) :: fst r, snd r)) (gsymbols fuel ts') | None => None end
      end
  end.
Definition galternative (ts : list gtoken) : option (galt * list gtoken) :=
  match gsymbols (S (length ts)) ts with
  | Some (l, t :: ts) => if is_sign (lit "=>") t || is_sign (lit "=>?") t then let (a, b) := gaction 0 ts in Some (GAlt l (Some a), b) else Some (GAlt l None, t :: ts)
  | Some (l, []) => Some (GAlt l None, [])
  | None => None
  end.
(** Alternatives with commas, up to the closing bracket. *)
Fixpoint galternatives (fuel : nat) (ts : list gtoken) : option (list galt * list gtoken) :=
  match fuel with
  | O => None
  | S fuel =>
      match ts with
      | t :: ts' =>
          if is_sign (lit "}") t then Some ([], ts')
          else match galternative ts with
               | Some (a, c :: r) =>
                   if is_sign (lit ",") c then option_map (fun q => (a :: fst q, snd q)) (galternatives fuel r)
                   else if is_sign (lit "}") c then Some ([a], r) else None
               | _ => None
               end
      | [] => None
      end
  end.
(** A rule may have a visibility in front; its type is of no interest here. *)
Definition grule_name (ts : list gtoken) : option (str * list gtoken) :=
  let ts := match ts with
            | GName p :: GSign x :: ts' => if str_eqb p (lit "pub") && str_eqb x (lit "(") then tl (snd (gaction 0 ts')) else ts
            | _ => ts
            end in
  match ts with
  | GName n :: GSign x :: ts' =>
      if str_eqb x (lit "=") then Some (n, ts')
      else if str_eqb x (lit ":") then match ts' with GName _ :: GSign y :: ts' => if str_eqb y (lit "=") then Some (n, ts') else None | _ => None end
      else None
  | _ => None
  end.
Definition skip_end (ts : list gtoken) : list gtoken := match ts with t :: ts' => if is_sign (lit ";") t then ts' else ts | [] => [] end.
Fixpoint grules (fuel : nat) (ts : list gtoken) : option (list grule) :=
  match fuel with
  | O => None
  | S fuel =>
      match ts with
      | [] => Some []
      | _ =>
          match grule_name ts with
          | Some (n, t :: ts) =>
              match (if is_sign (lit "{") t then galternatives (S (length ts)) ts else option_map (fun r => ([fst r], snd r)) (galternative (t :: ts))) with
              | Some (alts, ts) => option_map (cons (GRule n alts)) (grules fuel (skip_end ts))
              | None => None
              end
          | _ => None
          end
      end
  end.
Definition grammar_of (s : str) : option (list grule) :=
  match gtokens (S (length s)) s with Some ts => grules (S (length ts)) ts | None => None end.

(** ** Meaning: the pieces of a text and their trees *)
Definition symbols_of (g : list grule) : list gsym := flat_map (fun r => flat_map (fun a => map snd (ga_symbols a)) (gr_alts r)) g.
(** Quoted terminals stand for themselves and win over expressions, which match whole pieces. *)
Definition quoted_terminal (g : list grule) (w : str) : Prop := In (SText w) (symbols_of g).
Definition whole_match (x w : str) : Prop := exists p, pattern (lit "^(?:" ++ x ++ lit ")$") = Some p /\ re_is_match p w = true.
Inductive terminal (g : list grule) : gsym -> str -> Prop :=
| tm_text w : quoted_terminal g w -> terminal g (SText w) w
| tm_regex x w : In (SRegex x) (symbols_of g) -> whole_match x w -> ~ quoted_terminal g w -> terminal g (SRegex x) w.
(** The lexer takes the longest terminal and skips white space. *)
Inductive cut_into (g : list grule) : str -> list str -> Prop :=
| cut_nil : cut_into g [] []
| cut_white c s ws : white c -> cut_into g s ws -> cut_into g (c :: s) ws
| cut_piece x w s ws : terminal g x w -> (forall y w' s', terminal g y w' -> w ++ s = w' ++ s' -> (length w' <= length w)%nat) ->
    cut_into g s ws -> cut_into g (w ++ s) (w :: ws).

Inductive gvalue := VPiece (s : str) | VInt (z : Z) | VTree (e : node).
(** What an action sees: the selected symbols, or all if none is selected. *)
Definition action_sees (l : list (gsel * gvalue)) : list (option str * gvalue) :=
  let all := map (fun x => (match fst x with Named n => Some n | _ => None end, snd x)) l in
  match flat_map (fun x => match fst x with NotSelected => [] | Selected => [(None, snd x)] | Named n => [(Some n, snd x)] end) l with
  | [] => all
  | sel => sel
  end.
(** Actions: calls [a::b(c::d, e)], and the reading of a number. *)
Fixpoint gpath (ts : list gtoken) : list str * list gtoken :=
  match ts with
  | GName a :: GSign x :: ts' => if str_eqb x (lit "::") then let (p, r) := gpath ts' in (a :: p, r) else ([a], GSign x :: ts')
  | GName a :: ts' => ([a], ts')
  | _ => ([], ts)
  end.
Fixpoint gpaths (fuel : nat) (ts : list gtoken) : option (list (list str)) :=
  match fuel with
  | O => None
  | S fuel =>
      match gpath ts with
      | (p, []) => Some [p]
      | (p, t :: ts) => if is_sign (lit ",") t then option_map (cons p) (gpaths fuel ts) else if is_sign (lit ")") t then match ts with [] => Some [p] | _ => None end else None
      end
  end.
Definition gcall (ts : list gtoken) : option (list str * list (list str)) :=
  match gpath ts with
  | (p, []) => Some (p, [])
  | (p, t :: ts) => if is_sign (lit "(") t then option_map (fun l => (p, l)) (gpaths (S (length ts)) ts) else None
  end.
Fixpoint path_is (p : list str) (q : list string) : bool :=
  match p, q with [], [] => true | a :: p, b :: q => str_eqb a (lit b) && path_is p q | _, _ => false end.
(** node.rs:9-21, the names of the operators *)
Definition binop_names : list (string * binop) :=
  [("Add", BAdd); ("Sub", BSub); ("Mul", BMul); ("Div", BDiv); ("Mod", BMod); ("And", BAnd); ("Or", BOr);
   ("Eq", BEq); ("Ne", BNe); ("Lt", BLt); ("Lte", BLte); ("Gt", BGt); ("Gte", BGte)]%string.
Definition unop_names : list (string * unop) := [("Neg", UNeg); ("Not", UNot)]%string.
Definition operator {A} (names : list (string * A)) (of : string) (p : list str) : option A :=
  option_map snd (find (fun x => path_is p [of; fst x]) names).
Definition named_value (l : list (option str * gvalue)) (p : list str) : option gvalue :=
  match p with
  | [a] => option_map snd (find (fun x => match fst x with Some b => str_eqb a b | None => false end) l)
  | _ => None
  end.
Definition tree_of (l : list (option str * gvalue)) (p : list str) : option node :=
  match named_value l p with Some (VTree e) => Some e | _ => None end.
Definition node_call (c : list str * list (list str)) (l : list (option str * gvalue)) : option gvalue :=
  let (f, args) := c in
  if path_is f ["Node"; "Var"]%string then match args with [] => Some (VTree NVar) | _ => None end
  else if path_is f ["Node"; "new_num"]%string then
    match args with [a] => match named_value l a with Some (VInt z) => Some (VTree (NNum z)) | _ => None end | _ => None end
  else if path_is f ["Node"; "new_unop"]%string then
    match args with
    | [o; a] => match operator unop_names "UnOp" o, tree_of l a with Some o, Some a => Some (VTree (NUn o a)) | _, _ => None end
    | _ => None
    end
  else if path_is f ["Node"; "new_binop"]%string then
    match args with
    | [o; a; b] => match operator binop_names "BinOp" o, tree_of l a, tree_of l b with Some o, Some a, Some b => Some (VTree (NBin o a b)) | _, _, _ => None end
    | _ => None
    end
  else if path_is f ["Node"; "new_cond"]%string then
    match args with
    | [a; b; c] => match tree_of l a, tree_of l b, tree_of l c with Some a, Some b, Some c => Some (VTree (NCond a b c)) | _, _, _ => None end
    | _ => None
    end
  else None.
Definition gtoken_text (t : gtoken) : str := match t with GName s | GText s | GRegex s | GSign s => s end.
Definition number_action : str := lit "match(<>).parse(){Ok(v)=>Ok(v),Err(err)=>Err(err.to_string().into()),}".
(** Without action the value of the only symbol; the type of [parse] is [i64]. *)
Definition action_value (a : option (list gtoken)) (l : list (option str * gvalue)) : option gvalue :=
  match a with
  | None => match l with [(_, v)] => Some v | _ => None end
  | Some ts =>
      if str_eqb (concat (map gtoken_text ts)) number_action
      then match l with [(_, VPiece ds)] => if (digits_value ds <=? max64)%Z then Some (VInt (digits_value ds)) else None | _ => None end
      else match gcall ts with Some c => node_call c l | None => None end
  end.
(** What a symbol stands for, with its value. *)
Inductive makes (g : list grule) : gsym -> list str -> gvalue -> Prop :=
| mk_terminal x w : terminal g x w -> makes g x [w] (VPiece w)
| mk_rule r a ws vs v : In r g -> In a (gr_alts r) -> makes_all g (map snd (ga_symbols a)) ws vs ->
    action_value (ga_action a) (action_sees (combine (map fst (ga_symbols a)) vs)) = Some v -> makes g (SRule (gr_name r)) ws v
with makes_all (g : list grule) : list gsym -> list str -> list gvalue -> Prop :=
| mk_nil : makes_all g [] [] []
| mk_cons x xs w ws v vs : makes g x w v -> makes_all g xs ws vs -> makes_all g (x :: xs) (w ++ ws) (v :: vs).
(** The formulas of a grammar with the start symbol [Formula]. *)
Definition grammar_formula (g : list grule) (s : str) (e : node) : Prop := exists ws, cut_into g s ws /\ makes g (SRule (lit "Formula")) ws (VTree e).
