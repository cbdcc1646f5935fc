(** The parser that LALRPOP generates from src/plural/formula/formula.lalrpop, as a machine that
    shifts and reduces, with the errors it reports (lalrpop-util: state_machine.rs, lib.rs, lexer.rs).

    The states of the generated tables are left out: what they tell about the stack is read off the
    stack itself.  The tables may differ from this machine in one way: where the next token cannot
    be accepted any more, some of the reductions may be left out and the error reported at once.
    This is the parameter [early]. *)
From Coq Require Import String Arith NArith ZArith Bool List.
From Verif Require Import ModelBase ModelLine ModelUtf8 ModelFormula ModelData.
Import ListNotations.

(** * Tokens with their places (lexer.rs, [Matcher::next]) *)
(** Places are byte offsets. *)
Definition char_bytes (c : char) : N := if N.ltb c 128 then 1 else if N.ltb c 2048 then 2 else if N.ltb c 65536 then 3 else 4.
Definition bytes (s : str) : N := fold_right (fun c n => char_bytes c + n)%N 0%N s.
Record place := Place { p_start : N; p_tok : tok; p_text : str; p_end : N }.
(** All tokens, and where no token begins, if there is such a place. *)
Fixpoint scan (fuel : nat) (at_ : N) (s : str) : list place * option N :=
  match fuel with
  | O => ([], Some at_)
  | S fuel' =>
      match s with
      | [] => ([], None)
      | c :: _ =>
          if is_ws c then let (w, rest) := span is_ws s in scan fuel' (at_ + bytes w) rest
          else if is_digit c then
            let (d, rest) := span is_digit s in
            let (l, e) := scan fuel' (at_ + bytes d) rest in (Place at_ (TNum d) d (at_ + bytes d) :: l, e)
          else
            match lex_literal s with
            | Some (t, rest) =>
                let w := firstn (length s - length rest) s in
                let (l, e) := scan fuel' (at_ + bytes w) rest in (Place at_ t w (at_ + bytes w) :: l, e)
            | None => ([], Some at_)
            end
      end
  end.

(** * The grammar as levels *)
Inductive cat := KExpr | KOr | KAnd | KLogical | KNot | KAdd | KMul | KFactor | KTerm.
Inductive symbol := Y (t : tok) | X (k : cat) (e : node).

(** What is done with the symbols on the stack (the last one first) and the next token. *)
Inductive action := Shift | Reduce (stack : list symbol) | TooLarge | Stuck.

(** Can a token follow: first the beginnings of operands. *)
Definition opens (stack : list symbol) (t : tok) : bool :=
  match t with
  | TVar | TNum _ | TLParen => true
  | TMinus => match stack with Y TMinus :: X KAdd _ :: _ => true | Y TMinus :: _ => false | _ => true end
  | TNotSym | TNotWord =>
      match stack with
      | [] => true
      | Y u :: _ =>
          match u with
          | TLParen | TQuestion | TColon | TOrSym | TOrWord | TAndSym | TAndWord | TEq | TNe | TLt | TLte | TGt | TGte => true
          | _ => false
          end
      | _ => false
      end
  | _ => false
  end.
(** Then what follows an operand of this category. *)
Definition continues (k : cat) (below : list symbol) (t : tok) : bool :=
  let is_some {A} (o : option A) := match o with Some _ => true | None => false end in
  match k with
  | KMul => is_some (ops_mul t)
  | KAdd => is_some (ops_add t)
  | KLogical => is_some (ops_logical t)
  | KAnd => is_some (ops_and t)
  | KOr => is_some (ops_or t) || match t with TQuestion => true | _ => false end
  | KExpr =>
      match t, below with
      | TRParen, Y TLParen :: _ => true
      | TColon, Y TQuestion :: _ => true
      | _, _ => false
      end
  | _ => false
  end.
Definition shifts (stack : list symbol) (t : tok) : bool :=
  match stack with
  | X k _ :: below => continues k below t
  | Y TVar :: _ | Y (TNum _) :: _ | Y TRParen :: _ => false
  | _ => opens stack t
  end.

(** The productions, formula.lalrpop:9-71.  A category that is complete is made part of the
    larger one if it stands at its end, and taken for the next category otherwise. *)
Definition same (j k : cat) : bool :=
  match j, k with
  | KExpr, KExpr | KOr, KOr | KAnd, KAnd | KLogical, KLogical | KNot, KNot | KAdd, KAdd | KMul, KMul | KFactor, KFactor | KTerm, KTerm => true
  | _, _ => false
  end.
Definition joined (ops : tok -> option binop) (k : cat) (e : node) (below : list symbol) : list symbol :=
  match below with
  | Y t :: X j l :: below' =>
      match ops t with
      | Some op => if same j k then X k (NBin op l e) :: below' else X k e :: below
      | None => X k e :: below
      end
  | _ => X k e :: below
  end.
Definition reduction (stack : list symbol) : action :=
  match stack with
  | Y TVar :: below => Reduce (X KTerm NVar :: below)
  | Y (TNum d) :: below => match num_value d with Some v => Reduce (X KTerm (NNum v) :: below) | None => TooLarge end
  | Y TRParen :: X KExpr e :: Y TLParen :: below => Reduce (X KTerm e :: below)
  | X KTerm e :: below =>
      Reduce (match below with
              | Y TMinus :: X KAdd _ :: _ => X KFactor e :: below
              | Y TMinus :: below' => X KFactor (NUn UNeg e) :: below'
              | _ => X KFactor e :: below
              end)
  | X KFactor e :: below => Reduce (joined ops_mul KMul e below)
  | X KMul e :: below => Reduce (joined ops_add KAdd e below)
  | X KAdd e :: below =>
      Reduce (match below with
              | Y TNotSym :: below' | Y TNotWord :: below' => X KNot (NUn UNot e) :: below'
              | _ => X KNot e :: below
              end)
  | X KNot e :: below => Reduce (joined ops_logical KLogical e below)
  | X KLogical e :: below => Reduce (joined ops_and KAnd e below)
  | X KAnd e :: below => Reduce (joined ops_or KOr e below)
  | X KOr e :: below => Reduce (X KExpr e :: below)
  | X KExpr e :: Y TColon :: X KExpr y :: Y TQuestion :: X KOr x :: below => Reduce (X KExpr (NCond x y e) :: below)
  | _ => Stuck
  end.
Definition act (stack : list symbol) (t : option tok) : action :=
  match t with
  | Some t => if shifts stack t then Shift else reduction stack
  | None => reduction stack
  end.

(** * The machine (state_machine.rs, [parse]) *)
Inductive verdict := Accepted (e : node) | Refused (rest : list tok) | Large | Unread | Out.
(** [unread]: after the tokens something follows that is no token. *)
Fixpoint run (early : list symbol -> option tok -> bool) (unread : bool) (fuel : nat) (stack : list symbol) (ts : list tok) : verdict :=
  match fuel with
  | O => Out
  | S fuel' =>
      match ts, unread with
      | [], true => Unread
      | _, _ =>
          if early stack (hd_error ts) then Refused ts
          else
            match act stack (hd_error ts), ts with
            | Shift, t :: ts' => run early unread fuel' (Y t :: stack) ts'
            | Shift, [] => Out
            | Reduce stack', _ => run early unread fuel' stack' ts
            | TooLarge, _ => Large
            | Stuck, _ =>
                match ts, stack with
                | [], [X KExpr e] => Accepted e
                | _, _ => Refused ts
                end
            end
      end
  end.

(** * Errors: lalrpop_util::ParseError *)
Inductive fault :=
| FInvalid (at_ : N)                              (* InvalidToken *)
| FEof (at_ : N)                                  (* UnrecognizedEof *)
| FToken (start : N) (text : str) (end_ : N)      (* UnrecognizedToken *)
| FLarge.                                         (* User: the error of i64::from_str *)

(** formula/mod.rs:14-28 [Formula::parse] with the error.  [Out] does not happen. *)
Definition formula_result (early : list symbol -> option tok -> bool) (input : str) : option (node + fault) :=
  let input := trim input in
  if is_empty input then Some (inl NVar)
  else
    let (l, bad) := scan (S (length input)) 0 input in
    match run early (match bad with Some _ => true | None => false end) (S (11 * length l)) [] (map p_tok l) with
    | Accepted e => Some (inl e)
    | Large => Some (inr FLarge)
    | Unread => Some (inr (FInvalid (match bad with Some n => n | None => 0%N end)))
    | Refused ts =>
        (* the last token read, or the end of the last one *)
        match nth_error l (length l - length ts) with
        | Some p => Some (inr (FToken (p_start p) (p_text p) (p_end p)))
        | None => Some (inr (FEof (last (map p_end l) 0%N)))
        end
    | Out => None
    end.

(** lib.rs [Display for ParseError], [fmt_expected]; the list of expected tokens is a parameter *)
Fixpoint expected_rest (l : list str) : str :=
  match l with
  | [] => []
  | [x] => lit " or " ++ x
  | x :: l' => lit ", " ++ x ++ expected_rest l'
  end.
Definition expected_text (l : list str) : str :=
  match l with [] => [] | x :: l' => [10%N] ++ lit "Expected one of " ++ x ++ expected_rest l' end.
Definition fault_text (expected : list str) (f : fault) : str :=
  match f with
  | FInvalid n => lit "Invalid token at " ++ dec_str n
  | FEof n => lit "Unrecognized EOF found at " ++ dec_str n ++ expected_text expected
  | FToken a w b => lit "Unrecognized token `" ++ w ++ lit "` found at " ++ dec_str a ++ lit ":" ++ dec_str b ++ expected_text expected
  | FLarge => lit "number too large to fit in target type"
  end.

(** src/plural/forms.rs:14-36 [PluralForms::parse] with the text of the error; [expected] is the list
    of tokens that stands in it.  [None] does not happen. *)
Definition forms_result (early : list symbol -> option tok -> bool) (expected : str -> fault -> list str) (pf : platform) (input : str) : option (outcome plural_forms) :=
  match parse_map input with
  | None => Some (Err (EUnexpected 0 (bad_list_msg input)))
  | Some values =>
      let source := unwrap_or_default (sm_get (lit "plural") values) in
      match formula_result early source with
      | None => None
      | Some (inr f) => Some (Err (EPluralForms (fault_text (expected source f) f)))
      | Some (inl formula) =>
          match sm_get (lit "nplurals") values with
          | None => Some (Ok (PluralForms formula 2 input source))
          | Some s =>
              match parse_unsigned (usize_max pf) s with
              | inl v => Some (Ok (PluralForms formula v input source))
              | inr e => Some (Err (EPluralForms (int_err_msg e)))
              end
          end
      end
  end.
