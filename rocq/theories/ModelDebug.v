(** The derived [Debug] of the data types, as printed with [{:?}].
    std (library/core/src/fmt/mod.rs, builders.rs, char/methods.rs): structures as [Name { field: value, ... }],
    tuples as [Name(value)], lists as [[value, ...]], sets as [{value, ...}]; strings and characters in quotes with escapes.
    Which characters are shown as they are depends on tables of Unicode (printable and not extending the
    one before): a parameter [shown].  A [HashSet] is shown in the order of its iteration: an argument. *)
From Coq Require Import String NArith ZArith Bool List.
From Verif Require Import ModelBase ModelLine ModelFormula ModelData.
Import ListNotations.
Local Open Scope N_scope.

(** [char::escape_unicode]: the digits are hexadecimal, in lower case, without leading zeros. *)
Fixpoint hex_chars (u : Hexadecimal.uint) : str :=
  match u with
  | Hexadecimal.Nil => []
  | Hexadecimal.D0 u => 48 :: hex_chars u | Hexadecimal.D1 u => 49 :: hex_chars u | Hexadecimal.D2 u => 50 :: hex_chars u | Hexadecimal.D3 u => 51 :: hex_chars u
  | Hexadecimal.D4 u => 52 :: hex_chars u | Hexadecimal.D5 u => 53 :: hex_chars u | Hexadecimal.D6 u => 54 :: hex_chars u | Hexadecimal.D7 u => 55 :: hex_chars u
  | Hexadecimal.D8 u => 56 :: hex_chars u | Hexadecimal.D9 u => 57 :: hex_chars u | Hexadecimal.Da u => 97 :: hex_chars u | Hexadecimal.Db u => 98 :: hex_chars u
  | Hexadecimal.Dc u => 99 :: hex_chars u | Hexadecimal.Dd u => 100 :: hex_chars u | Hexadecimal.De u => 101 :: hex_chars u | Hexadecimal.Df u => 102 :: hex_chars u
  end.
Definition hex_str (n : N) : str := hex_chars (N.to_hex_uint n).

Section Debug.
Variable shown : char -> bool.

(** [char::escape_debug_ext]; [quote] is the kind of quote that is escaped. *)
Definition debug_escape (quote c : char) : str :=
  if c =? 0 then lit "\0"
  else if c =? 9 then lit "\t"
  else if c =? 13 then lit "\r"
  else if c =? 10 then lit "\n"
  else if c =? 92 then lit "\\"
  else if c =? quote then [92; quote]
  else if shown c then [c]
  else lit "\u{" ++ hex_str c ++ lit "}".
Definition debug_str (s : str) : str := [34] ++ flat_map (debug_escape 34) s ++ [34].
Definition debug_char (c : char) : str := [39] ++ debug_escape 39 c ++ [39].
Definition debug_bool (b : bool) : str := if b then lit "true" else lit "false".
Definition debug_int (z : Z) : str := if (z <? 0)%Z then 45 :: dec_str (Z.to_N (- z)) else dec_str (Z.to_N z).
Definition debug_option {A} (f : A -> str) (o : option A) : str :=
  match o with None => lit "None" | Some x => lit "Some(" ++ f x ++ lit ")" end.
Fixpoint debug_items {A} (f : A -> str) (l : list A) : str :=
  match l with [] => [] | [x] => f x | x :: l' => f x ++ lit ", " ++ debug_items f l' end.
Definition debug_list {A} (f : A -> str) (l : list A) : str := lit "[" ++ debug_items f l ++ lit "]".
Definition debug_set {A} (f : A -> str) (l : list A) : str := lit "{" ++ debug_items f l ++ lit "}".

(** src/plural/formula/node.rs:1-22 *)
Definition debug_unop (op : unop) : str := match op with UNeg => lit "Neg" | UNot => lit "Not" end.
Definition debug_binop (op : binop) : str :=
  match op with
  | BAdd => lit "Add" | BSub => lit "Sub" | BMul => lit "Mul" | BDiv => lit "Div" | BMod => lit "Mod"
  | BAnd => lit "And" | BOr => lit "Or" | BEq => lit "Eq" | BNe => lit "Ne"
  | BLt => lit "Lt" | BLte => lit "Lte" | BGt => lit "Gt" | BGte => lit "Gte"
  end.
(** src/plural/formula/node.rs:42-60 *)
Fixpoint debug_node (e : node) : str :=
  match e with
  | NVar => lit "Var"
  | NNum v => lit "Num(" ++ debug_int v ++ lit ")"
  | NUn op rhs => lit "UnOp { op: " ++ debug_unop op ++ lit ", rhs: " ++ debug_node rhs ++ lit " }"
  | NBin op lhs rhs => lit "BinOp { op: " ++ debug_binop op ++ lit ", lhs: " ++ debug_node lhs ++ lit ", rhs: " ++ debug_node rhs ++ lit " }"
  | NCond test if_true if_false => lit "Cond { test: " ++ debug_node test ++ lit ", if_true: " ++ debug_node if_true ++ lit ", if_false: " ++ debug_node if_false ++ lit " }"
  end.
(** src/plural/formula/mod.rs:8-11, src/plural/forms.rs:5-11 *)
Definition debug_forms (p : plural_forms) : str :=
  lit "PluralForms { formula: Formula { expr: " ++ debug_node (pf_formula p) ++ lit " }, count: " ++ dec_str (pf_count p)
  ++ lit ", definition: " ++ debug_str (pf_definition p) ++ lit ", formula_source: " ++ debug_str (pf_source p) ++ lit " }".
(** src/plural/plural.rs:5-11; [Rc] shows its contents *)
Definition debug_plural (p : plural) : str :=
  lit "Plural { forms: " ++ debug_option debug_forms (pl_forms p) ++ lit ", singular: " ++ debug_str (pl_singular p)
  ++ lit ", plural: " ++ debug_str (pl_plural p) ++ lit ", values: " ++ debug_list debug_str (pl_values p) ++ lit " }".
(** src/enums/message.rs:6-13 *)
Definition debug_message (m : message) : str :=
  match m with
  | MSimple id text => lit "Simple { id: " ++ debug_str id ++ lit ", text: " ++ debug_option debug_str text ++ lit " }"
  | MPlural p => lit "Plural(" ++ debug_plural p ++ lit ")"
  end.
(** src/enums/origin.rs:2-9, src/note.rs:6-10, src/comment.rs:1-5, src/enums/state.rs:7-16 *)
Definition debug_origin (o : origin) : str := match o with Developer => lit "Developer" | Translator => lit "Translator" end.
Definition debug_note (n : note) : str := lit "Note { origin: " ++ debug_origin (note_origin n) ++ lit ", value: " ++ debug_str (note_value n) ++ lit " }".
Definition debug_comment (c : comment) : str := lit "Comment { kind: " ++ debug_char (com_kind c) ++ lit ", content: " ++ debug_str (com_content c) ++ lit " }".
Definition debug_state (s : state) : str := match s with StEmpty => lit "Empty" | StNeedsWork => lit "NeedsWork" | StFinal => lit "Final" end.
(** src/unit.rs:19-31; [flags]: the flags in the order in which they come *)
Definition debug_unit (flags : list str) (u : unit_) : str :=
  lit "Unit { context: " ++ debug_option debug_str (u_context u) ++ lit ", message: " ++ debug_message (u_message u)
  ++ lit ", prev_context: " ++ debug_option debug_str (u_prev_context u) ++ lit ", prev_message: " ++ debug_message (u_prev_message u)
  ++ lit ", flags: " ++ debug_set debug_str flags ++ lit ", notes: " ++ debug_list debug_note (u_notes u)
  ++ lit ", locations: " ++ debug_list debug_str (u_locations u) ++ lit ", comments: " ++ debug_list debug_comment (u_comments u)
  ++ lit ", state: " ++ debug_state (u_state u) ++ lit ", obsolete: " ++ debug_bool (u_obsolete u) ++ lit " }".
(** src/po/line.rs:1-13 *)
Definition debug_line (l : po_line) : str :=
  match l with
  | PBlank => lit "Blank"
  | PComment n k s => lit "Comment(" ++ dec_str n ++ lit ", " ++ debug_char k ++ lit ", " ++ debug_str s ++ lit ")"
  | PMessage n p t s => lit "Message(" ++ dec_str n ++ lit ", " ++ debug_str p ++ lit ", " ++ debug_str t ++ lit ", " ++ debug_str s ++ lit ")"
  | PCont n p s => lit "Continuation(" ++ dec_str n ++ lit ", " ++ debug_str p ++ lit ", " ++ debug_str s ++ lit ")"
  end.
End Debug.

(** [Debug] of a formula with room for [room] nested calls, as in [stack_clone] (ModelMachine.v); [None]: the stack overflows. *)
Fixpoint stack_debug (room : nat) (e : node) : option str :=
  match room with
  | O => None
  | S room' =>
      match e with
      | NVar => Some (lit "Var")
      | NNum v => Some (lit "Num(" ++ debug_int v ++ lit ")")
      | NUn op x => match stack_debug room' x with Some t => Some (lit "UnOp { op: " ++ debug_unop op ++ lit ", rhs: " ++ t ++ lit " }") | None => None end
      | NBin op x y =>
          match stack_debug room' x with
          | Some t => match stack_debug room' y with Some u => Some (lit "BinOp { op: " ++ debug_binop op ++ lit ", lhs: " ++ t ++ lit ", rhs: " ++ u ++ lit " }") | None => None end
          | None => None
          end
      | NCond x y z =>
          match stack_debug room' x with
          | Some t =>
              match stack_debug room' y with
              | Some u => match stack_debug room' z with Some v => Some (lit "Cond { test: " ++ t ++ lit ", if_true: " ++ u ++ lit ", if_false: " ++ v ++ lit " }") | None => None end
              | None => None
              end
          | None => None
          end
      end
  end.
