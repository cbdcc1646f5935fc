(** What the debug texts show (C106, C109): the fields of the types under their names, for any way to
    write strings, characters and numbers. *)
From Coq Require Import String NArith ZArith Bool List.
From Verif Require Import ModelBase ModelLine ModelFormula ModelData SpecBlock SpecPretty SpecEscape.
Import ListNotations.
Local Open Scope N_scope.

Section Data.
Variable text : str -> str.
Variable letter : char -> str.
Variable number : N -> str.
Definition text_data (s : str) : data := DAtom (text s).
Definition int_data (z : Z) : data := DAtom (match z with Zneg p => 45 :: number (Npos p) | Z0 => number 0 | Zpos p => number (Npos p) end).
Definition option_data {A} (f : A -> data) (o : option A) : data := match o with None => DAtom (lit "None") | Some x => DArgs (lit "Some") [f x] end.
Definition unop_data (op : unop) : data := DAtom (match op with UNeg => lit "Neg" | UNot => lit "Not" end).
Definition binop_data (op : binop) : data :=
  DAtom match op with
        | BAdd => lit "Add" | BSub => lit "Sub" | BMul => lit "Mul" | BDiv => lit "Div" | BMod => lit "Mod" | BAnd => lit "And" | BOr => lit "Or"
        | BEq => lit "Eq" | BNe => lit "Ne" | BLt => lit "Lt" | BLte => lit "Lte" | BGt => lit "Gt" | BGte => lit "Gte"
        end.
Fixpoint node_data (e : node) : data :=
  match e with
  | NVar => DAtom (lit "Var")
  | NNum v => DArgs (lit "Num") [int_data v]
  | NUn op x => DFields (lit "UnOp") [(lit "op", unop_data op); (lit "rhs", node_data x)]
  | NBin op x y => DFields (lit "BinOp") [(lit "op", binop_data op); (lit "lhs", node_data x); (lit "rhs", node_data y)]
  | NCond x y z => DFields (lit "Cond") [(lit "test", node_data x); (lit "if_true", node_data y); (lit "if_false", node_data z)]
  end.
Definition forms_data (p : plural_forms) : data :=
  DFields (lit "PluralForms") [(lit "formula", DFields (lit "Formula") [(lit "expr", node_data (pf_formula p))]); (lit "count", DAtom (number (pf_count p)));
    (lit "definition", text_data (pf_definition p)); (lit "formula_source", text_data (pf_source p))].
Definition plural_data (p : plural) : data :=
  DFields (lit "Plural") [(lit "forms", option_data forms_data (pl_forms p)); (lit "singular", text_data (pl_singular p)); (lit "plural", text_data (pl_plural p));
    (lit "values", DList (map text_data (pl_values p)))].
Definition message_data (m : message) : data :=
  match m with
  | MSimple id t => DFields (lit "Simple") [(lit "id", text_data id); (lit "text", option_data text_data t)]
  | MPlural p => DArgs (lit "Plural") [plural_data p]
  end.
Definition note_data (n : note) : data :=
  DFields (lit "Note") [(lit "origin", DAtom (match note_origin n with Developer => lit "Developer" | Translator => lit "Translator" end)); (lit "value", text_data (note_value n))].
Definition comment_data (c : comment) : data := DFields (lit "Comment") [(lit "kind", DAtom (letter (com_kind c))); (lit "content", text_data (com_content c))].
Definition state_data (s : state) : data := DAtom (match s with StEmpty => lit "Empty" | StNeedsWork => lit "NeedsWork" | StFinal => lit "Final" end).
Definition unit_data (flags : list str) (u : unit_) : data :=
  DFields (lit "Unit") [(lit "context", option_data text_data (u_context u)); (lit "message", message_data (u_message u));
    (lit "prev_context", option_data text_data (u_prev_context u)); (lit "prev_message", message_data (u_prev_message u));
    (lit "flags", DSet (map text_data flags)); (lit "notes", DList (map note_data (u_notes u))); (lit "locations", DList (map text_data (u_locations u)));
    (lit "comments", DList (map comment_data (u_comments u))); (lit "state", state_data (u_state u));
    (lit "obsolete", DAtom (if u_obsolete u then lit "true" else lit "false"))].
Definition line_data (l : po_line) : data :=
  match l with
  | PBlank => DAtom (lit "Blank")
  | PComment n k s => DArgs (lit "Comment") [DAtom (number n); DAtom (letter k); text_data s]
  | PMessage n p t s => DArgs (lit "Message") [DAtom (number n); text_data p; text_data t; text_data s]
  | PCont n p s => DArgs (lit "Continuation") [DAtom (number n); text_data p; text_data s]
  end.
End Data.

(** The way of the standard library: strings and characters in quotes with escapes, numbers in decimal digits. *)
Definition notation_ok (shown : char -> bool) (text : str -> str) (letter : char -> str) (number : N -> str) : Prop :=
  (forall s, quoted_text shown s (text s)) /\ (forall c, exists x, escape_text shown 39 c x /\ letter c = [39] ++ x ++ [39]) /\ (forall n, decimal n (number n)).
