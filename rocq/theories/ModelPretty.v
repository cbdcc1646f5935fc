(** The derived [Debug] of the data types, as printed with [{:#?}] (also by the macro [dbg]).
    std (library/core/src/fmt/builders.rs): [DebugStruct], [DebugTuple], [DebugInner] and [PadAdapter], which puts four
    spaces in front of each line that is written through it.  Strings, characters, numbers and constructors without
    arguments are shown as with [{:?}] (ModelDebug.v). *)
From Coq Require Import String NArith ZArith Bool List.
From Verif Require Import ModelBase ModelLine ModelFormula ModelData ModelDebug.
Import ListNotations.
Local Open Scope N_scope.

(** [PadAdapter::write_str]; [fresh]: nothing is written yet on this line ([on_newline]). *)
Fixpoint pad (fresh : bool) (s : str) : str :=
  match s with
  | [] => []
  | c :: r => (if fresh then lit "    " else []) ++ c :: pad (c =? 10) r
  end.
Definition comma_lf : str := lit "," ++ [10].
(** [DebugStruct::field] for each field, and [finish] *)
Definition pretty_struct (name : str) (fields : list (str * str)) : str :=
  name ++ match fields with
          | [] => []
          | _ => lit " {" ++ [10] ++ flat_map (fun f => pad true (fst f ++ lit ": " ++ snd f ++ comma_lf)) fields ++ lit "}"
          end.
(** [DebugTuple::field] for each argument, and [finish] *)
Definition pretty_tuple (name : str) (args : list str) : str :=
  name ++ match args with
          | [] => []
          | _ => lit "(" ++ [10] ++ flat_map (fun v => pad true (v ++ comma_lf)) args ++ lit ")"
          end.
(** [DebugInner::entry] for each item of a list or a set, and [finish] *)
Definition pretty_items (open close : str) (items : list str) : str :=
  open ++ match items with [] => [] | _ => [10] ++ flat_map (fun v => pad true (v ++ comma_lf)) items end ++ close.
Definition pretty_option {A} (f : A -> str) (o : option A) : str :=
  match o with None => lit "None" | Some x => pretty_tuple (lit "Some") [f x] end.
Definition pretty_list {A} (f : A -> str) (l : list A) : str := pretty_items (lit "[") (lit "]") (map f l).
Definition pretty_set {A} (f : A -> str) (l : list A) : str := pretty_items (lit "{") (lit "}") (map f l).

(** src/plural/formula/node.rs:42-60 *)
Fixpoint pretty_node (e : node) : str :=
  match e with
  | NVar => lit "Var"
  | NNum v => pretty_tuple (lit "Num") [debug_int v]
  | NUn op rhs => pretty_struct (lit "UnOp") [(lit "op", debug_unop op); (lit "rhs", pretty_node rhs)]
  | NBin op lhs rhs => pretty_struct (lit "BinOp") [(lit "op", debug_binop op); (lit "lhs", pretty_node lhs); (lit "rhs", pretty_node rhs)]
  | NCond test if_true if_false =>
      pretty_struct (lit "Cond") [(lit "test", pretty_node test); (lit "if_true", pretty_node if_true); (lit "if_false", pretty_node if_false)]
  end.

Section Pretty.
Variable shown : char -> bool.
(** src/plural/formula/mod.rs:8-11, src/plural/forms.rs:5-11 *)
Definition pretty_forms (p : plural_forms) : str :=
  pretty_struct (lit "PluralForms")
    [(lit "formula", pretty_struct (lit "Formula") [(lit "expr", pretty_node (pf_formula p))]); (lit "count", dec_str (pf_count p));
     (lit "definition", debug_str shown (pf_definition p)); (lit "formula_source", debug_str shown (pf_source p))].
(** src/plural/plural.rs:5-11 *)
Definition pretty_plural (p : plural) : str :=
  pretty_struct (lit "Plural")
    [(lit "forms", pretty_option pretty_forms (pl_forms p)); (lit "singular", debug_str shown (pl_singular p));
     (lit "plural", debug_str shown (pl_plural p)); (lit "values", pretty_list (debug_str shown) (pl_values p))].
(** src/enums/message.rs:6-13 *)
Definition pretty_message (m : message) : str :=
  match m with
  | MSimple id text => pretty_struct (lit "Simple") [(lit "id", debug_str shown id); (lit "text", pretty_option (debug_str shown) text)]
  | MPlural p => pretty_tuple (lit "Plural") [pretty_plural p]
  end.
(** src/note.rs:6-10, src/comment.rs:1-5 *)
Definition pretty_note (n : note) : str :=
  pretty_struct (lit "Note") [(lit "origin", debug_origin (note_origin n)); (lit "value", debug_str shown (note_value n))].
Definition pretty_comment (c : comment) : str :=
  pretty_struct (lit "Comment") [(lit "kind", debug_char shown (com_kind c)); (lit "content", debug_str shown (com_content c))].
(** src/unit.rs:19-31; [flags]: the flags in the order in which they come *)
Definition pretty_unit (flags : list str) (u : unit_) : str :=
  pretty_struct (lit "Unit")
    [(lit "context", pretty_option (debug_str shown) (u_context u)); (lit "message", pretty_message (u_message u));
     (lit "prev_context", pretty_option (debug_str shown) (u_prev_context u)); (lit "prev_message", pretty_message (u_prev_message u));
     (lit "flags", pretty_set (debug_str shown) flags); (lit "notes", pretty_list pretty_note (u_notes u));
     (lit "locations", pretty_list (debug_str shown) (u_locations u)); (lit "comments", pretty_list pretty_comment (u_comments u));
     (lit "state", debug_state (u_state u)); (lit "obsolete", debug_bool (u_obsolete u))].
(** src/po/line.rs:1-13 *)
Definition pretty_line (l : po_line) : str :=
  match l with
  | PBlank => lit "Blank"
  | PComment n k s => pretty_tuple (lit "Comment") [dec_str n; debug_char shown k; debug_str shown s]
  | PMessage n p t s => pretty_tuple (lit "Message") [dec_str n; debug_str shown p; debug_str shown t; debug_str shown s]
  | PCont n p s => pretty_tuple (lit "Continuation") [dec_str n; debug_str shown p; debug_str shown s]
  end.
End Pretty.
