(** Flags and locations as GNU gettext reads them (po_parse_comment_special and
    po_parse_comment_filepos in gettext-tools/src/read-catalog-abstract.c). *)
From Coq Require Import String NArith List.
From Verif Require Import ModelBase ModelLine ModelData SpecLine.
Import ListNotations.
Local Open Scope N_scope.

(** The maximal pieces without separators. *)
Inductive tokens (sep : char -> Prop) : str -> list str -> Prop :=
| tk_end w : (forall c, In c w -> sep c) -> tokens sep w []
| tk_word w x r ws : (forall c, In c w -> sep c) -> x <> [] -> (forall c, In c x -> ~ sep c) ->
    (forall c r', r = c :: r' -> sep c) -> tokens sep r ws -> tokens sep (w ++ x ++ r) (x :: ws).

(** Flags are separated by white space (that of C) and commas. *)
Definition c_white (c : char) : Prop := In c [9; 10; 11; 12; 13; 32].
Definition flag_separator (c : char) : Prop := c_white c \/ c = 44.
(** [f] is a flag of a comment among the lines [ls]. *)
Definition gettext_flag (ls : list po_line) (f : str) : Prop :=
  exists n s fs, In (PComment n 44 s) ls /\ tokens flag_separator s fs /\ In f fs.

(** All white space of the comments of kind [k] is of a certain sort. *)
Definition comments_white (ok : char -> Prop) (k : char) (ls : list po_line) : Prop :=
  forall n s c, In (PComment n k s) ls -> In c s -> white c -> ok c.

(** Locations are separated by spaces and tabs (in a line); a name may be put between U+2068
    and U+2069, and contain spaces then.  What follows its end up to the next blank (a line
    number) belongs to the location. *)
Definition blank (c : char) : Prop := In c [9; 10; 32].
Inductive location : str -> Prop :=
| lc_plain x : x <> [] -> (forall c, In c x -> ~ blank c) -> (forall x', x <> 8296 :: x') -> location x
| lc_isolated y x : ~ In 8297 y -> (forall c, In c x -> ~ blank c) -> location (8296 :: y ++ 8297 :: x).
Inductive locations : str -> list str -> Prop :=
| ls_end w : (forall c, In c w -> blank c) -> locations w []
| ls_more w x r xs : (forall c, In c w -> blank c) -> location x -> (forall c r', r = c :: r' -> blank c) ->
    locations r xs -> locations (w ++ x ++ r) (x :: xs).
(** The locations of the comments among the lines [ls], in order. *)
Inductive gettext_locations : list po_line -> list str -> Prop :=
| gl_nil : gettext_locations [] []
| gl_line n s ls xs L : locations s xs -> gettext_locations ls L -> gettext_locations (PComment n 58 s :: ls) (xs ++ L)
| gl_other n k s ls L : k <> 58 -> gettext_locations ls L -> gettext_locations (PComment n k s :: ls) L.

(** Comments of translators ([po_callback_comment_dispatcher]): what follows [#], unless it
    begins with one of the characters for other kinds. *)
Definition translator_comment (s t : str) : Prop :=
  exists w, s = w ++ 35 :: t /\ blanks w /\ forall c t', t = c :: t' -> ~ In c (lit ".:,=|~").
(** The notes that comment lines give: texts of [#.] and of [# ], in order. *)
Definition line_notes (l : po_line) : list note :=
  match l with
  | PComment _ k s => if k =? 46 then [Note Developer s] else if k =? 32 then [Note Translator s] else []
  | _ => []
  end.
