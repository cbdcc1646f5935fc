(** Comments extracted from programs, and locations in the style of Solaris, as GNU gettext reads
    them (po_callback_comment_dispatcher and po_parse_comment_solaris_filepos in
    gettext-tools/src/read-catalog-abstract.c). *)
From Coq Require Import String NArith List.
From Verif Require Import ModelBase ModelLine ModelData SpecLine.
Import ListNotations.
Local Open Scope N_scope.

(** What follows [#.], without one space. *)
Definition extracted_comment (s t : str) : Prop :=
  exists w r, s = w ++ 35 :: 46 :: r /\ blanks w /\ (r = 32 :: t \/ (r = t /\ forall r', r <> 32 :: r')).
(** The texts of the notes for developers among others. *)
Definition developer_texts (ns : list note) : list str :=
  flat_map (fun n => match n with Note Developer t => [t] | Note _ _ => [] end) ns.
(** [texts ls ts]: the extracted comments of the lines [ls] have the texts [ts]. *)
Inductive extracted : list str -> list str -> Prop :=
| ex_nil : extracted [] []
| ex_one s t ls ts : extracted_comment s t -> extracted ls ts -> extracted (s :: ls) (t :: ts)
| ex_other s ls ts : (forall t, ~ extracted_comment s t) -> extracted ls ts -> extracted (s :: ls) ts.
(** A text without white space at its beginning. *)
Inductive unindented : str -> str -> Prop :=
| ui_intro w x : blanks w -> not_white_first x -> unindented (w ++ x) x.
(** [# File: NAME, line: NUMBER] is a location. *)
Definition solaris_location (s name number : str) : Prop :=
  s = lit "# File: " ++ name ++ lit ", line: " ++ number /\ number <> [] /\ (forall c, In c number -> In c (lit "0123456789")).
