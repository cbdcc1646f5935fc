(** The texts of errors. *)
From Coq Require Import String Arith NArith Bool List.
From Verif Require Import ModelBase ModelLine ModelFormula ModelData SpecBlock.
Import ListNotations.
Local Open Scope N_scope.

(** [quoted w x t]: [t] is [x] between the quotes U+2018 and U+2019 after the word [w], if [x] is not empty. *)
Inductive quoted (w : str) : str -> str -> Prop :=
| qt_none : quoted w [] []
| qt_some x : x <> [] -> quoted w x (w ++ [8216] ++ x ++ [8217]).
(** The text of an error, given the texts of I/O errors. *)
Inductive shows (io : ioerr -> str) : error -> str -> Prop :=
| sh_io0 x : shows io (EIo 0 x) (io x)
| sh_io n x ds : 0 < n -> decimal n ds -> shows io (EIo n x) (io x ++ lit " at line " ++ ds)
| sh_forms msg : shows io (EPluralForms msg) (lit "Error in plurals forms: " ++ msg)
| sh_unexpected0 msg : shows io (EUnexpected 0 msg) (lit "Unexpected error: " ++ msg)
| sh_unexpected n msg ds : 0 < n -> decimal n ds ->
    shows io (EUnexpected n msg) (lit "Unexpected error at line " ++ ds ++ lit ": " ++ msg)
| sh_parse n got exp ds gs es : decimal n ds -> quoted (lit ", got ") got gs -> quoted (lit " expected ") exp es ->
    shows io (EParse n got exp) (lit "Parse error at line " ++ ds ++ es ++ gs).

(** An error of the crate itself whose expected words contain no closing quote. *)
Inductive plain : error -> Prop :=
| pn_forms msg : plain (EPluralForms msg)
| pn_unexpected n msg : plain (EUnexpected n msg)
| pn_parse n got exp : ~ In 8217 exp -> plain (EParse n got exp).
