(** What the example program of README.md shows for a file. *)
From Coq Require Import String Arith NArith ZArith Bool List.
From Verif Require Import ModelBase ModelUtf8 ModelLine ModelFormula ModelData ModelSource ModelReader
  SpecLine SpecFormula SpecSource SpecReader SpecBlock SpecHeader SpecFile SpecError SpecWhole.
Import ListNotations.
Local Open Scope N_scope.

(** The standard output: a line per unit, in order, with its id (the singular one of a plural message). *)
Inductive has_id : message -> str -> Prop :=
| hi_simple id text : has_id (MSimple id text) id
| hi_plural f a b vs : has_id (MPlural (Plural f a b vs)) a.
Inductive printed : list unit_ -> str -> Prop :=
| pr_none : printed [] []
| pr_unit u us id s : has_id (u_message u) id -> printed us s -> printed (u :: us) (lit " - " ++ id ++ [10] ++ s).
(** The standard error and the exit code. *)
Inductive reported (debug : ioerr -> str) : option error -> str -> N -> Prop :=
| re_success : reported debug None [] 0
| re_error e t : shows debug e t -> reported debug (Some e) (lit "Error: Custom { kind: Other, error: " ++ t ++ lit " }" ++ [10]) 1.
(** Both, for a file with the non-blank lines [pl], which end as [tl] says. *)
Inductive example_shows (debug : ioerr -> str) (lib : lang_lib) (pf : platform) (pl : list po_line) (tl : option error) : str -> str -> N -> Prop :=
| es_read c us o out err code : whole lib pf pl tl (Ok c) -> c_items c = map UOk us ++ error_item o ->
    printed us out -> reported debug o err code -> example_shows debug lib pf pl tl out err code
| es_rejected e err code : whole lib pf pl tl (Err e) -> reported debug (Some e) err code -> example_shows debug lib pf pl tl [] err code.
