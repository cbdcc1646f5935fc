(** Lines that end with a backslash.  GNU gettext (lex_getc of gettext-tools/src/po-lex.c) takes a
    backslash and the line break after it away wherever they stand, in strings as in comments. *)
From Coq Require Import NArith List.
From Verif Require Import ModelBase SpecLine.
Import ListNotations.
Local Open Scope N_scope.

Definition ends_in_backslash (s : str) : Prop := exists t, s = t ++ [92].
(** The lines of a file, each ended by a line feed, and those that gettext sees. *)
Inductive joined : list str -> list str -> Prop :=
| jn_nil : joined [] []
| jn_keep s ls ls' : ~ ends_in_backslash s -> joined ls ls' -> joined (s :: ls) (s :: ls')
| jn_join t ls s ls' : joined ls (s :: ls') -> joined ((t ++ [92]) :: ls) ((t ++ s) :: ls')
| jn_end t : joined [t ++ [92]] [t].
