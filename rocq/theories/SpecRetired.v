(** Entries marked as obsolete, as text. *)
From Coq Require Import String Arith NArith Bool List.
From Verif Require Import ModelBase ModelData SpecLine.
Import ListNotations.
Local Open Scope N_scope.

(** The same line of an obsolete entry: keyword and continuation lines (of the message and of
    the previous message) carry the marker of obsolete entries as well; comments and blank
    lines are the same. *)
Inductive retired : str -> str -> Prop :=
| rt_quoted s s' flags kw quoted : In flags [[]; lit "|"] -> quoted_line s flags kw quoted -> quoted_line s' (126 :: flags) kw quoted -> retired s s'
| rt_other s : (forall flags kw quoted, ~ quoted_line s flags kw quoted) -> retired s s.
(** The same unit, obsolete. *)
Definition retired_unit (u : unit_) : unit_ :=
  Unit (u_context u) (u_message u) (u_prev_context u) (u_prev_message u) (u_flags u) (u_notes u) (u_locations u) (u_comments u) (u_state u) true.
(** Each entry as it was, or as an obsolete one. *)
Inductive some_retired : list (list str) -> list (list str) -> list unit_ -> list unit_ -> Prop :=
| sr_nil : some_retired [] [] [] []
| sr_kept b bs bs' u us us' : some_retired bs bs' us us' -> some_retired (b :: bs) (b :: bs') (u :: us) (u :: us')
| sr_retired b b' bs bs' u us us' : Forall2 retired b b' -> some_retired bs bs' us us' ->
    some_retired (b :: bs) (b' :: bs') (u :: us) (retired_unit u :: us').
