(** The errors that reading can end with (C120). *)
From Coq Require Import String NArith List.
From Verif Require Import ModelBase ModelLine ModelFormula ModelData ModelReader SpecLine SpecSource SpecReader SpecBlock SpecHeader SpecFault SpecWriter.
Import ListNotations.
Local Open Scope N_scope.

Inductive possible_error (pf : platform) : error -> Prop :=
(** a failure of the stream, or bytes that are no UTF-8, in any line; *)
| pe_failure n i : 1 <= n -> possible_error pf (EIo n i)
(** a line that is neither blank nor comment nor a keyword or string line (the number is too large by one); *)
| pe_unreadable n s : 2 <= n -> one_line s -> scalars s -> (forall m l, ~ line_of s m l) -> possible_error pf (EParse n s [])
(** a line of which the error shows the beginning, instead of a keyword [msgid] (a comment so early
    belongs to an entry), [msgstr] (after a line [msgid]) or [msgstr[0]] (after lines [msgid] and [msgid_plural]); *)
| pe_no_msgid n s l : 1 <= n -> one_line s -> scalars s -> line_of s n l -> l <> PBlank -> (forall k c, l = PComment n k c -> 3 <= n) ->
    possible_error pf (EParse n (shown l) (lit "msgid"))
| pe_no_msgstr n s l : 2 <= n -> one_line s -> scalars s -> line_of s n l -> l <> PBlank -> possible_error pf (EParse n (shown l) (lit "msgstr"))
| pe_no_form n s l : 3 <= n -> one_line s -> scalars s -> line_of s n l -> l <> PBlank -> possible_error pf (EParse n (shown l) (lit "msgstr[0]"))
(** an entry without source, not at the beginning; *)
| pe_sourceless n : 2 <= n -> possible_error pf (EUnexpected n (lit "Source should not be empty"))
(** a value of the property Plural-Forms that cannot be used. *)
| pe_forms def x : def <> [] -> property_shape (lit "Plural-Forms") def -> scalars def -> forms_fault pf def x -> possible_error pf x.
