(** The escapes of quoted texts, stated as their documentation states them (C106): std, [char::escape_debug]. *)
From Coq Require Import String NArith Bool List.
From Verif Require Import ModelBase.
Import ListNotations.
Local Open Scope N_scope.

(** The hexadecimal digits of a number, in lower case, without leading zeros. *)
Definition hex_letter (d : N) (c : char) : Prop := nth_error (lit "0123456789abcdef") (N.to_nat d) = Some c.
Inductive hexadecimal : N -> str -> Prop :=
| hx_digit d c : hex_letter d c -> hexadecimal d [c]
| hx_more m d c s : 0 < m -> hex_letter d c -> hexadecimal m s -> hexadecimal (16 * m + d) (s ++ [c]).

(** The text of one character between quotes of the kind [quote]: those with a code, then those that
    are shown as they are, then the others by their number. *)
Definition special (quote : char) : list (char * char) := [(0, 48); (9, 116); (13, 114); (10, 110); (92, 92); (quote, quote)].
Inductive escape_text (shown : char -> bool) (quote : char) : char -> str -> Prop :=
| et_code c d : In (c, d) (special quote) -> escape_text shown quote c [92; d]
| et_shown c : ~ In c (map fst (special quote)) -> shown c = true -> escape_text shown quote c [c]
| et_number c ds : ~ In c (map fst (special quote)) -> shown c = false -> hexadecimal c ds ->
    escape_text shown quote c (lit "\u{" ++ ds ++ lit "}").
(** The text of a whole string. *)
Definition quoted_text (shown : char -> bool) (s t : str) : Prop :=
  exists ts, Forall2 (escape_text shown 34) s ts /\ t = [34] ++ concat ts ++ [34].
