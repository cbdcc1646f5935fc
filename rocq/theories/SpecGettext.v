(** Strings as GNU gettext reads them (gettext-tools/src/po-lex.c, [control_sequence] and the
    treatment of the double quote in the lexer; the manual, section PO Files). *)
From Coq Require Import String Arith NArith Bool List.
From Verif Require Import ModelBase ModelLine SpecLine.
Import ListNotations.
Local Open Scope N_scope.

(** What stands after a backslash and what it means: n t b r f v a, backslash, quote. *)
Definition gettext_named : list (char * char) := [(110, 10); (116, 9); (98, 8); (114, 13); (102, 12); (118, 11); (97, 7); (92, 92); (34, 34)].
Definition octal_digit (c : char) : Prop := 48 <= c <= 55.
Definition hex_digit (c : char) (v : N) : Prop := (48 <= c <= 57 /\ v = c - 48) \/ (97 <= c <= 102 /\ v = c - 87) \/ (65 <= c <= 70 /\ v = c - 55).
Definition octal_value (ds : str) : N := fold_left (fun a d => a * 8 + (d - 48)) ds 0.
Inductive hex_value : str -> N -> Prop :=
| hv_nil : hex_value [] 0
| hv_digit ds a d v : hex_value ds a -> hex_digit d v -> hex_value (ds ++ [d]) (a * 16 + v).
(** [gettext_means s t]: the string between two quotes is [s], its value [t].  Numeric escapes of
    other than ASCII characters (they are bytes in the charset of the file) are left out. *)
Inductive gettext_means : str -> str -> Prop :=
| gm_nil : gettext_means [] []
| gm_char c s t : c <> 92 -> c <> 34 -> gettext_means s t -> gettext_means (c :: s) (c :: t)
| gm_named c v s t : In (c, v) gettext_named -> gettext_means s t -> gettext_means (92 :: c :: s) (v :: t)
| gm_octal ds s t : (1 <= length ds <= 3)%nat -> Forall octal_digit ds -> length ds = 3%nat \/ (forall c r, s = c :: r -> ~ octal_digit c) ->
    octal_value ds < 128 -> gettext_means s t -> gettext_means (92 :: ds ++ s) (octal_value ds :: t)
| gm_hex ds v s t : ds <> [] -> hex_value ds v -> (forall c r d, s = c :: r -> ~ hex_digit c d) ->
    v < 128 -> gettext_means s t -> gettext_means (92 :: 120 :: ds ++ s) (v :: t).
(** Only the escapes n, t, r, quote and backslash are used. *)
Inductive common_escapes : str -> Prop :=
| ce_nil : common_escapes []
| ce_char c s : c <> 92 -> common_escapes s -> common_escapes (c :: s)
| ce_escape c s : In c (lit "ntr\""") -> common_escapes s -> common_escapes (92 :: c :: s).

(** What may stand between two quotes: no quote, and nothing cut off after a backslash. *)
Inductive closed : str -> Prop :=
| cd_nil : closed []
| cd_char c s : c <> 92 -> c <> 34 -> closed s -> closed (c :: s)
| cd_escape c s : closed s -> closed (92 :: c :: s).
(** Any number of strings, with blanks before, between and after them. *)
Inductive strings_of : str -> list str -> Prop :=
| so_end w : blanks w -> strings_of w []
| so_string w b s bs : blanks w -> closed b -> strings_of s bs -> strings_of (w ++ [34] ++ b ++ [34] ++ s) (b :: bs).
