(** What is reported about a definition of plural forms that cannot be used. *)
From Coq Require Import String Arith NArith ZArith Bool List.
From Verif Require Import ModelBase ModelFormula ModelData SpecLine SpecFormula SpecBlock SpecHeader.
Import ListNotations.
Local Open Scope N_scope.

(** The text [s] without one leading plus sign is [t]. *)
Inductive unsigned_text : str -> str -> Prop :=
| ut_plus t : unsigned_text (43 :: t) t
| ut_bare c t : c <> 43 -> unsigned_text (c :: t) (c :: t).
Definition all_digits (ds : str) : Prop := forall c, In c ds -> 48 <= c <= 57.
(** [count_fault pf s m]: the text [s] is no number of forms, and [m] says why.  The text is
    looked at from the left: what comes first, a character that is no digit or a prefix that
    is too large, is reported. *)
Inductive count_fault (pf : platform) : str -> str -> Prop :=
| cf_empty : count_fault pf [] (lit "cannot parse integer from empty string")
| cf_sign : count_fault pf [43] (lit "invalid digit found in string")
| cf_digit s ds c r : unsigned_text s (ds ++ c :: r) -> all_digits ds -> (digits_value ds < 2 ^ Z.of_N (usize_bits pf))%Z ->
    c < 48 \/ 57 < c -> count_fault pf s (lit "invalid digit found in string")
| cf_large s ds r : unsigned_text s (ds ++ r) -> all_digits ds -> (2 ^ Z.of_N (usize_bits pf) <= digits_value ds)%Z ->
    count_fault pf s (lit "number too large to fit in target type").
(** [forms_fault pf def x]: the definition [def] cannot be used, and the error is [x]: first the
    list of values is looked at, then the formula (the text of this error is that of the formula
    parser, which is not modelled), then the number of forms. *)
Inductive forms_fault (pf : platform) (def : str) : error -> Prop :=
| ff_list : ~ definition_list def -> forms_fault pf def (EUnexpected 0 (lit "Bad value list definition: `" ++ def ++ lit "`"))
| ff_formula bs : definition_list def -> bindings def bs -> (forall e, ~ formula_of (opt_str (last_value (lit "plural") bs)) e) ->
    forms_fault pf def (EPluralForms formula_error_text)
| ff_count bs e s m : definition_list def -> bindings def bs -> formula_of (opt_str (last_value (lit "plural") bs)) e ->
    last_value (lit "nplurals") bs = Some s -> count_fault pf s m -> forms_fault pf def (EPluralForms m).
