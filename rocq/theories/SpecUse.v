(** Units as an application uses them. *)
From Coq Require Import String Arith NArith ZArith Bool List.
From Verif Require Import ModelBase ModelLine ModelFormula ModelData ModelSource ModelReader SpecFormula.
Import ListNotations.
Local Open Scope N_scope.

(** The message has a text, not empty, for the count [n]. *)
Definition offers (pf : platform) (u : unit_) (n : N) : Prop := exists s, s <> [] /\ msg_get_plural_text pf (u_message u) n = Some (Some s).
(** What a unit is looked up by. *)
Definition lookup_key (u : unit_) : option str * str := (u_context u, msg_get_id (u_message u)).

(** What looking up the form for a count gives, on any platform ([w]: the count as a 64 bit
    integer): a panic; nothing; the value of the formula, cut to the machine word, if it is below the number
    of forms. *)
Inductive looks_up (pf : platform) (f : plural_forms) (w : Z) : option (option N) -> Prop :=
| lu_panic : overflow_checks pf = true -> negates_min w (pf_formula f) -> looks_up pf f w None
| lu_negative x : overflow_checks pf = false \/ ~ negates_min w (pf_formula f) -> runs w (pf_formula f) x -> (x < 0)%Z -> looks_up pf f w (Some None)
| lu_form x i : overflow_checks pf = false \/ ~ negates_min w (pf_formula f) -> runs w (pf_formula f) x -> (0 <= x)%Z ->
    Z.of_N i = (x mod 2 ^ Z.of_N (usize_bits pf))%Z -> i < pf_count f -> looks_up pf f w (Some (Some i))
| lu_large x i : overflow_checks pf = false \/ ~ negates_min w (pf_formula f) -> runs w (pf_formula f) x -> (0 <= x)%Z ->
    Z.of_N i = (x mod 2 ^ Z.of_N (usize_bits pf))%Z -> pf_count f <= i -> looks_up pf f w (Some None).
