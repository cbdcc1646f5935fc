(** The line that decides an error. *)
From Coq Require Import String Arith NArith Bool List.
From Verif Require Import ModelBase ModelUtf8 ModelLine ModelFormula ModelData ModelSource ModelReader.
Import ListNotations.
Local Open Scope N_scope.

(** The line that is meant by an error with line number [n] which says that [w] is expected: the
    number is one too large if nothing is said to be expected (see C42). *)
Definition culprit (n : N) (w : str) : nat := N.to_nat (match w with [] => n - 1 | _ => n end).
