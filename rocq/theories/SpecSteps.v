(** The size of a formula. *)
From Coq Require Import String Arith NArith ZArith Bool List.
From Verif Require Import ModelFormula.
Import ListNotations.

(** The number of variables, numbers and operators in a tree. *)
Fixpoint tree_size (e : node) : nat :=
  match e with
  | NVar | NNum _ => 1
  | NUn _ x => S (tree_size x)
  | NBin _ x y => S (tree_size x + tree_size y)
  | NCond x y z => S (tree_size x + tree_size y + tree_size z)
  end.
