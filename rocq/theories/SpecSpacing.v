(** White space and parentheses in plural formulas. *)
From Coq Require Import String Arith NArith Bool List.
From Verif Require Import ModelBase ModelFormula ModelParser SpecLine SpecFormula SpecParser.
Import ListNotations.

(** In the text [a ++ b] a token ends or begins between [a] and [b], or white space stands there. *)
Definition between (a b : str) : Prop := exists ts, begins (a ++ b) ts b.

(** What becomes of an error when [d] bytes are inserted at [k]. *)
Definition move_start (k d x : N) : N := if N.ltb x k then x else (x + d)%N.
Definition move_end (k d x : N) : N := if N.leb x k then x else (x + d)%N.
Definition moved (k d : N) (f : fault) : fault :=
  match f with
  | FInvalid x => FInvalid (move_start k d x)
  | FEof x => FEof (move_end k d x)
  | FToken x w y => FToken (move_start k d x) w (move_end k d y)
  | FLarge => FLarge
  end.
Definition moved_result (k d : N) (r : node + fault) : node + fault := match r with inl e => inl e | inr f => inr (moved k d f) end.
