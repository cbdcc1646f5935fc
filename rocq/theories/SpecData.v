(** When two messages are said to be equal. *)
From Coq Require Import List.
From Verif Require Import ModelBase ModelData SpecLine.

(** The same ids; without plural also the same text (no text counts as an empty one). *)
Definition same_message (a b : message) : Prop :=
  match a, b with
  | MSimple i t, MSimple i' t' => i = i' /\ opt_str t = opt_str t'
  | MPlural p, MPlural p' => pl_singular p = pl_singular p' /\ pl_plural p = pl_plural p'
  | _, _ => False
  end.
