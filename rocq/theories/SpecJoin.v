(** Files put one after the other. *)
From Coq Require Import Arith NArith List.
From Verif Require Import ModelBase ModelUtf8 ModelLine ModelData SpecLine SpecSource SpecReader SpecBlock SpecFile.
Import ListNotations.
Local Open Scope N_scope.

(** Nothing, or lines that are all ended. *)
Definition ended (bs : list byte) : Prop := bs = [] \/ exists a, bs = a ++ [10].
(** The [i]-th line, counted from 0, is the first one that is neither blank nor a comment; it
    is a keyword line. *)
Definition keyword_at (ls : list str) (i : N) : Prop :=
  exists a s b, ls = a ++ s :: b /\ i = N.of_nat (length a)
    /\ (forall x, In x a -> exists l, line_of x 1 l /\ (l = PBlank \/ comment_line l)) /\ exists p t v, line_of s 1 (PMessage 1 p t v).
