(** The work of single calls (see ModelWork.v for what is counted). *)
From Coq Require Import String Arith NArith Bool List.
From Verif Require Import ModelBase ModelLine ModelData ModelSource ModelReader SpecSize SpecWork.
Import ListNotations.
Local Open Scope nat_scope.

(** Characters of an answer of the line iterator, and three more for the answer itself. *)
Definition answer_cost (x : option item) : nat := 3 + match x with Some (ILine l) => line_chars l | _ => 0 end.
Definition answers_cost (a : list (option item)) : nat := total (map answer_cost a).
(** The line that comes next. *)
Definition next_cost (a : list (option item)) : nat := match a with x :: _ => answer_cost x | [] => 3 end.
(** One of the answers is a line with the plural of an id. *)
Definition plural_among (a : list (option item)) : Prop := exists n flags s, In (Some (ILine (PMessage n flags (lit "msgid_plural") s))) a.
