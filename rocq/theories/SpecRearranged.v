(** Headers with the same lines in another order. *)
From Coq Require Import String Arith NArith Bool List.
From Verif Require Import ModelBase ModelData SpecLine SpecBlock.
Import ListNotations.
Local Open Scope N_scope.

(** A line of a header and its name: what is in front of the first colon, without the blanks
    around it.  [valued]: the same with what is behind the colon. *)
Definition valued (l k v : str) : Prop := exists a b, l = a ++ 58 :: b /\ ~ In 58 a /\ trims_to a k /\ trims_to b v.
Definition named (l k : str) : Prop := exists v, valued l k v.
(** Lines with different names change places; lines without a colon come and go; blanks around
    names and values change. *)
Inductive rearranged : list str -> list str -> Prop :=
| ra_same ls : rearranged ls ls
| ra_swap a l l' b : (forall k, named l k -> ~ named l' k) -> rearranged (a ++ l :: l' :: b) (a ++ l' :: l :: b)
| ra_nameless a l b : ~ In 58 l -> rearranged (a ++ l :: b) (a ++ b)
| ra_blanks a l l' k v b : valued l k v -> valued l' k v -> rearranged (a ++ l :: b) (a ++ l' :: b)
| ra_back ls ls' : rearranged ls ls' -> rearranged ls' ls
| ra_steps ls ls' ls'' : rearranged ls ls' -> rearranged ls' ls'' -> rearranged ls ls''.
(** The lines of a header text. *)
Definition text_lines (text : str) (ls : list str) : Prop :=
  ls <> [] /\ text = separated 10 ls /\ forall l, In l ls -> one_line l.
