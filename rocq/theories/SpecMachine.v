(** Vocabulary for the limits of the machine. *)
From Coq Require Import NArith ZArith List.
From Verif Require Import ModelBase ModelFormula ModelData ModelSource ModelReader ModelMachine.
Import ListNotations.

(** The result of the k-th call of the line iterator (counted from 0); a panic ends it. *)
Fixpoint machine_poll (pf : platform) (k : nat) (it : line_iter) : safe (option item) :=
  match machine_next pf it with
  | (Crash, _) => Crash
  | (Val r, it') => match k with O => Val r | S k' => machine_poll pf k' it' end
  end.

(** The number of nodes on the longest path of a syntax tree. *)
Fixpoint height (e : node) : nat :=
  match e with
  | NVar | NNum _ => 1
  | NUn _ x => S (height x)
  | NBin _ x y => S (Nat.max (height x) (height y))
  | NCond x y z => S (Nat.max (height x) (Nat.max (height y) (height z)))
  end.
(** A result of the evaluation without the limit of the stack. *)
Definition unlimited (o : option Z) : stack_run := match o with Some z => SValue z | None => SPanic end.
(** n+n+...+n with [k] plus signs *)
Definition sum_text (k : nat) : str := 110%N :: concat (repeat [43%N; 110%N] k).
