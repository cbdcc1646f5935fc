(** Which error is right for a text that is no formula. *)
From Coq Require Import String Arith NArith ZArith Bool List.
From Verif Require Import ModelBase ModelFormula ModelParser SpecLine SpecFormula SpecSource.
Import ListNotations.

(** [ts] are the first tokens of a text (longest ones), [r] is the rest, perhaps after blanks. *)
Inductive begins : str -> list tok -> str -> Prop :=
| bg_here s : begins s [] s
| bg_white c s ts r : white c -> begins s ts r -> begins (c :: s) ts r
| bg_token t w s ts r : spelled t w -> longest w s -> begins s ts r -> begins (w ++ s) (t :: ts) r.

(** Tokens with which a formula can begin, whatever the values of its numbers. *)
Definition unnumbered (t : tok) : tok := match t with TNum _ => TNum (lit "0") | _ => t end.
Definition viable (ts : list tok) : Prop := exists q e, derives GExpr (map unnumbered ts ++ q) e.

(** Bytes of a text. *)
Definition size (s : str) : N := N.of_nat (length (utf8 s)).

(** All numbers fit in 64 bits. *)
Definition fit (ts : list tok) : Prop := forall d, In (TNum d) ts -> (digits_value d <= max64)%Z.

(** [fault_of s f]: the text [s] is no formula, and [f] says why: the first token with which no formula can go on, and
    its place; the end of the text; the first place where no token begins; the first number that is
    too large for 64 bits.  Up to there the text is the beginning of a formula, and its numbers
    fit in 64 bits (all but the one right before the place, about which nothing is said). *)
Inductive fault_of (s : str) : fault -> Prop :=
| fo_token u w r ts t : s = u ++ w ++ r -> begins s ts (w ++ r) -> spelled t w -> longest w r ->
    viable ts -> fit (removelast ts) -> ~ viable (ts ++ [t]) -> fault_of s (FToken (size u) w (size (u ++ w)))
| fo_eof ts : tokens_of s ts -> viable ts -> fit (removelast ts) -> (forall e, ~ derives GExpr (map unnumbered ts) e) -> fault_of s (FEof (size s))
| fo_invalid u r ts : s = u ++ r -> r <> [] -> begins s ts r -> (forall c r', r = c :: r' -> ~ white c) ->
    (forall t w r', spelled t w -> r <> w ++ r') -> viable ts -> fit (removelast ts) -> fault_of s (FInvalid (size u))
| fo_large d r ts : begins s ts (d ++ r) -> spelled (TNum d) d -> longest d r ->
    viable (ts ++ [TNum d]) -> fit ts -> (max64 < digits_value d)%Z -> fault_of s FLarge.

(** Errors that are reported early are right: no formula begins with such symbols and such a token,
    whatever the values are. *)
Definition alike_symbol (a b : symbol) : Prop :=
  match a, b with Y t, Y u => unnumbered t = unnumbered u | X j _, X k _ => j = k | _, _ => False end.
Definition accepts (stack : list symbol) (ts : list tok) : Prop := exists fuel e, run (fun _ _ => false) false fuel stack ts = Accepted e.
Definition cautious (early : list symbol -> option tok -> bool) : Prop :=
  forall stack t, early stack t = true -> forall stack' ts, Forall2 alike_symbol stack stack' ->
  option_map unnumbered t = option_map unnumbered (hd_error ts) -> ~ accepts stack' ts.
