(** How the run-time library of GNU gettext chooses a plural form: gettext-runtime/intl/plural-exp.c
    (EXTRACT_PLURAL_EXPRESSION), plural-eval.c (plural_eval), dcigettext.c (plural_lookup), with 64-bit
    unsigned long. *)
From Coq Require Import String Arith NArith ZArith Bool List.
From Verif Require Import ModelBase ModelFormula ModelData ModelSource ModelReader SpecLine SpecFormula SpecSource SpecReader.
Import ListNotations.
Local Open Scope N_scope.

(** * Evaluation: unsigned, modulo 2^64; [None]: division by zero, which raises a signal *)
Definition truth (b : bool) : N := if b then 1 else 0.
Definition gettext_bin (op : binop) (l r : N) : option N :=
  match op with
  | BAdd => Some ((l + r) mod 2 ^ 64)
  | BSub => Some ((l + (2 ^ 64 - r)) mod 2 ^ 64)
  | BMul => Some ((l * r) mod 2 ^ 64)
  | BDiv => if r =? 0 then None else Some (l / r)
  | BMod => if r =? 0 then None else Some (l mod r)
  | BAnd => Some (truth (negb (l =? 0) && negb (r =? 0)))
  | BOr => Some (truth (negb (l =? 0) || negb (r =? 0)))
  | BEq => Some (truth (l =? r))
  | BNe => Some (truth (negb (l =? r)))
  | BLt => Some (truth (l <? r))
  | BLte => Some (truth (l <=? r))
  | BGt => Some (truth (r <? l))
  | BGte => Some (truth (r <=? l))
  end.
Fixpoint gettext_eval (e : node) (n : N) : option N :=
  match e with
  | NVar => Some n
  | NNum v => Some (Z.to_N v)
  | NUn UNeg _ => None                     (* the grammar has none *)
  | NUn UNot x => match gettext_eval x n with Some v => Some (truth (v =? 0)) | None => None end
  | NBin op x y =>
      match gettext_eval x n with
      | None => None
      | Some l =>
          match op, l =? 0 with
          | BAnd, true => Some 0
          | BOr, false => Some 1
          | _, _ => match gettext_eval y n with Some r => gettext_bin op l r | None => None end
          end
      end
  | NCond x y z =>
      match gettext_eval x n with
      | None => None
      | Some c => if c =? 0 then gettext_eval z n else gettext_eval y n
      end
  end.
(** The number of the form: the first form if the value is too large. *)
Definition gettext_form (count : N) (e : node) (n : N) : option N :=
  match gettext_eval e n with Some i => Some (if i <? count then i else 0) | None => None end.

(** * Evaluation with natural numbers below 2^63; [None] if a difference would be negative, a number too large, a divisor 0 *)
Definition below63 (v : N) : option N := if v <? 2 ^ 63 then Some v else None.
Definition natural_bin (op : binop) (l r : N) : option N :=
  match op with
  | BAdd => below63 (l + r)
  | BSub => if r <=? l then Some (l - r) else None
  | BMul => below63 (l * r)
  | _ => gettext_bin op l r
  end.
Fixpoint natural (e : node) (n : N) : option N :=
  match e with
  | NVar => below63 n
  | NNum v => below63 (Z.to_N v)
  | NUn UNeg _ => None
  | NUn UNot x => match natural x n with Some v => Some (truth (v =? 0)) | None => None end
  | NBin op x y =>
      match natural x n with
      | None => None
      | Some l =>
          match op, l =? 0 with
          | BAnd, true => Some 0
          | BOr, false => Some 1
          | _, _ => match natural y n with Some r => natural_bin op l r | None => None end
          end
      end
  | NCond x y z =>
      match natural x n with
      | None => None
      | Some c => if c =? 0 then natural z n else natural y n
      end
  end.

(** * What the library finds in the header text *)
(** [r] is what follows the first occurrence of [w] in [s]. *)
Definition follows_first (w s r : str) : Prop := exists a, s = a ++ w ++ r /\ forall a' r', s = a' ++ w ++ r' -> (length a <= length a')%nat.
(** The number may follow white space in the sense of [isspace] and is read up to the first character that is no digit.
    The formula is read up to a semicolon, a line feed or the end; it may contain spaces and tabs.
    Simplification: a number from 2^63 in a formula counts as an error, as in [gnu]; the library takes it modulo 2^64. *)
Definition isspace (c : char) : Prop := c = 32 \/ 9 <= c <= 13.
Definition gettext_header (s : str) (count : N) (e : node) : Prop :=
  (exists w ds r, follows_first (lit "nplurals=") s (w ++ ds ++ r) /\ (forall c, In c w -> isspace c) /\ ds <> [] /\ (forall c, In c ds -> 48 <= c <= 57)
     /\ (forall c r', r = c :: r' -> ~ (48 <= c <= 57)) /\ Z.of_N count = digits_value ds)
  /\ exists src r ts, follows_first (lit "plural=") s (src ++ r) /\ ~ In 59 src /\ ~ In 10 src /\ (forall c r', r = c :: r' -> c = 59 \/ c = 10)
     /\ (forall c, In c src -> white c -> c = 32 \/ c = 9)
     /\ tokens_of src ts /\ gnu CExpr ts e.
(** Without such a text: one form for 1, one for everything else. *)
Definition gettext_choice (s : str) (count : N) (e : node) : Prop :=
  gettext_header s count e \/ ((forall k x, ~ gettext_header s k x) /\ count = 2 /\ e = NBin BNe NVar (NNum 1)).
(** The text that the library chooses, with the header property as the text that is searched. *)
Definition gettext_text (c : catalogue) (p : plural) (n : N) (s : str) : Prop :=
  exists count e i, gettext_choice (opt_str (sm_get (lit "Plural-Forms") (c_properties c))) count e /\ gettext_form count e n = Some i
    /\ nth_error (pl_values p) (N.to_nat i) = Some s.
