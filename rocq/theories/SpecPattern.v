(** The syntax of regular expressions, as far as the crate uses it (documentation of the [regex]
    crate): the pattern that a text stands for. *)
From Coq Require Import String Arith NArith Bool List.
From Verif Require Import ModelBase ModelRegex.
Import ListNotations.
Local Open Scope N_scope.

(** Unicode mode: [.] is any character but a line feed, [\s] white space, [\d] a decimal digit. *)
Definition pat_any (c : char) : bool := negb (c =? 10).
Definition pat_letter (c : char) : option (char -> bool) :=
  if c =? 115 then Some is_ws                                     (* \s *)
  else if c =? 83 then Some (fun c => negb (is_ws c))             (* \S *)
  else if c =? 100 then Some is_nd                                (* \d *)
  else None.
(** Characters that stand for themselves only after a backslash. *)
Definition pat_special : str := lit "\.+*?()|[]{}^$".
Definition pat_is_special (c : char) : bool := existsb (N.eqb c) pat_special.

(** The inside of a bracketed class, up to the bracket: characters and ranges. *)
Fixpoint pat_class (s : str) : option (list (char * char) * str) :=
  match s with
  | 93 :: s => Some ([], s)
  | 92 :: c :: s => if pat_is_special c then option_map (fun r => ((c, c) :: fst r, snd r)) (pat_class s) else None
  | a :: s =>
      if pat_is_special a then None else
      match s with
      | 45 :: b :: s => if pat_is_special b then None else option_map (fun r => ((a, b) :: fst r, snd r)) (pat_class s)
      | _ => option_map (fun r => ((a, a) :: fst r, snd r)) (pat_class s)
      end
  | [] => None
  end.
Definition in_class (l : list (char * char)) (c : char) : bool := existsb (fun r => (fst r <=? c) && (c <=? snd r)) l.

(** What follows an atom: [*] and [+], also lazy, and [?]. *)
Definition pat_repeat (a : re) (s : str) : re * str :=
  match s with
  | 42 :: 63 :: s => (RStar false a, s)
  | 42 :: s => (RStar true a, s)
  | 43 :: 63 :: s => (RSeq a (RStar false a), s)
  | 43 :: s => (RSeq a (RStar true a), s)
  | 63 :: s => (ROpt a, s)
  | _ => (a, s)
  end.

(** [i] is the number of the next group. *)
Fixpoint pat_alt (fuel : nat) (i : nat) (s : str) : option (re * nat * str) :=
  match fuel with
  | O => None
  | S fuel =>
      match pat_seq fuel i s with
      | Some (a, i, 124 :: s) => match pat_alt fuel i s with Some (b, i, s) => Some (RAlt a b, i, s) | None => None end
      | r => r
      end
  end
with pat_seq (fuel : nat) (i : nat) (s : str) : option (re * nat * str) :=
  match fuel with
  | O => None
  | S fuel =>
      match s with
      | [] | 124 :: _ | 41 :: _ => Some (REps, i, s)
      | _ =>
          match pat_atom fuel i s with
          | Some (a, i, s) =>
              let (a, s) := pat_repeat a s in
              match pat_seq fuel i s with Some (b, i, s) => Some (RSeq a b, i, s) | None => None end
          | None => None
          end
      end
  end
with pat_atom (fuel : nat) (i : nat) (s : str) : option (re * nat * str) :=
  match fuel with
  | O => None
  | S fuel =>
      match s with
      | 40 :: 63 :: 58 :: s =>                                    (* (?: *)
          match pat_alt fuel i s with Some (a, i, 41 :: s) => Some (a, i, s) | _ => None end
      | 40 :: s =>
          match pat_alt fuel (S i) s with Some (a, j, 41 :: s) => Some (RGrp i a, j, s) | _ => None end
      | 91 :: s => option_map (fun r => (RCls (in_class (fst r)), i, snd r)) (pat_class s)
      | 92 :: c :: s =>
          match pat_letter c with
          | Some p => Some (RCls p, i, s)
          | None => if pat_is_special c then Some (RCls (N.eqb c), i, s) else None
          end
      | 46 :: s => Some (RCls pat_any, i, s)
      | 94 :: s => Some (RBol, i, s)
      | 36 :: s => Some (REol, i, s)
      | c :: s => if pat_is_special c then None else Some (RCls (N.eqb c), i, s)
      | [] => None
      end
  end.
(** The pattern of a text. *)
Definition pattern (s : str) : option re :=
  match pat_alt (3 * S (length s)) 1 s with Some (r, _, []) => Some r | _ => None end.

(** The same results of every search. *)
Definition same_pattern (a b : re) : Prop :=
  (forall s, re_captures a s = re_captures b s) /\ (forall s, re_is_match a s = re_is_match b s)
  /\ (forall s, re_captures_iter a s = re_captures_iter b s) /\ forall f s, re_replace_all a f s = re_replace_all b f s.
Definition stands_for (text : str) (r : re) : Prop := exists p, pattern text = Some p /\ same_pattern p r.

(** src/po/parser.rs:22-28, src/po/unescape.rs:12 *)
Definition map_pattern : str := lit "(\S+?)\s*=\s*(.*?)\s*;".
Definition map_check_pattern : str := lit "^\s*(\S+?\s*=\s*.*?\s*;\s*)*$".
Definition message_pattern : str := lit "^\s*(?:#(~?\|?))?\s*(msgctxt|msgid|msgid_plural|msgstr(?:\[(?:0|[1-9]\d*)\])?)?\s*""(.*)""\s*$".
Definition comment_pattern : str := lit "^\s*#(.)?\s*(.*)$".
Definition unescape_pattern : str := lit "\\([rtn""\\])".
