(** Texts of nested data, on one line and on several lines. *)
From Coq Require Import String NArith Bool List.
From Verif Require Import ModelBase ModelLine ModelFormula ModelData.
Import ListNotations.
Local Open Scope N_scope.

(** Data: atoms; structures with named fields; constructors with arguments; lists; sets. *)
Inductive data :=
| DAtom (s : str)
| DFields (name : str) (fs : list (str * data))
| DArgs (name : str) (vs : list data)
| DList (vs : list data)
| DSet (vs : list data).

(** An atom is a word of letters, digits, minus and underscore, or a text in quotes; no line feed is in it. *)
Definition word_char (c : char) : Prop := 48 <= c <= 57 \/ 65 <= c <= 90 \/ 97 <= c <= 122 \/ c = 45 \/ c = 95.
Definition word_text (s : str) : Prop := s <> [] /\ forall c, In c s -> word_char c.
Inductive inside (q : char) : str -> Prop :=
| ins_end : inside q []
| ins_char c s : c <> q -> c <> 92 -> c <> 10 -> inside q s -> inside q (c :: s)
| ins_escape c s : c <> 10 -> inside q s -> inside q (92 :: c :: s).
Inductive atom_text : str -> Prop :=
| at_word s : word_text s -> atom_text s
| at_quoted q s : In q [34; 39] -> inside q s -> atom_text (q :: s ++ [q]).
Inductive proper : data -> Prop :=
| pr_atom s : atom_text s -> proper (DAtom s)
| pr_fields name fs : word_text name -> fs <> [] -> Forall (fun f => word_text (fst f)) fs -> Forall (fun f => proper (snd f)) fs -> proper (DFields name fs)
| pr_args name vs : word_text name -> vs <> [] -> Forall proper vs -> proper (DArgs name vs)
| pr_list vs : Forall proper vs -> proper (DList vs)
| pr_set vs : Forall proper vs -> proper (DSet vs).

(** On one line: commas and spaces between the parts. *)
Fixpoint commas (l : list str) : str := match l with [] => [] | [x] => x | x :: l' => x ++ lit ", " ++ commas l' end.
Fixpoint flat_text (d : data) : str :=
  match d with
  | DAtom s => s
  | DFields name fs => name ++ lit " { " ++ commas (map (fun f => fst f ++ lit ": " ++ flat_text (snd f)) fs) ++ lit " }"
  | DArgs name vs => name ++ lit "(" ++ commas (map flat_text vs) ++ lit ")"
  | DList vs => lit "[" ++ commas (map flat_text vs) ++ lit "]"
  | DSet vs => lit "{" ++ commas (map flat_text vs) ++ lit "}"
  end.
(** On several lines: each part begins on a line of its own, four spaces further to the right than what
    it is part of, and ends with a comma; the closing bracket is on a line of its own.  An empty list
    or set is shown without a line break. *)
Definition indent (k : nat) : str := repeat 32 (4 * k).
Definition on_lines (k : nat) (parts : list str) : str :=
  match parts with [] => [] | _ => [10] ++ flat_map (fun p => indent (S k) ++ p ++ lit "," ++ [10]) parts ++ indent k end.
Fixpoint lined_text (k : nat) (d : data) : str :=
  match d with
  | DAtom s => s
  | DFields name fs => name ++ lit " {" ++ on_lines k (map (fun f => fst f ++ lit ": " ++ lined_text (S k) (snd f)) fs) ++ lit "}"
  | DArgs name vs => name ++ lit "(" ++ on_lines k (map (lined_text (S k)) vs) ++ lit ")"
  | DList vs => lit "[" ++ on_lines k (map (lined_text (S k)) vs) ++ lit "]"
  | DSet vs => lit "{" ++ on_lines k (map (lined_text (S k)) vs) ++ lit "}"
  end.
(** [two_texts s t]: [s] and [t] are the texts of the same data on one line and on several lines. *)
Definition two_texts (s t : str) : Prop := exists d, proper d /\ s = flat_text d /\ t = lined_text 0 d.
(** The number of line breaks: one for each part, and one more if there are parts. *)
Definition parts_breaks (l : list nat) : nat := match l with [] => 0 | _ => S (length l + list_sum l) end.
Fixpoint data_breaks (d : data) : nat :=
  match d with
  | DAtom _ => 0
  | DFields _ fs => parts_breaks (map (fun f => data_breaks (snd f)) fs)
  | DArgs _ vs | DList vs | DSet vs => parts_breaks (map data_breaks vs)
  end.
(** The number of line feeds in a text; a unit with all its texts changed in any way. *)
Definition feeds (s : str) : nat := count_occ N.eq_dec s 10.
Definition retext_forms (f : str -> str) (p : plural_forms) : plural_forms := PluralForms (pf_formula p) (pf_count p) (f (pf_definition p)) (f (pf_source p)).
Definition retext_message (f : str -> str) (m : message) : message :=
  match m with
  | MSimple id t => MSimple (f id) (option_map f t)
  | MPlural p => MPlural (Plural (option_map (retext_forms f) (pl_forms p)) (f (pl_singular p)) (f (pl_plural p)) (map f (pl_values p)))
  end.
Definition retext_unit (f : str -> str) (u : unit_) : unit_ :=
  Unit (option_map f (u_context u)) (retext_message f (u_message u)) (option_map f (u_prev_context u)) (retext_message f (u_prev_message u)) (map f (u_flags u))
    (map (fun n => Note (note_origin n) (f (note_value n))) (u_notes u)) (map f (u_locations u)) (map (fun c => Comment (com_kind c) (f (com_content c))) (u_comments u))
    (u_state u) (u_obsolete u).
