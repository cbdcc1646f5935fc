(** The [regex] crate: syntax trees and leftmost-first (Perl-like) search.

    The crate documents that a search returns the match a backtracking engine
    would find; [mtch] is that backtracking engine in continuation-passing style. *)
From Coq Require Import Arith NArith Bool List.
From Verif Require Import ModelBase.
Import ListNotations.

Inductive re :=
| REps
| RCls (p : char -> bool)                 (* character class *)
| RSeq (a b : re)
| RAlt (a b : re)                         (* a|b, a preferred *)
| RStar (greedy : bool) (a : re)          (* a* or a*? *)
| ROpt (a : re)                           (* a? *)
| RGrp (i : nat) (a : re)                 (* capture group i *)
| RBol                                    (* ^ *)
| REol.                                   (* $ *)

(** a+? *)
Definition RPlusLazy (a : re) : re := RSeq a (RStar false a).

(** Position in the haystack, rest of the haystack, captured groups (latest first). *)
Record mstate := MS { ms_pos : nat; ms_rest : str; ms_caps : list (nat * str) }.

Definition orelse {A} (a b : option A) : option A :=
  match a with Some _ => a | None => b end.

Definition ms_capture (i : nat) (start : str) (st : mstate) : mstate :=
  MS (ms_pos st) (ms_rest st)
     ((i, firstn (length start - length (ms_rest st)) start) :: ms_caps st).

(** The repetition [a*] / [a*?], where [m] is the matcher of [a].  One repetition must
    consume something, otherwise it is not taken; so the length of the rest is
    enough fuel. *)
Fixpoint star_loop (m : mstate -> (mstate -> option mstate) -> option mstate) (greedy : bool)
  (k : mstate -> option mstate) (fuel : nat) (st : mstate) : option mstate :=
  match fuel with
  | O => k st
  | S fuel' =>
      let more :=
        m st (fun st' =>
          if length (ms_rest st') <? length (ms_rest st) then star_loop m greedy k fuel' st'
          else None) in
      if greedy then orelse more (k st) else orelse (k st) more
  end.

Fixpoint mtch (r : re) (st : mstate) (k : mstate -> option mstate) {struct r} : option mstate :=
  match r with
  | REps => k st
  | RCls p =>
      match ms_rest st with
      | c :: s => if p c then k (MS (S (ms_pos st)) s (ms_caps st)) else None
      | [] => None
      end
  | RSeq a b => mtch a st (fun st' => mtch b st' k)
  | RAlt a b => orelse (mtch a st k) (mtch b st k)
  | RStar greedy a => star_loop (mtch a) greedy k (length (ms_rest st)) st
  | ROpt a => orelse (mtch a st k) (k st)
  | RGrp i a => mtch a st (fun st' => k (ms_capture i (ms_rest st) st'))
  | RBol => if ms_pos st =? 0 then k st else None
  | REol => match ms_rest st with [] => k st | _ => None end
  end.

(** Leftmost match at or after the current position: skipped text and final state. *)
Fixpoint re_find_from (r : re) (pos : nat) (s : str) : option (str * mstate) :=
  match mtch r (MS pos s []) Some with
  | Some st => Some ([], st)
  | None =>
      match s with
      | [] => None
      | c :: s' =>
          match re_find_from r (S pos) s' with
          | Some (pre, st) => Some (c :: pre, st)
          | None => None
          end
      end
  end.

(** [Captures::get(i)] *)
Fixpoint cap_get (i : nat) (caps : list (nat * str)) : option str :=
  match caps with
  | [] => None
  | (j, s) :: caps' => if i =? j then Some s else cap_get i caps'
  end.

(** [Regex::captures] *)
Definition re_captures (r : re) (s : str) : option (list (nat * str)) :=
  match re_find_from r 0 s with
  | Some (_, st) => Some (ms_caps st)
  | None => None
  end.

(** [Regex::is_match] *)
Definition re_is_match (r : re) (s : str) : bool :=
  match re_find_from r 0 s with Some _ => true | None => false end.

(** [Regex::captures_iter]: successive non-overlapping matches, each with the text
    skipped before it, and the text after the last one.  (Simplification: iteration stops
    at an empty match; the two regexes iterated by the crate, [map_re] and the one of
    [Unescaper], start with a mandatory character and never match the empty string.) *)
Fixpoint re_iter (fuel : nat) (r : re) (pos : nat) (s : str) : list (str * mstate) * str :=
  match fuel with
  | O => ([], s)
  | S fuel' =>
      match re_find_from r pos s with
      | None => ([], s)
      | Some (pre, st) =>
          if length (ms_rest st) <? length s then
            let (l, tail) := re_iter fuel' r (ms_pos st) (ms_rest st) in
            ((pre, st) :: l, tail)
          else ([], s)
      end
  end.

Definition re_captures_iter (r : re) (s : str) : list (list (nat * str)) :=
  map (fun m => ms_caps (snd m)) (fst (re_iter (S (length s)) r 0 s)).

(** [Regex::replace_all] with a replacement function of the captures. *)
Definition re_replace_all (r : re) (f : list (nat * str) -> str) (s : str) : str :=
  let (l, tail) := re_iter (S (length s)) r 0 s in
  concat (map (fun m => fst m ++ f (ms_caps (snd m))) l) ++ tail.

(** Building blocks for transliterating regex literals. *)
Definition rch (c : char) : re := RCls (N.eqb c).
Fixpoint rlit (s : str) : re :=
  match s with
  | [] => REps
  | [c] => rch c
  | c :: s' => RSeq (rch c) (rlit s')
  end.
Fixpoint rseq (l : list re) : re :=
  match l with
  | [] => REps
  | [r] => r
  | r :: l' => RSeq r (rseq l')
  end.
