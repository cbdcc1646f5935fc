(** Characters, strings and the few std string functions used by the crate.

    A Rust [char] is modelled by its scalar value (an [N]); a Rust [&str]/[String]
    by the list of its chars.  Byte offsets are not modelled: the code only slices
    strings at positions returned by [find]/regex matches, which are char
    boundaries. *)
From Coq Require Import String Ascii.
From Coq Require Import NArith ZArith Bool Lia List.
From Coq Require Decimal DecimalN.
Import ListNotations.

Definition char := N.
Definition str := list char.

(** ASCII string literals of the source. *)
Definition lit (s : string) : str := List.map N_of_ascii (list_ascii_of_string s).

(** [String == str] *)
Fixpoint str_eqb (a b : str) : bool :=
  match a, b with
  | [], [] => true
  | x :: a', y :: b' => N.eqb x y && str_eqb a' b'
  | _, _ => false
  end.

Local Open Scope N_scope.

(** [char::is_whitespace] and the regex class [\s]: the Unicode property White_Space. *)
Definition is_ws (c : char) : bool :=
  ((9 <=? c) && (c <=? 13)) || (c =? 32) || (c =? 133) || (c =? 160) || (c =? 5760)
  || ((8192 <=? c) && (c <=? 8202)) || (c =? 8232) || (c =? 8233) || (c =? 8239)
  || (c =? 8287) || (c =? 12288).

(** Starts of the 10-character runs of general category Nd (Unicode 15.0), and the run
    of 50 mathematical digits.  This is the regex class [\d]. *)
Definition nd_starts : list N :=
  [48; 1632; 1776; 1984; 2406; 2534; 2662; 2790; 2918; 3046; 3174; 3302; 3430; 3558; 3664;
   3792; 3872; 4160; 4240; 6112; 6160; 6470; 6608; 6784; 6800; 6992; 7088; 7232; 7248; 42528;
   43216; 43264; 43472; 43504; 43600; 44016; 65296; 66720; 68912; 69734; 69872; 69942; 70096;
   70384; 70736; 70864; 71248; 71360; 71472; 71904; 72016; 72784; 73040; 73120; 73552; 92768;
   92864; 93008; 120782; 120792; 120802; 120812; 120822; 123200; 123632; 124144; 125264;
   130032].

Definition is_nd (c : char) : bool :=
  existsb (fun a => (a <=? c) && (c <=? a + 9)) nd_starts.

(** [str::trim_start] / [trim_end] / [trim]. *)
Fixpoint trim_start (s : str) : str :=
  match s with
  | c :: s' => if is_ws c then trim_start s' else s
  | [] => []
  end.
Definition trim_end (s : str) : str := rev (trim_start (rev s)).
Definition trim (s : str) : str := trim_end (trim_start s).

(** [str::split] with a char predicate: always at least one piece. *)
Fixpoint split_on (p : char -> bool) (s : str) : list str :=
  match s with
  | [] => [[]]
  | c :: s' =>
      if p c then [] :: split_on p s'
      else match split_on p s' with
           | h :: t => (c :: h) :: t
           | [] => [[c]]                     (* unreachable *)
           end
  end.

(** [s.find(c)] together with the two slices [s[..n]] and [s[n+1..]] (c is ASCII). *)
Fixpoint find_char (c : char) (s : str) : option (str * str) :=
  match s with
  | [] => None
  | x :: s' =>
      if x =? c then Some ([], s')
      else match find_char c s' with
           | Some (a, b) => Some (x :: a, b)
           | None => None
           end
  end.

(** [[String]::join]. *)
Fixpoint join (sep : str) (l : list str) : str :=
  match l with
  | [] => []
  | [s] => s
  | s :: l' => s ++ sep ++ join sep l'
  end.

(** [str::starts_with(char)] / [ends_with(char)]. *)
Definition starts_with (c : char) (s : str) : bool :=
  match s with x :: _ => x =? c | [] => false end.
Fixpoint ends_with (c : char) (s : str) : bool :=
  match s with
  | [] => false
  | [x] => x =? c
  | _ :: s' => ends_with c s'
  end.

Definition is_empty {A} (l : list A) : bool := match l with [] => true | _ => false end.

(** Decimal rendering of an unsigned integer ([format!("{}", i)]). *)
Fixpoint uint_str (d : Decimal.uint) : str :=
  match d with
  | Decimal.Nil => []
  | Decimal.D0 d => 48 :: uint_str d
  | Decimal.D1 d => 49 :: uint_str d
  | Decimal.D2 d => 50 :: uint_str d
  | Decimal.D3 d => 51 :: uint_str d
  | Decimal.D4 d => 52 :: uint_str d
  | Decimal.D5 d => 53 :: uint_str d
  | Decimal.D6 d => 54 :: uint_str d
  | Decimal.D7 d => 55 :: uint_str d
  | Decimal.D8 d => 56 :: uint_str d
  | Decimal.D9 d => 57 :: uint_str d
  end.
Definition dec_str (n : N) : str := uint_str (N.to_uint n).

(** ASCII digits *)
Definition is_digit (c : char) : bool := (48 <=? c) && (c <=? 57).

(** [core::num::IntErrorKind], with the text of [ParseIntError]'s Display. *)
Inductive int_err := IntEmpty | IntInvalidDigit | IntPosOverflow.
Definition int_err_msg (e : int_err) : str :=
  match e with
  | IntEmpty => lit "cannot parse integer from empty string"
  | IntInvalidDigit => lit "invalid digit found in string"
  | IntPosOverflow => lit "number too large to fit in target type"
  end.

(** core: the digit loop of [from_str_radix(_, 10)] for a type with maximum [max]. *)
Fixpoint parse_digits (max acc : N) (s : str) : N + int_err :=
  match s with
  | [] => inl acc
  | c :: s' =>
      if is_digit c then
        if max <? acc * 10 then inr IntPosOverflow
        else if max <? acc * 10 + (c - 48) then inr IntPosOverflow
        else parse_digits max (acc * 10 + (c - 48)) s'
      else inr IntInvalidDigit
  end.

(** core: [<usize as FromStr>::from_str] (for the maximum of the type); a leading
    plus is allowed, a lone sign is an invalid digit. *)
Definition parse_unsigned (max : N) (s : str) : N + int_err :=
  match s with
  | [] => inr IntEmpty
  | c :: s' =>
      if c =? 43 then
        match s' with
        | [] => inr IntInvalidDigit
        | _ => parse_digits max 0 s'
        end
      else parse_digits max 0 s
  end.

(** Finite maps with string keys ([HashMap<String, V>] up to iteration order):
    association lists in which each key occurs at most once. *)
Section Maps.
  Context {V : Type}.
  Definition smap := list (str * V).
  Fixpoint sm_get (k : str) (m : smap) : option V :=
    match m with
    | [] => None
    | (k', v) :: m' => if str_eqb k k' then Some v else sm_get k m'
    end.
  Fixpoint sm_insert (k : str) (v : V) (m : smap) : smap :=
    match m with
    | [] => [(k, v)]
    | (k', v') :: m' => if str_eqb k k' then (k, v) :: m' else (k', v') :: sm_insert k v m'
    end.
End Maps.
Arguments smap V : clear implicits.

(** Finite sets of strings ([HashSet<String>] up to iteration order). *)
Definition sset := list str.
Definition ss_mem (x : str) (s : sset) : bool := existsb (str_eqb x) s.
Definition ss_insert (x : str) (s : sset) : sset := if ss_mem x s then s else s ++ [x].

(** The compilation target: word size of [usize] and whether arithmetic overflow
    panics ([debug_assertions]/[overflow-checks]). *)
Record platform := Platform { usize_bits : N; overflow_checks : bool }.
Definition usize_max (pf : platform) : N := 2 ^ usize_bits pf - 1.
