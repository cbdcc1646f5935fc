(** Declarative vocabulary for lines of a PO file, independent of the model's regular
    expressions and functions. *)
From Coq Require Import String NArith Bool List.
From Verif Require Import ModelBase.
Import ListNotations.
Local Open Scope N_scope.

(** The Unicode White_Space characters. *)
Definition white_points : list char :=
  [9; 10; 11; 12; 13; 32; 133; 160; 5760; 8192; 8193; 8194; 8195; 8196; 8197; 8198; 8199;
   8200; 8201; 8202; 8232; 8233; 8239; 8287; 12288].
Definition white (c : char) : Prop := In c white_points.
Definition blanks (w : str) : Prop := forall c, In c w -> white c.
(** Not empty at the front / at the back of white space. *)
Definition not_white_first (s : str) : Prop := forall c s', s = c :: s' -> ~ white c.
Definition not_white_last (s : str) : Prop := forall c s', s = s' ++ [c] -> ~ white c.

(** A line: no line feed inside. *)
Definition one_line (s : str) : Prop := ~ In 10 s.

(** ** Escapes *)
(** letter after the backslash, character meant: n, r, t, quote, backslash *)
Definition escapes : list (char * char) := [(110, 10); (114, 13); (116, 9); (34, 34); (92, 92)].
Definition escape_letter (c : char) : Prop := exists v, In (c, v) escapes.

(** One left-to-right pass over the text. *)
Inductive unescapes : str -> str -> Prop :=
| ue_nil : unescapes [] []
| ue_escape c v s t : In (c, v) escapes -> unescapes s t -> unescapes (92 :: c :: s) (v :: t)
| ue_copy c s t :
    (c <> 92 \/ forall c' s', s = c' :: s' -> ~ escape_letter c') ->
    unescapes s t -> unescapes (c :: s) (c :: t).

(** How a PO writer escapes a string: mandatory escapes are quote, backslash and the
    three control characters. *)
Fixpoint escape (s : str) : str :=
  match s with
  | [] => []
  | c :: s' =>
      (if c =? 10 then [92; 110] else if c =? 13 then [92; 114] else if c =? 9 then [92; 116]
       else if c =? 34 then [92; 34] else if c =? 92 then [92; 92] else [c]) ++ escape s'
  end.

(** ** Lines with a quoted string *)
(** What may be written in front of a keyword, and the markers it stands for. *)
Inductive marker : str -> str -> Prop :=
| mk_none : marker [] []
| mk_hash : marker (lit "#") []
| mk_obsolete : marker (lit "#~") (lit "~")
| mk_previous : marker (lit "#|") (lit "|")
| mk_obsolete_previous : marker (lit "#~|") (lit "~|").

(** The zeros of the Unicode decimal digits (general category Nd); the digits 1 to 9 follow. *)
Definition digit_zeros : list char :=
  [48; 1632; 1776; 1984; 2406; 2534; 2662; 2790; 2918; 3046; 3174; 3302; 3430; 3558; 3664;
   3792; 3872; 4160; 4240; 6112; 6160; 6470; 6608; 6784; 6800; 6992; 7088; 7232; 7248; 42528;
   43216; 43264; 43472; 43504; 43600; 44016; 65296; 66720; 68912; 69734; 69872; 69942; 70096;
   70384; 70736; 70864; 71248; 71360; 71472; 71904; 72016; 72784; 73040; 73120; 73552; 92768;
   92864; 93008; 120782; 120792; 120802; 120812; 120822; 123200; 123632; 124144; 125264;
   130032].
Definition decimal_digit (c : char) : Prop := exists z, In z digit_zeros /\ z <= c <= z + 9.

(** Keywords; the index after msgstr is 0 or starts with 1-9 (the further digits may be
    any Unicode decimal digits). *)
Inductive keyword : str -> Prop :=
| kw_msgctxt : keyword (lit "msgctxt")
| kw_msgid : keyword (lit "msgid")
| kw_msgid_plural : keyword (lit "msgid_plural")
| kw_msgstr : keyword (lit "msgstr")
| kw_msgstr_0 : keyword (lit "msgstr[0]")
| kw_msgstr_n d ds : 49 <= d <= 57 -> (forall c, In c ds -> decimal_digit c) ->
    keyword (lit "msgstr[" ++ d :: ds ++ lit "]").

(** blanks marker blanks [keyword] blanks quote body quote blanks *)
Definition opt_str (o : option str) : str := match o with Some s => s | None => [] end.
Definition quoted_line (s flags : str) (kw : option str) (body : str) : Prop :=
  exists mark w1 w2 w3 w4,
    s = w1 ++ mark ++ w2 ++ opt_str kw ++ w3 ++ [34] ++ body ++ [34] ++ w4
    /\ marker mark flags /\ (forall k, kw = Some k -> keyword k)
    /\ blanks w1 /\ blanks w2 /\ blanks w3 /\ blanks w4 /\ one_line body.

(** The keyword as reported: a bar in front of it in a previous-message line. *)
Definition reported_tag (flags kw : str) : str :=
  if str_eqb flags (lit "|") || str_eqb flags (lit "~|") then 124 :: kw else kw.

(** ** Comment lines *)
(** blanks # kind blanks content *)
Definition comment_shape (s : str) (kind : char) (content : str) : Prop :=
  exists w1, blanks w1 /\
    ((s = w1 ++ [35] /\ kind = 32 /\ content = [])
     \/ exists w2, blanks w2 /\ not_white_first content
                   /\ s = w1 ++ [35; kind] ++ w2 ++ content).
