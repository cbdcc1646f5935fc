(** Declarative vocabulary for byte streams, UTF-8 and text lines. *)
From Coq Require Import NArith Bool List.
From Verif Require Import ModelBase ModelUtf8 ModelLine ModelData ModelSource SpecLine.
Import ListNotations.
Local Open Scope N_scope.

(** ** UTF-8 (RFC 3629) *)
(** Unicode scalar values: everything up to U+10FFFF but the surrogates. *)
Definition scalar (c : char) : Prop := c < 55296 \/ (57344 <= c /\ c < 1114112).
Definition scalars (s : str) : Prop := forall c, In c s -> scalar c.
Definition encode_char (c : char) : list byte :=
  if c <? 128 then [c]
  else if c <? 2048 then [192 + c / 64; 128 + c mod 64]
  else if c <? 65536 then [224 + c / 4096; 128 + c / 64 mod 64; 128 + c mod 64]
  else [240 + c / 262144; 128 + c / 4096 mod 64; 128 + c / 64 mod 64; 128 + c mod 64].
Definition utf8 (s : str) : list byte := flat_map encode_char s.
Definition not_utf8 (bs : list byte) : Prop := forall s, scalars s -> bs <> utf8 s.

(** ** What a stream delivers *)
(** [delivers evs bs f]: in chunks of any positive size and with any number of interrupted
    reads the stream delivers the bytes [bs]; then it ends ([f = None], the end being
    reported any number of times) or fails with an I/O error ([f = Some code]). *)
Inductive delivers : list rd_event -> list byte -> option N -> Prop :=
| dl_end : delivers [] [] None
| dl_fail code evs : delivers (RdError code :: evs) [] (Some code)
| dl_interrupted evs bs f : delivers evs bs f -> delivers (RdInterrupted :: evs) bs f
| dl_data d evs bs f : d <> [] -> delivers evs bs f -> delivers (RdData d :: evs) (d ++ bs) f
| dl_again evs : delivers evs [] None -> delivers (RdData [] :: evs) [] None.

(** [pieces evs bs f]: every stream, also one that goes on after a report of its end; [bs] are
    the bytes before, between and after these reports, [f] is the failure at the end. *)
Inductive pieces : list rd_event -> list (list byte) -> option N -> Prop :=
| pc_end : pieces [] [[]] None
| pc_fail code evs : pieces (RdError code :: evs) [[]] (Some code)
| pc_interrupted evs bs f : pieces evs bs f -> pieces (RdInterrupted :: evs) bs f
| pc_data d evs b bs f : d <> [] -> pieces evs (b :: bs) f -> pieces (RdData d :: evs) ((d ++ b) :: bs) f
| pc_report evs bs f : pieces evs bs f -> pieces (RdData [] :: evs) ([] :: bs) f.
(** Nothing, or complete lines. *)
Definition terminated (b : list byte) : Prop := b = [] \/ exists b', b = b' ++ [10].

(** ** Text lines *)
Definition ends_with_cr (s : str) : Prop := exists s', s = s' ++ [13].
(** LF, or CR LF, or the end of the stream, end a line. *)
Inductive eol (s : str) : list byte -> Prop :=
| eol_lf : ~ ends_with_cr s -> eol s [10]
| eol_crlf : eol s [13; 10].

(** [contents bs f ls e]: the bytes [bs] followed by the end ([f = None]) or by the failure
    [f] of the stream consist of the text lines [ls], after which comes the end
    ([e = None]), or a line that is not UTF-8, or the failure. *)
Inductive contents : list byte -> option N -> list str -> option ioerr -> Prop :=
| ct_end : contents [] None [] None
| ct_last s : s <> [] -> one_line s -> scalars s -> contents (utf8 s) None [s] None
| ct_last_bad l : ~ In 10 l -> not_utf8 l -> contents l None [] (Some IoInvalidUtf8)
| ct_fail l code : ~ In 10 l -> contents l (Some code) [] (Some (IoRead code))
| ct_line s t bs f ls e :
    one_line s -> scalars s -> eol s t -> contents bs f ls e ->
    contents (utf8 s ++ t ++ bs) f (s :: ls) e
| ct_bad l bs f : ~ In 10 l -> not_utf8 l -> contents (l ++ 10 :: bs) f [] (Some IoInvalidUtf8).

(** ** Text files *)
(** The lines of a file, each ended by LF or CR LF; the last one may be unterminated. *)
Definition text_line (s : str) : Prop := one_line s /\ scalars s /\ ~ ends_with_cr s.
Inductive text_file : list str -> list byte -> Prop :=
| tf_end : text_file [] []
| tf_last s : text_file [s] (utf8 s)
| tf_lf s ls bs : text_file ls bs -> text_file (s :: ls) (utf8 s ++ [10] ++ bs)
| tf_crlf s ls bs : text_file ls bs -> text_file (s :: ls) (utf8 s ++ [13; 10] ++ bs).

(** ** Spacing *)
(** [respaced n n' c ls ls']: the lines [ls] numbered from [n] and [ls'] numbered from [n'] are
    the same up to blank lines and indentation; [c] lists the numbers of corresponding lines
    (the ends of both texts correspond, too). *)
Inductive respaced : N -> N -> list (N * N) -> list str -> list str -> Prop :=
| rs_end n n' : respaced n n' [(n, n')] [] []
| rs_line n n' c w w' s ls ls' : blanks w -> blanks w' -> respaced (n + 1) (n' + 1) c ls ls' ->
    respaced n n' ((n, n') :: c) ((w ++ s) :: ls) ((w' ++ s) :: ls')
| rs_left n n' c w ls ls' : blanks w -> respaced (n + 1) n' c ls ls' -> respaced n n' c (w :: ls) ls'
| rs_right n n' c w ls ls' : blanks w -> respaced n (n' + 1) c ls ls' -> respaced n n' c ls (w :: ls').
(** Numbers of corresponding lines, or of the lines after them. *)
Definition corresponding (c : list (N * N)) (n n' : N) : Prop :=
  In (n, n') c \/ exists m m', In (m, m') c /\ n = m + 1 /\ n' = m' + 1.
(** The same text up to indentation. *)
Definition indented (x y : str) : Prop := exists w w' s, blanks w /\ blanks w' /\ x = w ++ s /\ y = w' ++ s.

(** ** Calls of the line iterator *)
(** The result of the k-th call of [next] (counted from 0). *)
Fixpoint poll (k : nat) (it : line_iter) : option item :=
  match k with
  | O => fst (li_next it)
  | S k' => poll k' (snd (li_next it))
  end.
