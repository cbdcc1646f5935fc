(** The structure of a PO file: entries as blocks of (parsed) lines, independent of the
    reader's functions. *)
From Coq Require Import String Arith NArith Bool List.
From Verif Require Import ModelBase ModelLine ModelFormula ModelData ModelSource SpecLine.
Import ListNotations.
Local Open Scope N_scope.

(** ** Fields *)
(** Markers of the keyword lines of an entry, and of those of its previous message. *)
Definition own (obsolete : bool) : str := if obsolete then lit "~" else [].
Definition prev (obsolete : bool) : str := own obsolete ++ lit "|".

(** The continuation lines of a field carry the same marker. *)
Inductive strings (flags : str) : list po_line -> str -> Prop :=
| st_nil : strings flags [] []
| st_cons n s ls t : strings flags ls t -> strings flags (PCont n flags s :: ls) (s ++ t).
Inductive field (flags kw : str) : list po_line -> str -> Prop :=
| fl_intro n s ls t : strings flags ls t ->
    field flags kw (PMessage n flags (reported_tag flags kw) s :: ls) (s ++ t).
Inductive opt_field (flags kw : str) : list po_line -> option str -> Prop :=
| of_none : opt_field flags kw [] None
| of_some ls s : field flags kw ls s -> opt_field flags kw ls (Some s).

(** The decimal digits of a number. *)
Inductive decimal : N -> str -> Prop :=
| dc_digit d : d < 10 -> decimal d [48 + d]
| dc_more m d s : 0 < m -> d < 10 -> decimal m s -> decimal (10 * m + d) (s ++ [48 + d]).
Definition msgstr_kw (i : N) (kw : str) : Prop := exists ds, decimal i ds /\ kw = lit "msgstr[" ++ ds ++ lit "]".
(** Translations of a plural entry: indices increase and are below the number of forms.
    [values flags count i ls vs]: the indices are at least [i]. *)
Inductive values (flags : str) (count : N) : N -> list po_line -> list str -> Prop :=
| vs_nil i : values flags count i [] []
| vs_cons i k kw ls s ls' vs : i <= k -> k < count -> msgstr_kw k kw -> field flags kw ls s ->
    values flags count (k + 1) ls' vs -> values flags count i (ls ++ ls') (s :: vs).

(** ** Messages *)
(** Without a definition of plural forms there are two. *)
Definition nforms (forms : option plural_forms) : N := match forms with Some f => pf_count f | None => 2 end.
Definition some_text (s : str) : option str := match s with [] => None | _ => Some s end.
Inductive body (forms : option plural_forms) (obs : bool) : list po_line -> message -> Prop :=
| bd_simple l1 id l2 text : field (own obs) (lit "msgid") l1 id -> field (own obs) (lit "msgstr") l2 text ->
    body forms obs (l1 ++ l2) (MSimple id (some_text text))
| bd_plural l1 id l2 pl l3 vs : field (own obs) (lit "msgid") l1 id -> field (own obs) (lit "msgid_plural") l2 pl ->
    values (own obs) (nforms forms) 0 l3 vs -> vs <> [] ->
    body forms obs (l1 ++ l2 ++ l3) (MPlural (Plural forms id pl vs)).
Inductive previous (forms : option plural_forms) (obs : bool) : list po_line -> message -> Prop :=
| pv_none : previous forms obs [] (MSimple [] None)
| pv_simple l id : field (prev obs) (lit "msgid") l id -> previous forms obs l (MSimple id None)
| pv_plural l1 id l2 pl : field (prev obs) (lit "msgid") l1 id -> field (prev obs) (lit "msgid_plural") l2 pl ->
    previous forms obs (l1 ++ l2) (MPlural (Plural forms id pl [])).

(** ** Comments *)
(** Comma-separated, trimmed flags. *)
Definition trims_to (p f : str) : Prop :=
  exists w w', p = w ++ f ++ w' /\ blanks w /\ blanks w' /\ not_white_first f /\ not_white_last f.
Fixpoint separated (sep : char) (ps : list str) : str :=
  match ps with
  | [] => []
  | [p] => p
  | p :: ps' => p ++ sep :: separated sep ps'
  end.
Definition flag_list (s : str) (fs : list str) : Prop :=
  exists ps, ps <> [] /\ s = separated 44 ps /\ (forall p, In p ps -> ~ In 44 p) /\ Forall2 trims_to ps fs.
(** White-space separated words. *)
Inductive words : str -> list str -> Prop :=
| wd_end w : blanks w -> words w []
| wd_word w x r ws : blanks w -> x <> [] -> (forall c, In c x -> ~ white c) ->
    (forall c r', r = c :: r' -> white c) -> words r ws -> words (w ++ x ++ r) (x :: ws).

(** [block_comments ls F N L C]: the comment lines [ls] give the flags [F], notes [N],
    locations [L] and other comments [C]. *)
Inductive block_comments : list po_line -> list str -> list note -> list str -> list comment -> Prop :=
| bc_nil : block_comments [] [] [] [] []
| bc_flags n s fs ls F N L C : flag_list s fs -> block_comments ls F N L C ->
    block_comments (PComment n 44 s :: ls) (fs ++ F) N L C
| bc_locations n s ws ls F N L C : words s ws -> block_comments ls F N L C ->
    block_comments (PComment n 58 s :: ls) F N (ws ++ L) C
| bc_developer n s ls F N L C : block_comments ls F N L C ->
    block_comments (PComment n 46 s :: ls) F (Note Developer s :: N) L C
| bc_translator n s ls F N L C : block_comments ls F N L C ->
    block_comments (PComment n 32 s :: ls) F (Note Translator s :: N) L C
| bc_other n k s ls F N L C : ~ In k [44; 58; 46; 32] -> block_comments ls F N L C ->
    block_comments (PComment n k s :: ls) F N L (Comment k s :: C).

(** ** Entries *)
(** The elements in the order of their first occurrence. *)
Fixpoint distinct (l : list str) : list str :=
  match l with
  | [] => []
  | x :: l' => x :: filter (fun y => negb (str_eqb x y)) (distinct l')
  end.
Definition translations (m : message) : list str :=
  match m with MSimple _ (Some t) => [t] | MSimple _ None => [] | MPlural p => pl_values p end.
Inductive state_of (F : list str) (m : message) : state -> Prop :=
| so_fuzzy : In (lit "fuzzy") F -> state_of F m StNeedsWork
| so_final t : ~ In (lit "fuzzy") F -> In t (translations m) -> t <> [] -> state_of F m StFinal
| so_empty : ~ In (lit "fuzzy") F -> (forall t, In t (translations m) -> t = []) -> state_of F m StEmpty.

(** The keyword lines of an entry: all with the marker of obsolete entries, or all without. *)
Inductive keywords (forms : option plural_forms) (obs : bool) :
  list po_line -> option str -> message -> option str -> message -> Prop :=
| kws_intro l1 pc l2 pm l3 c l4 m :
    opt_field (prev obs) (lit "msgctxt") l1 pc -> previous forms obs l2 pm ->
    opt_field (own obs) (lit "msgctxt") l3 c -> body forms obs l4 m ->
    keywords forms obs (l1 ++ l2 ++ l3 ++ l4) pc pm c m.
(** Comment lines, then keyword lines. *)
Inductive entry (forms : option plural_forms) : list po_line -> unit_ -> Prop :=
| en_intro cs F N L C obs ks pc pm c m st :
    block_comments cs F N L C -> keywords forms obs ks pc pm c m -> state_of F m st ->
    entry forms (cs ++ ks) (Unit c m pc pm (distinct F) N L C st obs).

(** Lines an entry may begin with. *)
Definition viable (forms : option plural_forms) (p : list po_line) : Prop := exists q u, entry forms (p ++ q) u.
(** The lines of an entry up to its msgid. *)
Inductive opening (forms : option plural_forms) (obs : bool) : list po_line -> Prop :=
| og_intro cs F N L C l1 pc l2 pm l3 c :
    block_comments cs F N L C -> opt_field (prev obs) (lit "msgctxt") l1 pc -> previous forms obs l2 pm ->
    opt_field (own obs) (lit "msgctxt") l3 c -> opening forms obs (cs ++ l1 ++ l2 ++ l3).
(** The keyword that must come next (or later) in an unfinished entry. *)
Inductive awaited (forms : option plural_forms) : list po_line -> str -> Prop :=
| aw_id obs p : opening forms obs p -> awaited forms p (lit "msgid")
| aw_str obs p l id : opening forms obs p -> field (own obs) (lit "msgid") l id -> awaited forms (p ++ l) (lit "msgstr")
| aw_forms obs p l id l' pl : opening forms obs p -> field (own obs) (lit "msgid") l id ->
    field (own obs) (lit "msgid_plural") l' pl -> awaited forms (p ++ l ++ l') (lit "msgstr[0]").
(** Unfinished entries. *)
Definition incomplete (forms : option plural_forms) (p : list po_line) : Prop := exists w, awaited forms p w.
(** Beginnings of entries.  (The second case is included in the first unless the number of
    plural forms is 0, when a plural entry cannot be finished.) *)
Definition begun (forms : option plural_forms) (p : list po_line) : Prop := viable forms p \/ incomplete forms p.
(** Keyword lines without msgid, and what is made of them at the beginning of a file. *)
Inductive headless (forms : option plural_forms) : list po_line -> unit_ -> Prop :=
| hl_intro cs F N L C obs l1 pc l2 pm l3 c l4 t st :
    block_comments cs F N L C -> opt_field (prev obs) (lit "msgctxt") l1 pc -> previous forms obs l2 pm ->
    opt_field (own obs) (lit "msgctxt") l3 c -> opt_field (own obs) (lit "msgid_plural") l4 t ->
    state_of F (MSimple [] None) st ->
    headless forms (cs ++ l1 ++ l2 ++ l3 ++ l4) (Unit c (MSimple [] None) pc pm (distinct F) N L C st obs).
(** No simple message with an empty id. *)
Definition has_source (u : unit_) : Prop := forall text, u_message u <> MSimple [] text.
Definition unit_entry (forms : option plural_forms) (b : list po_line) (u : unit_) : Prop := entry forms b u /\ has_source u.

(** What is shown of an unexpected line. *)
Definition shown (l : po_line) : str :=
  match l with
  | PBlank => []
  | PComment _ k _ => [35; k]
  | PMessage _ p _ _ => p
  | PCont _ _ _ => [34]
  end.

(** ** Whole files *)
(** [b] cannot be extended with what follows: lines [r], then the end of the file
    ([tl = None]) or a failure. *)
Definition ends_at (forms : option plural_forms) (b r : list po_line) (tl : option error) : Prop :=
  match r with [] => tl = None | l :: _ => ~ viable forms (b ++ [l]) end.
(** Where reading ends: at the end of the file; at a failure; at a line that does not fit;
    at an entry without source.  The last argument is the error delivered. *)
Inductive closing (forms : option plural_forms) : list po_line -> option error -> option error -> Prop :=
| cl_end rest : incomplete forms rest -> closing forms rest None None
| cl_fail rest e : begun forms rest -> closing forms rest (Some e) (Some e)
| cl_line inc w l r tl : awaited forms inc w -> ~ begun forms (inc ++ [l]) ->
    closing forms (inc ++ l :: r) tl (Some (EParse (po_line_no l) (shown l) w))
| cl_empty cs F N L C obs k ks pc pm c text r tl :
    block_comments cs F N L C -> keywords forms obs (k :: ks) pc pm c (MSimple [] text) ->
    ends_at forms (cs ++ k :: ks) r tl ->
    closing forms ((cs ++ k :: ks) ++ r) tl (Some (EUnexpected (po_line_no k) (lit "Source should not be empty"))).
(** [blocks forms pl tl us o]: the lines [pl] are entries with the contents [us], then
    reading ends as said. *)
Inductive blocks (forms : option plural_forms) : list po_line -> option error -> list unit_ -> option error -> Prop :=
| bk_close rest tl o : closing forms rest tl o -> blocks forms rest tl [] o
| bk_entry b u r tl us o : unit_entry forms b u -> ends_at forms b r tl -> blocks forms r tl us o ->
    blocks forms (b ++ r) tl (u :: us) o.

(** What a line of text is: blank, a keyword or continuation line with a quoted string, or a
    comment.  (A line may look like a comment and like a keyword line; then it is the latter.) *)
Inductive line_of (s : str) (n : N) : po_line -> Prop :=
| ln_blank : blanks s -> line_of s n PBlank
| ln_message flags kw quoted text : quoted_line s flags (Some kw) quoted -> unescapes quoted text ->
    line_of s n (PMessage n flags (reported_tag flags kw) text)
| ln_cont flags quoted text : quoted_line s flags None quoted -> unescapes quoted text -> line_of s n (PCont n flags text)
| ln_comment kind content : comment_shape s kind content -> (forall flags kw quoted, ~ quoted_line s flags kw quoted) ->
    line_of s n (PComment n kind content).
(** The lines of a file, blank ones left out, numbered from [n]; then the end of the file,
    or a failure of the stream, or a line that is not acceptable. *)
Inductive parsed : N -> list str -> option ioerr -> list po_line -> option error -> Prop :=
| ps_end n : parsed n [] None [] None
| ps_fail n e : parsed n [] (Some e) [] (Some (EIo n e))
| ps_bad n s ls e : one_line s -> (forall l, ~ line_of s n l) -> parsed n (s :: ls) e [] (Some (EParse (n + 1) s []))
| ps_blank n s ls e pl tl : one_line s -> line_of s n PBlank -> parsed (n + 1) ls e pl tl -> parsed n (s :: ls) e pl tl
| ps_line n s l ls e pl tl : one_line s -> line_of s n l -> l <> PBlank -> parsed (n + 1) ls e pl tl ->
    parsed n (s :: ls) e (l :: pl) tl.
