(** Whole files: from a stream to the lines, the header and the entries. *)
From Coq Require Import String Arith NArith ZArith Bool List.
From Verif Require Import ModelBase ModelUtf8 ModelLine ModelFormula ModelData ModelSource ModelReader
  SpecLine SpecFormula SpecSource SpecReader SpecBlock SpecHeader.
Import ListNotations.
Local Open Scope N_scope.

(** The text lines [ls] of a stream (and the failure [e] that ends it), and its non-blank
    lines [pl] (see [line_of]), up to the first one
    that is not acceptable or the failure ([tl]). *)
Definition file (evs : list rd_event) (ls : list str) (e : option ioerr) (pl : list po_line) (tl : option error) : Prop :=
  exists bs f, delivers evs bs f /\ contents bs f ls e /\ parsed 1 ls e pl tl.
(** What successive calls of the line iterator return for the pieces [bs] of a stream, lines
    numbered from [n]: the non-blank lines of a piece, then nothing, once, if the piece is
    [terminated]; else its last line ends with the piece and the next line follows at once.
    After a failure there is nothing more. *)
Inductive answers : N -> list (list byte) -> option N -> list (option item) -> Prop :=
| an_last n b f ls e pl tl : contents b f ls e -> parsed n ls e pl tl ->
    answers n [b] f (map (fun l => Some (ILine l)) pl ++ match tl with Some e => [Some (IFail e)] | None => [] end)
| an_stop n b b' bs f ls e pl x : contents b None ls e -> parsed n ls e pl (Some x) ->
    answers n (b :: b' :: bs) f (map (fun l => Some (ILine l)) pl ++ [Some (IFail x)])
| an_report n b bs f ls pl rs : contents b None ls None -> parsed n ls None pl None -> terminated b ->
    answers (n + N.of_nat (length ls)) bs f rs -> answers n (b :: bs) f (map (fun l => Some (ILine l)) pl ++ None :: rs)
| an_go_on n b bs f ls pl rs : contents b None ls None -> parsed n ls None pl None -> ~ terminated b ->
    answers (n + N.of_nat (length ls)) bs f rs -> answers n (b :: bs) f (map (fun l => Some (ILine l)) pl ++ rs).

(** Consecutive blocks, one per unit, perhaps followed by an unfinished entry. *)
Definition entries (forms : option plural_forms) (r : list po_line) (us : list unit_) : Prop :=
  exists bls tail, r = concat bls ++ tail /\ Forall2 (unit_entry forms) bls us /\ incomplete forms tail.

(** A header: no id; its text gives properties. *)
Definition header (u : unit_) (ps : list (str * str)) : Prop :=
  exists t, u_message u = MSimple [] t /\ header_pairs (opt_str t) ps.
(** What is shown of a file without, and with a header. *)
Definition no_header (lib : lang_lib) (c : catalogue) : Prop :=
  c_notes c = [] /\ c_comments c = [] /\ (forall k, sm_get k (c_properties c) = None) /\ c_language c = lang_invariant lib.
Definition header_shown (lib : lang_lib) (u : unit_) (ps : list (str * str)) (c : catalogue) : Prop :=
  c_notes c = u_notes u /\ c_comments c = u_comments u /\ (forall k, sm_get k (c_properties c) = property ps k)
  /\ language_of lib ps (c_language c).
(** The first entry of a file, [h], may lack its msgid (see [headless]).  It goes on as long as
    the lines allow: the first line of the rest [r] belongs neither to an entry that begins
    with [h] nor to another one of this kind; at the end of the file ([tl = None]) comments
    alone are not such an entry. *)
Definition comment_line (l : po_line) : Prop := match l with PComment _ _ _ => True | _ => False end.
Definition headless_ends (h r : list po_line) (tl : option error) : Prop :=
  match r with
  | [] => tl = None /\ ~ Forall comment_line h
  | l :: _ => ~ begun None (h ++ [l]) /\ forall u, ~ headless None (h ++ [l]) u
  end.
Inductive first_entry (h r : list po_line) (tl : option error) (u : unit_) : Prop :=
| fe_entry : entry None h u -> ends_at None h r tl -> first_entry h r tl u
| fe_headless : headless None h u -> headless_ends h r tl -> first_entry h r tl u.

(** [preamble lib pf h r tl forms c]: the lines [h] in front of the units, which are in the
    lines [r], are nothing, or a header (perhaps without msgid); [forms] are the plural forms
    it defines. *)
Inductive preamble (lib : lang_lib) (pf : platform) : list po_line -> list po_line -> option error -> option plural_forms -> catalogue -> Prop :=
| pa_none r tl c : no_header lib c -> preamble lib pf [] r tl None c
| pa_header h r tl u ps forms c : first_entry h r tl u -> header u ps -> header_forms_of pf ps forms ->
    header_shown lib u ps c -> preamble lib pf h r tl forms c.
(** [unit_at lib pf pl tl c k forms b u]: the item [k] of the catalogue [c], counted from 0, is
    the unit [u]; it is the content of the lines [b], which follow those of the units before it. *)
Inductive unit_at (lib : lang_lib) (pf : platform) (pl : list po_line) (tl : option error) (c : catalogue) (k : nat)
    (forms : option plural_forms) (b : list po_line) (u : unit_) : Prop :=
| ua_intro h bls r us items : pl = h ++ concat bls ++ b ++ r -> preamble lib pf h (concat bls ++ b ++ r) tl forms c ->
    Forall2 (unit_entry forms) bls us -> length us = k -> c_items c = map UOk us ++ UOk u :: items ->
    unit_entry forms b u -> ends_at forms b r tl -> unit_at lib pf pl tl c k forms b u.

(** [heading pf h r tl forms us]: what a file may begin with so that the units [us] can follow
    in the lines [r]: a header [h], which defines the plural forms, or no lines at all. *)
Inductive heading (pf : platform) : list po_line -> list po_line -> option error -> option plural_forms -> list unit_ -> Prop :=
| he_none r tl u us : heading pf [] r tl None (u :: us)
| he_header h r tl u ps forms us : first_entry h r tl u -> header u ps -> header_forms_of pf ps forms ->
    heading pf h r tl forms us.

(** The block [b] has lines for form [i] (msgstr[i]), which together give the text [s]. *)
Definition form_at (b : list po_line) (i : N) (s : str) : Prop :=
  exists a obs kw ls c, b = a ++ ls ++ c /\ msgstr_kw i kw /\ field (own obs) kw ls s /\ forall n x c', c <> PCont n (own obs) x :: c'.
(** Keyword lines and continuation lines that do not begin an entry. *)
Definition inner_line (l : po_line) : Prop :=
  match l with
  | PMessage _ _ t _ => ~ In t [lit "msgctxt"; lit "msgid"; lit "|msgctxt"; lit "|msgid"]
  | PCont _ _ _ => True
  | _ => False
  end.

(** [s] is the [n]-th line. *)
Definition line_at (ls : list str) (n : N) (s : str) : Prop := exists a b, ls = a ++ s :: b /\ n = 1 + N.of_nat (length a).
(** [l] is what the line of its number is read as. *)
Definition stands (ls : list str) (l : po_line) : Prop :=
  exists s, line_at ls (po_line_no l) s /\ line_of s (po_line_no l) l.
(** The errors of a file with the lines [ls] (read as [pl]) and what they point to. *)
Inductive located (pf : platform) (ls : list str) (e : option ioerr) (pl : list po_line) : error -> Prop :=
(** a failure of the stream, in the line after the complete ones *)
| lo_failure x : e = Some x -> located pf ls e pl (EIo (1 + N.of_nat (length ls)) x)
(** a line that is not acceptable: the number is that of the line after it *)
| lo_unreadable n s : line_at ls n s -> (forall l, ~ line_of s n l) -> located pf ls e pl (EParse (n + 1) s [])
(** a line [l] that does not fit after the unfinished entry [inc], which awaits [w] *)
| lo_unfit forms a inc l r w : pl = a ++ inc ++ l :: r -> awaited forms inc w -> ~ begun forms (inc ++ [l]) ->
    stands ls l -> located pf ls e pl (EParse (po_line_no l) (shown l) w)
(** an entry with an empty id (that is not the header): the number is that of its first keyword line *)
| lo_sourceless forms a cs F N L C obs k ks pc pm c text r : pl = a ++ (cs ++ k :: ks) ++ r ->
    block_comments cs F N L C -> keywords forms obs (k :: ks) pc pm c (MSimple [] text) -> stands ls k ->
    located pf ls e pl (EUnexpected (po_line_no k) (lit "Source should not be empty"))
(** a bad definition of plural forms in the header [h]: no line number *)
| lo_list h r u ps def : pl = h ++ r -> entry None h u -> header u ps -> property ps (lit "Plural-Forms") = Some def -> def <> [] ->
    ~ definition_list def -> located pf ls e pl (EUnexpected 0 (lit "Bad value list definition: `" ++ def ++ lit "`"))
| lo_forms h r u ps def m : pl = h ++ r -> entry None h u -> header u ps -> property ps (lit "Plural-Forms") = Some def -> def <> [] ->
    definition_list def -> (forall f, ~ forms_of pf def f) -> located pf ls e pl (EPluralForms m).

(** ** Strings cut into pieces *)
(** The same lines but for how the strings are cut into continuation lines.  [Rn] relates
    the numbers of corresponding lines: comments, keyword lines and continuation lines that
    do not belong to the keyword line before them. *)
Definition not_continued (p : str) (ls : list po_line) : Prop := forall n s r, ls <> PCont n p s :: r.
Inductive resplit (Rn : N -> N -> Prop) : list po_line -> list po_line -> Prop :=
| rs_nil : resplit Rn [] []
| rs_comment n n' k s a b : Rn n n' -> resplit Rn a b -> resplit Rn (PComment n k s :: a) (PComment n' k s :: b)
| rs_field n n' p t s s' cs cs' x x' a b : Rn n n' -> strings p cs x -> strings p cs' x' -> s ++ x = s' ++ x' ->
    not_continued p a -> not_continued p b -> resplit Rn a b ->
    resplit Rn (PMessage n p t s :: cs ++ a) (PMessage n' p t s' :: cs' ++ b)
| rs_stray n n' p s a b : Rn n n' -> resplit Rn a b -> resplit Rn (PCont n p s :: a) (PCont n' p s :: b).
Inductive same_end (Rn : N -> N -> Prop) : option error -> option error -> Prop :=
| se_end : same_end Rn None None
| se_fail e e' : error_sim Rn eq e e' -> same_end Rn (Some e) (Some e').

(** ** Entries as text *)
(** The text lines of one entry, wherever they stand, and its content. *)
Definition entry_text (forms : option plural_forms) (ls : list str) (u : unit_) : Prop :=
  exists b, parsed 1 ls None b None /\ unit_entry forms b u.
(** The text lines of a header, its properties and the plural forms it defines. *)
Definition heading_text (pf : platform) (ls : list str) (v : unit_) (ps : list (str * str)) (forms : option plural_forms) : Prop :=
  exists h, parsed 1 ls None h None /\ entry None h v /\ header v ps /\ header_forms_of pf ps forms.

(** ** Errors *)
(** The errors of the iteration: a failure of the stream, an unacceptable line, a line that
    does not fit, an entry without source. *)
Inductive iteration_error : error -> Prop :=
| ie_failure n x : 0 < n -> iteration_error (EIo n x)
| ie_line n s : 1 < n -> iteration_error (EParse n s [])
| ie_keyword n s w : 0 < n -> In w [lit "msgid"; lit "msgstr"; lit "msgstr[0]"] -> iteration_error (EParse n s w)
| ie_source n : 0 < n -> iteration_error (EUnexpected n (lit "Source should not be empty")).
(** The errors of a bad header. *)
Inductive header_error (pf : platform) (ps : list (str * str)) : error -> Prop :=
| her_list def : property ps (lit "Plural-Forms") = Some def -> def <> [] -> ~ definition_list def ->
    header_error pf ps (EUnexpected 0 (lit "Bad value list definition: `" ++ def ++ lit "`"))
| her_forms def m : property ps (lit "Plural-Forms") = Some def -> def <> [] -> definition_list def -> (forall f, ~ forms_of pf def f) ->
    header_error pf ps (EPluralForms m).

(** The keyword lines msgid (not those of previous messages). *)
Definition msgid_line (l : po_line) : bool :=
  match l with PMessage _ _ t _ => str_eqb t (lit "msgid") | _ => false end.
Definition msgid_lines (pl : list po_line) : nat := length (filter msgid_line pl).
