(** The reader: src/po/decoder.rs, src/po/message_extractor.rs, src/po/reader.rs. *)
From Coq Require Import String Arith NArith Bool List.
From Verif Require Import ModelBase ModelUtf8 ModelLine ModelFormula ModelData ModelSource.
Import ListNotations.

(** Results of the functions that consume lines: outcome and remaining lines. *)
Definition res (A : Type) : Type := outcome A * lines.

(** The [?] operator *)
Definition bind {A B} (m : res A) (f : A -> lines -> res B) : res B :=
  match m with
  | (Ok a, ls) => f a ls
  | (Err e, ls) => (Err e, ls)
  | (Panic, ls) => (Panic, ls)
  end.
Notation "'do' x , l <- m ; f" := (bind m (fun x l => f))
  (at level 200, x pattern, l name, m at level 100, f at level 200, right associativity).

(** * src/po/decoder.rs *)

(** decoder.rs:6-15 [fetch_next] *)
Definition fetch_next (ls : lines) : res (option po_line) :=
  match peek ls with
  | Some (ILine l) => (Ok (Some l), ls)
  | _ =>
      match next ls with
      | (Some (IFail e), ls') => (Err e, ls')
      | (_, ls') => (Ok None, ls')
      end
  end.

(** decoder.rs:38-51, the [while let] loop of [parse_msg].  The cases of [fetch_next] are
    written out so that the recursion is on the list; [self.next().unwrap().unwrap()]
    takes the element which was just peeked. *)
Fixpoint append_conts (prefix string : str) (ls : lines) : res (option str) :=
  match ls with
  | Some (ILine (PCont _ p s)) :: ls' =>
      if str_eqb p prefix then append_conts prefix (string ++ s) ls'
      else (Ok (Some string), ls)
  | Some (ILine _) :: _ => (Ok (Some string), ls)
  | Some (IFail e) :: ls' => (Err e, ls')
  | None :: ls' => (Ok (Some string), ls')
  | [] => (Ok (Some string), [])
  end.

(** decoder.rs:23-54 [parse_msg] *)
Definition parse_msg (obsolete : bool) (tag : str) (ls : lines) : res (option str) :=
  do l, ls <- fetch_next ls;
  match l with
  | Some (PMessage _ p t _) =>
      if str_eqb t tag && Bool.eqb (starts_with 126%N p) obsolete then
        match next ls with
        | (Some (ILine (PMessage _ p s_tag s)), ls') => append_conts p s ls'
        | (_, ls') => (Panic, ls')                (* unwrap of None/Err, unreachable!() *)
        end
      else (Ok None, ls)
  | _ => (Ok None, ls)
  end.

(** decoder.rs:56-70 [expected] *)
Definition expected (exp : str) (ls : lines) : res unit :=
  match peek ls with
  | None | Some (ILine PBlank) => (Ok tt, ls)
  | Some (IFail _) =>
      match next ls with
      | (Some (IFail e), ls') => (Err e, ls')
      | (_, ls') => (Panic, ls')                  (* unreachable!() *)
      end
  | Some (ILine (PMessage n p _ _)) => (Err (EParse n p exp), ls)
  | Some (ILine (PCont n _ _)) => (Err (EParse n (lit """") exp), ls)
  | Some (ILine (PComment n c _)) => (Err (EParse n (35%N :: [c]) exp), ls)
  end.

(** * src/po/message_extractor.rs *)

(** message_extractor.rs:83, [format!("msgstr[{}]", i)] *)
Definition msgstr_tag (i : N) : str := lit "msgstr[" ++ dec_str i ++ lit "]".

(** message_extractor.rs:82-86, the [for i in 0..count] loop: [k] iterations are left *)
Fixpoint parse_values (obsolete : bool) (k : nat) (i : N) (values : list str) (ls : lines)
  : res (list str) :=
  match k with
  | O => (Ok values, ls)
  | S k' =>
      do v, ls <- parse_msg obsolete (msgstr_tag i) ls;
      parse_values obsolete k' (i + 1)%N (match v with Some v => values ++ [v] | None => values end) ls
  end.

(** message_extractor.rs:80 *)
Definition forms_count (forms : option plural_forms) : N :=
  match forms with Some f => pf_count f | None => 2 end.

(** message_extractor.rs:70-110 [new_message] *)
Definition new_message (forms : option plural_forms) (obsolete : bool)
  (msgid msgid_pl : option str) (ls : lines) : res (option message) :=
  match msgid with
  | None => (Ok (Some message_default), ls)
  | Some singular =>
      match msgid_pl with
      | Some pl =>
          do values, ls <- parse_values obsolete (N.to_nat (forms_count forms)) 0%N [] ls;
          if is_empty values then
            do _, ls <- expected (lit "msgstr[0]") ls;
            (Ok None, ls)
          else (Ok (Some (MPlural (plural_new singular pl values forms))), ls)
      | None =>
          do t, ls <- parse_msg obsolete (lit "msgstr") ls;
          match t with
          | Some text =>
              (Ok (Some (MSimple singular (if is_empty text then None else Some text))), ls)
          | None =>
              do _, ls <- expected (lit "msgstr") ls;
              (Ok None, ls)
          end
      end
  end.

(** message_extractor.rs:112-123 [new_previous] *)
Definition new_previous (forms : option plural_forms) (msgid msgid_pl : option str) : message :=
  match msgid with
  | None => message_default
  | Some singular =>
      match msgid_pl with
      | None => MSimple singular None
      | Some pl => MPlural (plural_new singular pl [] forms)
      end
  end.

(** message_extractor.rs:61-65 *)
Definition set_message (u : unit_) (prev_context : option str) (prev_message : message)
  (context : option str) (msg : message) : unit_ :=
  Unit context msg prev_context prev_message (u_flags u) (u_notes u) (u_locations u)
       (u_comments u) (u_state u) (u_obsolete u).

(** message_extractor.rs:25-68 [parse_message_fields] *)
Definition parse_message_fields (forms : option plural_forms) (first : bool) (u : unit_)
  (ls : lines) : res (option unit_) :=
  let parse_msg := parse_msg (u_obsolete u) in
  do prev_context, ls <- parse_msg (lit "|msgctxt") ls;
  do prev_msgid, ls <- parse_msg (lit "|msgid") ls;
  do prev_msgid_pl, ls <-
    match prev_msgid with
    | Some _ => parse_msg (lit "|msgid_plural") ls
    | None => (Ok None, ls)
    end;
  let prev_message := new_previous forms prev_msgid prev_msgid_pl in
  do context, ls <- parse_msg (lit "msgctxt") ls;
  do msgid, ls <- parse_msg (lit "msgid") ls;
  if negb first && match msgid with None => true | Some _ => false end then
    do _, ls <- expected (lit "msgid") ls;
    (Ok None, ls)
  else
    do msgid_pl, ls <- parse_msg (lit "msgid_plural") ls;
    do m, ls <- new_message forms (u_obsolete u) msgid msgid_pl ls;
    match m with
    | None => (Ok None, ls)
    | Some msg => (Ok (Some (set_message u prev_context prev_message context msg)), ls)
    end.

(** * src/po/reader.rs *)

(** A delivered item: [Result<Unit, Error>] *)
Inductive uitem := UOk (u : unit_) | UErr (e : error).

(** [locale_config::LanguageRange], an external crate: ranges are represented by their
    text, the functions used by the reader are parameters ([None] is an error). *)
Record lang_lib := LangLib {
  lang_invariant : str;
  lang_new : str -> option str;
  lang_from_unix : str -> option str }.

(** reader.rs:18-26 *)
Record reader := Reader {
  rd_lines : lines;
  rd_next_unit : option uitem;
  rd_header_notes : list note;
  rd_header_comments : list comment;
  rd_header_properties : smap str;
  rd_target_language : str;
  rd_plural_forms : option plural_forms }.

Definition with_lines (r : reader) (ls : lines) : reader :=
  Reader ls (rd_next_unit r) (rd_header_notes r) (rd_header_comments r)
         (rd_header_properties r) (rd_target_language r) (rd_plural_forms r).
Definition with_next_unit (r : reader) (u : option uitem) : reader :=
  Reader (rd_lines r) u (rd_header_notes r) (rd_header_comments r)
         (rd_header_properties r) (rd_target_language r) (rd_plural_forms r).

(** reader.rs:63-85 [read_line] *)
Definition read_line (r : reader) : outcome (option (N * bool)) * reader :=
  match peek (rd_lines r) with
  | None => (Ok None, r)
  | Some (IFail _) =>
      match rd_next_unit r with                   (* replace(&mut self.next_unit, None) *)
      | Some (UErr e) => (Err e, with_next_unit r None)
      | _ =>
          match next (rd_lines r) with
          | (Some (IFail e), ls) => (Err e, with_lines (with_next_unit r None) ls)
          | (_, ls) => (Panic, with_lines (with_next_unit r None) ls)   (* unreachable!() *)
          end
      end
  | Some (ILine l) =>
      (Ok (Some (po_line_no l,
                 match l with PMessage _ p _ _ => starts_with 126%N p | _ => false end)), r)
  end.

(** reader.rs:91-98: one flag of a flags comment *)
Definition add_flag (u : unit_) (flag : str) : unit_ :=
  Unit (u_context u) (u_message u) (u_prev_context u) (u_prev_message u)
       (ss_insert flag (u_flags u)) (u_notes u) (u_locations u) (u_comments u)
       (if str_eqb flag (lit "fuzzy") then StNeedsWork else u_state u) (u_obsolete u).
(** reader.rs:100-103 *)
Definition add_locations (u : unit_) (l : list str) : unit_ :=
  Unit (u_context u) (u_message u) (u_prev_context u) (u_prev_message u)
       (u_flags u) (u_notes u) (u_locations u ++ l) (u_comments u) (u_state u) (u_obsolete u).
(** reader.rs:104-109 *)
Definition add_note (u : unit_) (n : note) : unit_ :=
  Unit (u_context u) (u_message u) (u_prev_context u) (u_prev_message u)
       (u_flags u) (u_notes u ++ [n]) (u_locations u) (u_comments u) (u_state u) (u_obsolete u).
(** reader.rs:110-112 *)
Definition add_comment (u : unit_) (c : comment) : unit_ :=
  Unit (u_context u) (u_message u) (u_prev_context u) (u_prev_message u)
       (u_flags u) (u_notes u) (u_locations u) (u_comments u ++ [c]) (u_state u) (u_obsolete u).

(** reader.rs:89-113: the treatment of one comment line *)
Definition apply_comment (u : unit_) (kind : char) (s : str) : unit_ :=
  if N.eqb kind 44%N then fold_left add_flag (map trim (split_on (N.eqb 44%N) s)) u
  else if N.eqb kind 58%N then
    add_locations u (filter (fun x => negb (is_empty x)) (split_on is_ws s))
  else if N.eqb kind 46%N then add_note u (Note Developer s)
  else if N.eqb kind 32%N then add_note u (Note Translator s)
  else add_comment u (Comment kind s).

(** reader.rs:87-126 [parse_comments]: the loop, then the check for a pending error *)
Fixpoint parse_comments (u : unit_) (ls : lines) : res unit_ :=
  match ls with
  | Some (ILine (PComment _ kind s)) :: ls' => parse_comments (apply_comment u kind s) ls'
  | Some (IFail e) :: ls' => (Err e, ls')
  | _ => (Ok u, ls)
  end.

(** reader.rs:140-148 *)
Definition set_obsolete (u : unit_) (b : bool) : unit_ :=
  Unit (u_context u) (u_message u) (u_prev_context u) (u_prev_message u)
       (u_flags u) (u_notes u) (u_locations u) (u_comments u) (u_state u) b.
(** reader.rs:160-163 *)
Definition finalize_state (u : unit_) : unit_ :=
  match u_state u with
  | StEmpty =>
      if msg_is_blank (u_message u) then u
      else Unit (u_context u) (u_message u) (u_prev_context u) (u_prev_message u)
                (u_flags u) (u_notes u) (u_locations u) (u_comments u) StFinal (u_obsolete u)
  | _ => u
  end.

(** reader.rs:135-167 [read_unit] (with [parse_unit], reader.rs:128-133, inlined) *)
Definition read_unit (first : bool) (r : reader) : outcome (option unit_) * reader :=
  match parse_comments unit_default (rd_lines r) with
  | (Err e, ls) => (Err e, with_lines r ls)
  | (Panic, ls) => (Panic, with_lines r ls)
  | (Ok u, ls) =>
      match read_line (with_lines r ls) with
      | (Err e, r) => (Err e, r)
      | (Panic, r) => (Panic, r)
      | (Ok None, r) => (Ok None, r)
      | (Ok (Some (line, is_obsolete)), r) =>
          match parse_message_fields (rd_plural_forms r) first (set_obsolete u is_obsolete)
                                     (rd_lines r) with
          | (Err e, ls) => (Err e, with_lines r ls)
          | (Panic, ls) => (Panic, with_lines r ls)
          | (Ok None, ls) => (Ok None, with_lines r ls)
          | (Ok (Some u), ls) =>
              if negb first && msg_is_empty (u_message u)
              then (Err (EUnexpected line (lit "Source should not be empty")), with_lines r ls)
              else (Ok (Some (finalize_state u)), with_lines r ls)
          end
      end
  end.

(** A value, or the panic of the code computing it. *)
Inductive safe (A : Type) := Val (a : A) | Crash.
Arguments Val {A} _.
Arguments Crash {A}.

(** reader.rs:169-175 [next_unit] *)
Definition next_unit (first : bool) (r : reader) : safe (option uitem) * reader :=
  match read_unit first r with
  | (Ok None, r) => (Val None, r)
  | (Ok (Some u), r) => (Val (Some (UOk u)), r)
  | (Err e, r) => (Val (Some (UErr e)), r)
  | (Panic, r) => (Crash, r)
  end.

(** reader.rs:181-191: [entry(key).or_default().push(val)] for each header line *)
Definition header_line (m : smap (list str)) (line : str) : smap (list str) :=
  match find_char 58%N line with
  | None => m
  | Some (k, v) =>
      let key := trim k in
      let old := match sm_get key m with Some l => l | None => [] end in
      sm_insert key (old ++ [trim v]) m
  end.
Definition header_map (text : str) : smap (list str) :=
  fold_left header_line (split_on (N.eqb 10%N) text) [].

(** reader.rs:193-194: [extend] with the joined values *)
Definition extend_properties (props : smap str) (m : smap (list str)) : smap str :=
  fold_left (fun acc kv => sm_insert (fst kv) (join [32%N] (snd kv)) acc) m props.

(** reader.rs:198-203 *)
Definition header_language (lib : lang_lib) (current : str) (props : smap str) : str :=
  match sm_get (lit "Language") props with
  | None => current
  | Some l =>
      match lang_new lib l with
      | Some r => r
      | None => match lang_from_unix lib l with Some r => r | None => lang_invariant lib end
      end
  end.

(** reader.rs:177-213 [parse_po_header] *)
Definition parse_po_header (lib : lang_lib) (pf : platform) (r : reader) : outcome unit * reader :=
  match rd_next_unit r with
  | Some (UOk u) =>
      let props := extend_properties (rd_header_properties r) (header_map (msg_get_text (u_message u))) in
      let r := Reader (rd_lines r) (rd_next_unit r) (rd_header_notes r ++ u_notes u)
                      (rd_header_comments r ++ u_comments u) props
                      (header_language lib (rd_target_language r) props) (rd_plural_forms r) in
      match sm_get (lit "Plural-Forms") props with
      | None => (Ok tt, r)
      | Some forms =>
          if is_empty forms then (Ok tt, r)
          else
            match plural_forms_parse pf forms with
            | Err e => (Err e, r)
            | Panic => (Panic, r)
            | Ok f =>
                (Ok tt, Reader (rd_lines r) (rd_next_unit r) (rd_header_notes r)
                               (rd_header_comments r) (rd_header_properties r)
                               (rd_target_language r) (Some f))
            end
      end
  | _ => (Ok tt, r)
  end.

(** reader.rs:29-61 [PoReader::new], on the results of the line iterator *)
Definition reader_new (lib : lang_lib) (pf : platform) (ls : lines) : outcome reader :=
  let r0 := Reader ls None [] [] [] (lang_invariant lib) None in
  match next_unit true r0 with
  | (Crash, _) => Panic
  | (Val (Some (UErr e)), _) => Err e
  | (Val nu, r1) =>
      let r2 := with_next_unit r1 nu in
      let has_header := match nu with Some (UOk u) => msg_is_empty (u_message u) | _ => false end in
      if has_header then
        match parse_po_header lib pf r2 with
        | (Err e, _) => Err e
        | (Panic, _) => Panic
        | (Ok _, r3) =>
            match next_unit false r3 with
            | (Crash, _) => Panic
            | (Val nu, r4) => Ok (with_next_unit r4 nu)
            end
        end
      else Ok r2
  end.

(** parser.rs:35-37 [PoParser::parse] *)
Definition po_parse (lib : lang_lib) (pf : platform) (evs : list rd_event) : outcome reader :=
  reader_new lib pf (responses (li_new evs)).

(** reader.rs:219-230 [Iterator::next] *)
Definition po_next (r : reader) : safe (option uitem) * reader :=
  match rd_next_unit r with
  | None => (Val None, r)
  | Some (UErr e) => (Val (Some (UErr e)), with_next_unit r None)
  | Some (UOk _) =>
      match next_unit false r with                (* swap(&mut res, &mut self.next_unit) *)
      | (Crash, r') => (Crash, r')
      | (Val nu, r') => (Val (rd_next_unit r'), with_next_unit r' nu)
      end
  end.

(** [for unit in reader]: all items up to the first [None]; [None] when the fuel runs
    out or on a panic. *)
Fixpoint po_collect (fuel : nat) (r : reader) : option (list uitem) :=
  match fuel with
  | O => None
  | S fuel' =>
      match po_next r with
      | (Crash, _) => None
      | (Val None, _) => Some []
      | (Val (Some x), r') => option_map (cons x) (po_collect fuel' r')
      end
  end.
