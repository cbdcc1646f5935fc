(** The reader a second time, on a [Peekable<LineIter>] that is advanced on demand.

    In ModelReader.v the iterator is replaced by the list of all its future results.  Here its
    state is threaded through the functions as in the code, so that it can be said what has been
    read when an item is delivered.  LazyFacts.v proves that both models give the same results. *)
From Coq Require Import String Arith NArith Bool List.
From Verif Require Import ModelBase ModelUtf8 ModelLine ModelFormula ModelData ModelSource ModelReader.
Import ListNotations.

(** [std::iter::Peekable]: the item looked at, if any, and the iterator *)
Record peekable := Peekable { pk_peeked : option (option item); pk_iter : line_iter }.
(** [Peekable::peek]: [self.peeked.get_or_insert_with(|| iter.next()).as_ref()] *)
Definition lz_peek (p : peekable) : option item * peekable :=
  match pk_peeked p with
  | Some x => (x, p)
  | None => let (x, it) := li_next (pk_iter p) in (x, Peekable (Some x) it)
  end.
(** [Peekable::next]: [match self.peeked.take() { Some(v) => v, None => self.iter.next() }] *)
Definition lz_next (p : peekable) : option item * peekable :=
  match pk_peeked p with
  | Some x => (x, Peekable None (pk_iter p))
  | None => let (x, it) := li_next (pk_iter p) in (x, Peekable None it)
  end.
(** A bound for the iterations of the loops below: no more lines are left. *)
Definition pk_size (p : peekable) : nat :=
  match pk_peeked p with Some _ => 1 | None => 0 end + li_size (pk_iter p).

Definition lres (A : Type) : Type := outcome A * peekable.
(** The [?] operator *)
Definition lbind {A B} (m : lres A) (f : A -> peekable -> lres B) : lres B :=
  match m with
  | (Ok a, p) => f a p
  | (Err e, p) => (Err e, p)
  | (Panic, p) => (Panic, p)
  end.
Notation "'ldo' x , l <- m ; f" := (lbind m (fun x l => f))
  (at level 200, x pattern, l name, m at level 100, f at level 200, right associativity).

(** * src/po/decoder.rs *)

(** decoder.rs:6-15 [fetch_next] *)
Definition lz_fetch_next (p : peekable) : lres (option po_line) :=
  match lz_peek p with
  | (Some (ILine l), p) => (Ok (Some l), p)
  | (_, p) =>
      match lz_next p with
      | (Some (IFail e), p) => (Err e, p)
      | (_, p) => (Ok None, p)
      end
  end.

(** decoder.rs:38-51, the [while let] loop of [parse_msg]; fuel that runs out is a panic
    (proved not to happen) *)
Fixpoint lz_append_conts (fuel : nat) (prefix string : str) (p : peekable) : lres (option str) :=
  match fuel with
  | O => (Panic, p)
  | S fuel' =>
      ldo l, p <- lz_fetch_next p;
      match l with
      | Some (PCont _ q _) =>
          if str_eqb q prefix then
            match lz_next p with
            | (Some (ILine (PCont _ _ s)), p) => lz_append_conts fuel' prefix (string ++ s) p
            | (_, p) => (Panic, p)                  (* unwrap of None/Err, unreachable!() *)
            end
          else (Ok (Some string), p)
      | _ => (Ok (Some string), p)
      end
  end.

(** decoder.rs:23-54 [parse_msg] *)
Definition lz_parse_msg (obsolete : bool) (tag : str) (p : peekable) : lres (option str) :=
  ldo l, p <- lz_fetch_next p;
  match l with
  | Some (PMessage _ q t _) =>
      if str_eqb t tag && Bool.eqb (starts_with 126%N q) obsolete then
        match lz_next p with
        | (Some (ILine (PMessage _ q _ s)), p) => lz_append_conts (S (pk_size p)) q s p
        | (_, p) => (Panic, p)                      (* unwrap of None/Err, unreachable!() *)
        end
      else (Ok None, p)
  | _ => (Ok None, p)
  end.

(** decoder.rs:56-70 [expected] *)
Definition lz_expected (exp : str) (p : peekable) : lres unit :=
  match lz_peek p with
  | (None, p) | (Some (ILine PBlank), p) => (Ok tt, p)
  | (Some (IFail _), p) =>
      match lz_next p with
      | (Some (IFail e), p) => (Err e, p)
      | (_, p) => (Panic, p)                        (* unreachable!() *)
      end
  | (Some (ILine (PMessage n q _ _)), p) => (Err (EParse n q exp), p)
  | (Some (ILine (PCont n _ _)), p) => (Err (EParse n (lit """") exp), p)
  | (Some (ILine (PComment n c _)), p) => (Err (EParse n (35%N :: [c]) exp), p)
  end.

(** * src/po/message_extractor.rs *)

(** message_extractor.rs:82-86 *)
Fixpoint lz_parse_values (obsolete : bool) (k : nat) (i : N) (values : list str) (p : peekable)
  : lres (list str) :=
  match k with
  | O => (Ok values, p)
  | S k' =>
      ldo v, p <- lz_parse_msg obsolete (msgstr_tag i) p;
      lz_parse_values obsolete k' (i + 1)%N (match v with Some v => values ++ [v] | None => values end) p
  end.

(** message_extractor.rs:70-110 [new_message] *)
Definition lz_new_message (forms : option plural_forms) (obsolete : bool)
  (msgid msgid_pl : option str) (p : peekable) : lres (option message) :=
  match msgid with
  | None => (Ok (Some message_default), p)
  | Some singular =>
      match msgid_pl with
      | Some pl =>
          ldo values, p <- lz_parse_values obsolete (N.to_nat (forms_count forms)) 0%N [] p;
          if is_empty values then
            ldo _, p <- lz_expected (lit "msgstr[0]") p;
            (Ok None, p)
          else (Ok (Some (MPlural (plural_new singular pl values forms))), p)
      | None =>
          ldo t, p <- lz_parse_msg obsolete (lit "msgstr") p;
          match t with
          | Some text =>
              (Ok (Some (MSimple singular (if is_empty text then None else Some text))), p)
          | None =>
              ldo _, p <- lz_expected (lit "msgstr") p;
              (Ok None, p)
          end
      end
  end.

(** message_extractor.rs:25-68 [parse_message_fields] *)
Definition lz_parse_message_fields (forms : option plural_forms) (first : bool) (u : unit_)
  (p : peekable) : lres (option unit_) :=
  let parse_msg := lz_parse_msg (u_obsolete u) in
  ldo prev_context, p <- parse_msg (lit "|msgctxt") p;
  ldo prev_msgid, p <- parse_msg (lit "|msgid") p;
  ldo prev_msgid_pl, p <-
    match prev_msgid with
    | Some _ => parse_msg (lit "|msgid_plural") p
    | None => (Ok None, p)
    end;
  let prev_message := new_previous forms prev_msgid prev_msgid_pl in
  ldo context, p <- parse_msg (lit "msgctxt") p;
  ldo msgid, p <- parse_msg (lit "msgid") p;
  if negb first && match msgid with None => true | Some _ => false end then
    ldo _, p <- lz_expected (lit "msgid") p;
    (Ok None, p)
  else
    ldo msgid_pl, p <- parse_msg (lit "msgid_plural") p;
    ldo m, p <- lz_new_message forms (u_obsolete u) msgid msgid_pl p;
    match m with
    | None => (Ok None, p)
    | Some msg => (Ok (Some (set_message u prev_context prev_message context msg)), p)
    end.

(** * src/po/reader.rs *)

(** reader.rs:18-26 *)
Record lreader := LReader {
  lr_lines : peekable;
  lr_next_unit : option uitem;
  lr_header_notes : list note;
  lr_header_comments : list comment;
  lr_header_properties : smap str;
  lr_target_language : str;
  lr_plural_forms : option plural_forms }.

Definition lr_with_lines (r : lreader) (p : peekable) : lreader :=
  LReader p (lr_next_unit r) (lr_header_notes r) (lr_header_comments r)
          (lr_header_properties r) (lr_target_language r) (lr_plural_forms r).
Definition lr_with_next_unit (r : lreader) (u : option uitem) : lreader :=
  LReader (lr_lines r) u (lr_header_notes r) (lr_header_comments r)
          (lr_header_properties r) (lr_target_language r) (lr_plural_forms r).

(** reader.rs:63-85 [read_line] *)
Definition lz_read_line (r : lreader) : outcome (option (N * bool)) * lreader :=
  match lz_peek (lr_lines r) with
  | (None, p) => (Ok None, lr_with_lines r p)
  | (Some (IFail _), p) =>
      match lr_next_unit r with                     (* replace(&mut self.next_unit, None) *)
      | Some (UErr e) => (Err e, lr_with_next_unit (lr_with_lines r p) None)
      | _ =>
          match lz_next p with
          | (Some (IFail e), p) => (Err e, lr_with_lines (lr_with_next_unit r None) p)
          | (_, p) => (Panic, lr_with_lines (lr_with_next_unit r None) p)   (* unreachable!() *)
          end
      end
  | (Some (ILine l), p) =>
      (Ok (Some (po_line_no l,
                 match l with PMessage _ q _ _ => starts_with 126%N q | _ => false end)), lr_with_lines r p)
  end.

(** reader.rs:87-126 [parse_comments]: the loop, then the check for a pending error *)
Fixpoint lz_parse_comments (fuel : nat) (u : unit_) (p : peekable) : lres unit_ :=
  match fuel with
  | O => (Panic, p)
  | S fuel' =>
      match lz_peek p with
      | (Some (ILine (PComment _ _ _)), p) =>
          match lz_next p with
          | (Some (ILine (PComment _ kind s)), p) => lz_parse_comments fuel' (apply_comment u kind s) p
          | (_, p) => (Panic, p)                    (* unreachable!() *)
          end
      | (_, p) =>
          match lz_peek p with
          | (Some (IFail _), p) =>
              match lz_next p with
              | (Some (IFail e), p) => (Err e, p)
              | (_, p) => (Panic, p)                (* unreachable!() *)
              end
          | (_, p) => (Ok u, p)
          end
      end
  end.

(** reader.rs:135-167 [read_unit] (with [parse_unit], reader.rs:128-133, inlined) *)
Definition lz_read_unit (first : bool) (r : lreader) : outcome (option unit_) * lreader :=
  match lz_parse_comments (S (pk_size (lr_lines r))) unit_default (lr_lines r) with
  | (Err e, p) => (Err e, lr_with_lines r p)
  | (Panic, p) => (Panic, lr_with_lines r p)
  | (Ok u, p) =>
      match lz_read_line (lr_with_lines r p) with
      | (Err e, r) => (Err e, r)
      | (Panic, r) => (Panic, r)
      | (Ok None, r) => (Ok None, r)
      | (Ok (Some (line, is_obsolete)), r) =>
          match lz_parse_message_fields (lr_plural_forms r) first (set_obsolete u is_obsolete)
                                        (lr_lines r) with
          | (Err e, p) => (Err e, lr_with_lines r p)
          | (Panic, p) => (Panic, lr_with_lines r p)
          | (Ok None, p) => (Ok None, lr_with_lines r p)
          | (Ok (Some u), p) =>
              if negb first && msg_is_empty (u_message u)
              then (Err (EUnexpected line (lit "Source should not be empty")), lr_with_lines r p)
              else (Ok (Some (finalize_state u)), lr_with_lines r p)
          end
      end
  end.

(** reader.rs:169-175 [next_unit] *)
Definition lz_next_unit (first : bool) (r : lreader) : safe (option uitem) * lreader :=
  match lz_read_unit first r with
  | (Ok None, r) => (Val None, r)
  | (Ok (Some u), r) => (Val (Some (UOk u)), r)
  | (Err e, r) => (Val (Some (UErr e)), r)
  | (Panic, r) => (Crash, r)
  end.

(** reader.rs:177-213 [parse_po_header] *)
Definition lz_parse_po_header (lib : lang_lib) (pf : platform) (r : lreader) : outcome unit * lreader :=
  match lr_next_unit r with
  | Some (UOk u) =>
      let props := extend_properties (lr_header_properties r) (header_map (msg_get_text (u_message u))) in
      let r := LReader (lr_lines r) (lr_next_unit r) (lr_header_notes r ++ u_notes u)
                       (lr_header_comments r ++ u_comments u) props
                       (header_language lib (lr_target_language r) props) (lr_plural_forms r) in
      match sm_get (lit "Plural-Forms") props with
      | None => (Ok tt, r)
      | Some forms =>
          if is_empty forms then (Ok tt, r)
          else
            match plural_forms_parse pf forms with
            | Err e => (Err e, r)
            | Panic => (Panic, r)
            | Ok f =>
                (Ok tt, LReader (lr_lines r) (lr_next_unit r) (lr_header_notes r)
                                (lr_header_comments r) (lr_header_properties r)
                                (lr_target_language r) (Some f))
            end
      end
  | _ => (Ok tt, r)
  end.

(** reader.rs:29-61 [PoReader::new], and parser.rs:35-37 [PoParser::parse] *)
Definition lz_parse (lib : lang_lib) (pf : platform) (evs : list rd_event) : outcome lreader :=
  let r0 := LReader (Peekable None (li_new evs)) None [] [] [] (lang_invariant lib) None in
  match lz_next_unit true r0 with
  | (Crash, _) => Panic
  | (Val (Some (UErr e)), _) => Err e
  | (Val nu, r1) =>
      let r2 := lr_with_next_unit r1 nu in
      let has_header := match nu with Some (UOk u) => msg_is_empty (u_message u) | _ => false end in
      if has_header then
        match lz_parse_po_header lib pf r2 with
        | (Err e, _) => Err e
        | (Panic, _) => Panic
        | (Ok _, r3) =>
            match lz_next_unit false r3 with
            | (Crash, _) => Panic
            | (Val nu, r4) => Ok (lr_with_next_unit r4 nu)
            end
        end
      else Ok r2
  end.

(** reader.rs:219-230 [Iterator::next] *)
Definition lz_po_next (r : lreader) : safe (option uitem) * lreader :=
  match lr_next_unit r with
  | None => (Val None, r)
  | Some (UErr e) => (Val (Some (UErr e)), lr_with_next_unit r None)
  | Some (UOk _) =>
      match lz_next_unit false r with               (* swap(&mut res, &mut self.next_unit) *)
      | (Crash, r') => (Crash, r')
      | (Val nu, r') => (Val (lr_next_unit r'), lr_with_next_unit r' nu)
      end
  end.
