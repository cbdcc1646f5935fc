(** The reader a third time, on lines that count how often they are asked.

    In ModelWork.v each function says what it costs.  Here nothing says so: the state holds a
    meter, and only [Peekable::peek], [Peekable::next] and the clone of a line
    ([fetch_next], decoder.rs:8) move it.  MeterFacts.v proves that both count the same. *)
From Coq Require Import String Arith NArith Bool List.
From Verif Require Import ModelBase ModelUtf8 ModelLine ModelFormula ModelData ModelSource ModelReader.
Import ListNotations.
Local Open Scope nat_scope.

(** The results to come, and the meter *)
Record metered := Metered { mt_lines : lines; mt_count : nat }.
Definition mt_peek (m : metered) : option item * metered :=
  (peek (mt_lines m), Metered (mt_lines m) (mt_count m + 1)).
Definition mt_next (m : metered) : option item * metered :=
  let (x, ls) := next (mt_lines m) in (x, Metered ls (mt_count m + 1)).
Definition mt_pay (n : nat) (m : metered) : metered := Metered (mt_lines m) (mt_count m + n).

Definition mres (A : Type) : Type := outcome A * metered.
(** The [?] operator *)
Definition mbind {A B} (m : mres A) (f : A -> metered -> mres B) : mres B :=
  match m with
  | (Ok a, p) => f a p
  | (Err e, p) => (Err e, p)
  | (Panic, p) => (Panic, p)
  end.
Notation "'mdo' x , l <- m ; f" := (mbind m (fun x l => f))
  (at level 200, x pattern, l name, m at level 100, f at level 200, right associativity).

Section Meter.
  (** The cost of a clone *)
  Variable w : po_line -> nat.

  (** decoder.rs:6-15 [fetch_next] *)
  Definition mt_fetch_next (p : metered) : mres (option po_line) :=
    match mt_peek p with
    | (Some (ILine l), p) => (Ok (Some l), mt_pay (w l) p)
    | (_, p) =>
        match mt_next p with
        | (Some (IFail e), p) => (Err e, p)
        | (_, p) => (Ok None, p)
        end
    end.

  (** decoder.rs:38-51, the [while let] loop of [parse_msg]; fuel that runs out is a panic
      (does not happen: MeterFacts.v) *)
  Fixpoint mt_append_conts (fuel : nat) (prefix string : str) (p : metered) : mres (option str) :=
    match fuel with
    | O => (Panic, p)
    | S fuel' =>
        mdo l, p <- mt_fetch_next p;
        match l with
        | Some (PCont _ q _) =>
            if str_eqb q prefix then
              match mt_next p with
              | (Some (ILine (PCont _ _ s)), p) => mt_append_conts fuel' prefix (string ++ s) p
              | (_, p) => (Panic, p)                  (* unwrap of None/Err, unreachable!() *)
              end
            else (Ok (Some string), p)
        | _ => (Ok (Some string), p)
        end
    end.

  (** decoder.rs:23-54 [parse_msg] *)
  Definition mt_parse_msg (obsolete : bool) (tag : str) (p : metered) : mres (option str) :=
    mdo l, p <- mt_fetch_next p;
    match l with
    | Some (PMessage _ q t _) =>
        if str_eqb t tag && Bool.eqb (starts_with 126%N q) obsolete then
          match mt_next p with
          | (Some (ILine (PMessage _ q _ s)), p) => mt_append_conts (S (length (mt_lines p))) q s p
          | (_, p) => (Panic, p)                      (* unwrap of None/Err, unreachable!() *)
          end
        else (Ok None, p)
    | _ => (Ok None, p)
    end.

  (** decoder.rs:56-70 [expected] *)
  Definition mt_expected (exp : str) (p : metered) : mres unit :=
    match mt_peek p with
    | (None, p) | (Some (ILine PBlank), p) => (Ok tt, p)
    | (Some (IFail _), p) =>
        match mt_next p with
        | (Some (IFail e), p) => (Err e, p)
        | (_, p) => (Panic, p)                        (* unreachable!() *)
        end
    | (Some (ILine (PMessage n q _ _)), p) => (Err (EParse n q exp), p)
    | (Some (ILine (PCont n _ _)), p) => (Err (EParse n (lit """") exp), p)
    | (Some (ILine (PComment n c _)), p) => (Err (EParse n (35%N :: [c]) exp), p)
    end.

  (** message_extractor.rs:82-86 *)
  Fixpoint mt_parse_values (obsolete : bool) (k : nat) (i : N) (values : list str) (p : metered)
    : mres (list str) :=
    match k with
    | O => (Ok values, p)
    | S k' =>
        mdo v, p <- mt_parse_msg obsolete (msgstr_tag i) p;
        mt_parse_values obsolete k' (i + 1)%N (match v with Some v => values ++ [v] | None => values end) p
    end.

  (** message_extractor.rs:70-110 [new_message] *)
  Definition mt_new_message (forms : option plural_forms) (obsolete : bool)
    (msgid msgid_pl : option str) (p : metered) : mres (option message) :=
    match msgid with
    | None => (Ok (Some message_default), p)
    | Some singular =>
        match msgid_pl with
        | Some pl =>
            mdo values, p <- mt_parse_values obsolete (N.to_nat (forms_count forms)) 0%N [] p;
            if is_empty values then
              mdo _, p <- mt_expected (lit "msgstr[0]") p;
              (Ok None, p)
            else (Ok (Some (MPlural (plural_new singular pl values forms))), p)
        | None =>
            mdo t, p <- mt_parse_msg obsolete (lit "msgstr") p;
            match t with
            | Some text =>
                (Ok (Some (MSimple singular (if is_empty text then None else Some text))), p)
            | None =>
                mdo _, p <- mt_expected (lit "msgstr") p;
                (Ok None, p)
            end
        end
    end.

  (** message_extractor.rs:25-68 [parse_message_fields] *)
  Definition mt_parse_message_fields (forms : option plural_forms) (first : bool) (u : unit_)
    (p : metered) : mres (option unit_) :=
    let parse_msg := mt_parse_msg (u_obsolete u) in
    mdo prev_context, p <- parse_msg (lit "|msgctxt") p;
    mdo prev_msgid, p <- parse_msg (lit "|msgid") p;
    mdo prev_msgid_pl, p <-
      match prev_msgid with
      | Some _ => parse_msg (lit "|msgid_plural") p
      | None => (Ok None, p)
      end;
    let prev_message := new_previous forms prev_msgid prev_msgid_pl in
    mdo context, p <- parse_msg (lit "msgctxt") p;
    mdo msgid, p <- parse_msg (lit "msgid") p;
    if negb first && match msgid with None => true | Some _ => false end then
      mdo _, p <- mt_expected (lit "msgid") p;
      (Ok None, p)
    else
      mdo msgid_pl, p <- parse_msg (lit "msgid_plural") p;
      mdo m, p <- mt_new_message forms (u_obsolete u) msgid msgid_pl p;
      match m with
      | None => (Ok None, p)
      | Some msg => (Ok (Some (set_message u prev_context prev_message context msg)), p)
      end.

  (** The reader, whose lines are those of the state, and the meter *)
  Definition mreader : Type := reader * nat.
  Definition mr_lines (r : mreader) : metered := Metered (rd_lines (fst r)) (snd r).
  Definition mr_with_lines (r : mreader) (p : metered) : mreader := (with_lines (fst r) (mt_lines p), mt_count p).
  Definition mr_with_next_unit (r : mreader) (u : option uitem) : mreader := (with_next_unit (fst r) u, snd r).

  (** reader.rs:63-85 [read_line] *)
  Definition mt_read_line (r : mreader) : outcome (option (N * bool)) * mreader :=
    match mt_peek (mr_lines r) with
    | (None, p) => (Ok None, mr_with_lines r p)
    | (Some (IFail _), p) =>
        match rd_next_unit (fst r) with               (* replace(&mut self.next_unit, None) *)
        | Some (UErr e) => (Err e, mr_with_next_unit (mr_with_lines r p) None)
        | _ =>
            match mt_next p with
            | (Some (IFail e), p) => (Err e, mr_with_lines (mr_with_next_unit r None) p)
            | (_, p) => (Panic, mr_with_lines (mr_with_next_unit r None) p)   (* unreachable!() *)
            end
        end
    | (Some (ILine l), p) =>
        (Ok (Some (po_line_no l,
                   match l with PMessage _ q _ _ => starts_with 126%N q | _ => false end)), mr_with_lines r p)
    end.

  (** reader.rs:87-126 [parse_comments]: the loop, then the check for a pending error *)
  Fixpoint mt_parse_comments (fuel : nat) (u : unit_) (p : metered) : mres unit_ :=
    match fuel with
    | O => (Panic, p)
    | S fuel' =>
        match mt_peek p with
        | (Some (ILine (PComment _ _ _)), p) =>
            match mt_next p with
            | (Some (ILine (PComment _ kind s)), p) => mt_parse_comments fuel' (apply_comment u kind s) p
            | (_, p) => (Panic, p)                    (* unreachable!() *)
            end
        | (_, p) =>
            match mt_peek p with
            | (Some (IFail _), p) =>
                match mt_next p with
                | (Some (IFail e), p) => (Err e, p)
                | (_, p) => (Panic, p)                (* unreachable!() *)
                end
            | (_, p) => (Ok u, p)
            end
        end
    end.

  (** reader.rs:135-167 [read_unit] (with [parse_unit], reader.rs:128-133, inlined) *)
  Definition mt_read_unit (first : bool) (r : mreader) : outcome (option unit_) * mreader :=
    match mt_parse_comments (S (length (rd_lines (fst r)))) unit_default (mr_lines r) with
    | (Err e, p) => (Err e, mr_with_lines r p)
    | (Panic, p) => (Panic, mr_with_lines r p)
    | (Ok u, p) =>
        match mt_read_line (mr_with_lines r p) with
        | (Err e, r) => (Err e, r)
        | (Panic, r) => (Panic, r)
        | (Ok None, r) => (Ok None, r)
        | (Ok (Some (line, is_obsolete)), r) =>
            match mt_parse_message_fields (rd_plural_forms (fst r)) first (set_obsolete u is_obsolete)
                                          (mr_lines r) with
            | (Err e, p) => (Err e, mr_with_lines r p)
            | (Panic, p) => (Panic, mr_with_lines r p)
            | (Ok None, p) => (Ok None, mr_with_lines r p)
            | (Ok (Some u), p) =>
                if negb first && msg_is_empty (u_message u)
                then (Err (EUnexpected line (lit "Source should not be empty")), mr_with_lines r p)
                else (Ok (Some (finalize_state u)), mr_with_lines r p)
            end
        end
    end.

  (** reader.rs:169-175 [next_unit] *)
  Definition mt_next_unit (first : bool) (r : mreader) : safe (option uitem) * mreader :=
    match mt_read_unit first r with
    | (Ok None, r) => (Val None, r)
    | (Ok (Some u), r) => (Val (Some (UOk u)), r)
    | (Err e, r) => (Val (Some (UErr e)), r)
    | (Panic, r) => (Crash, r)
    end.

  (** reader.rs:29-61 [PoReader::new]; [parse_po_header] does not touch the lines.  The meter is
      also given when there is no reader. *)
  Definition mt_parse (lib : lang_lib) (pf : platform) (evs : list rd_event) : outcome reader * nat :=
    let r0 := (Reader (responses (li_new evs)) None [] [] [] (lang_invariant lib) None, 0) in
    match mt_next_unit true r0 with
    | (Crash, r) => (Panic, snd r)
    | (Val (Some (UErr e)), r) => (Err e, snd r)
    | (Val nu, r1) =>
        let r2 := mr_with_next_unit r1 nu in
        let has_header := match nu with Some (UOk u) => msg_is_empty (u_message u) | _ => false end in
        if has_header then
          match parse_po_header lib pf (fst r2) with
          | (Err e, _) => (Err e, snd r2)
          | (Panic, _) => (Panic, snd r2)
          | (Ok _, r3) =>
              match mt_next_unit false (r3, snd r2) with
              | (Crash, r) => (Panic, snd r)
              | (Val nu, r4) => let r := mr_with_next_unit r4 nu in (Ok (fst r), snd r)
              end
          end
        else (Ok (fst r2), snd r2)
    end.

  (** reader.rs:219-230 [Iterator::next] *)
  Definition mt_po_next (r : mreader) : safe (option uitem) * mreader :=
    match rd_next_unit (fst r) with
    | None => (Val None, r)
    | Some (UErr e) => (Val (Some (UErr e)), mr_with_next_unit r None)
    | Some (UOk _) =>
        match mt_next_unit false r with               (* swap(&mut res, &mut self.next_unit) *)
        | (Crash, r') => (Crash, r')
        | (Val nu, r') => (Val (rd_next_unit (fst r')), mr_with_next_unit r' nu)
        end
    end.

  (** [for unit in reader]: all items up to the first [None], and the meter then *)
  Fixpoint mt_collect (fuel : nat) (r : mreader) : option (list uitem) * nat :=
    match fuel with
    | O => (None, snd r)
    | S fuel' =>
        match mt_po_next r with
        | (Crash, r') => (None, snd r')
        | (Val None, r') => (Some [], snd r')
        | (Val (Some x), r') => let (l, c) := mt_collect fuel' r' in (option_map (cons x) l, c)
        end
    end.
End Meter.
