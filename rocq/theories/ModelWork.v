(** The reader of ModelReader.v with a count of its work.  One unit of work is a call of
    [Peekable::peek] or [Peekable::next]; cloning a line ([fetch_next], decoder.rs:8)
    costs [w] of that line in addition.  Each function returns its cost beside
    its result; that the result is the one of ModelReader.v is theorem
    [C49_work_of_the_reader]. *)
From Coq Require Import String Arith NArith Bool List.
From Verif Require Import ModelBase ModelLine ModelFormula ModelData ModelSource ModelReader.
Import ListNotations.
Local Open Scope nat_scope.

Definition wres (A : Type) : Type := res A * nat.
(** The [?] operator *)
Definition wbind {A B} (m : wres A) (f : A -> lines -> wres B) : wres B :=
  match m with
  | (Ok a, ls, c) => let (r, c') := f a ls in (r, c + c')
  | (Err e, ls, c) => (Err e, ls, c)
  | (Panic, ls, c) => (Panic, ls, c)
  end.
Notation "'wdo' x , l <- m ; f" := (wbind m (fun x l => f))
  (at level 200, x pattern, l name, m at level 100, f at level 200, right associativity).
Definition tick {A} (n : nat) (m : A * nat) : A * nat := (fst m, n + snd m).

Section Work.
  Variable w : po_line -> nat.

  (** decoder.rs:6-15: a peek and a clone, or a peek and a next *)
  Definition fetch_next_w (ls : lines) : wres (option po_line) :=
    match peek ls with
    | Some (ILine l) => (Ok (Some l), ls, 1 + w l)
    | _ =>
        match next ls with
        | (Some (IFail e), ls') => (Err e, ls', 2)
        | (_, ls') => (Ok None, ls', 2)
        end
    end.

  (** decoder.rs:38-51: [fetch_next], and a next for each line taken *)
  Fixpoint append_conts_w (prefix string : str) (ls : lines) : wres (option str) :=
    match ls with
    | Some (ILine (PCont n p s)) :: ls' =>
        if str_eqb p prefix then tick (1 + w (PCont n p s) + 1) (append_conts_w prefix (string ++ s) ls')
        else (Ok (Some string), ls, 1 + w (PCont n p s))
    | Some (ILine l) :: _ => (Ok (Some string), ls, 1 + w l)
    | Some (IFail e) :: ls' => (Err e, ls', 2)
    | None :: ls' => (Ok (Some string), ls', 2)
    | [] => (Ok (Some string), [], 2)
    end.

  (** decoder.rs:23-54 *)
  Definition parse_msg_w (obsolete : bool) (tag : str) (ls : lines) : wres (option str) :=
    wdo l, ls <- fetch_next_w ls;
    match l with
    | Some (PMessage _ p t _) =>
        if str_eqb t tag && Bool.eqb (starts_with 126%N p) obsolete then
          match next ls with
          | (Some (ILine (PMessage _ p s_tag s)), ls') => tick 1 (append_conts_w p s ls')
          | (_, ls') => (Panic, ls', 1)
          end
        else (Ok None, ls, 0)
    | _ => (Ok None, ls, 0)
    end.

  (** decoder.rs:56-70: a peek, and a next for a failure *)
  Definition expected_w (exp : str) (ls : lines) : wres unit :=
    (expected exp ls, match peek ls with Some (IFail _) => 2 | _ => 1 end).

  (** message_extractor.rs:82-86 *)
  Fixpoint parse_values_w (obsolete : bool) (k : nat) (i : N) (values : list str) (ls : lines)
    : wres (list str) :=
    match k with
    | O => (Ok values, ls, 0)
    | S k' =>
        wdo v, ls <- parse_msg_w obsolete (msgstr_tag i) ls;
        parse_values_w obsolete k' (i + 1)%N (match v with Some v => values ++ [v] | None => values end) ls
    end.

  (** message_extractor.rs:70-110 *)
  Definition new_message_w (forms : option plural_forms) (obsolete : bool)
    (msgid msgid_pl : option str) (ls : lines) : wres (option message) :=
    match msgid with
    | None => (Ok (Some message_default), ls, 0)
    | Some singular =>
        match msgid_pl with
        | Some pl =>
            wdo values, ls <- parse_values_w obsolete (N.to_nat (forms_count forms)) 0%N [] ls;
            if is_empty values then
              wdo _, ls <- expected_w (lit "msgstr[0]") ls;
              (Ok None, ls, 0)
            else (Ok (Some (MPlural (plural_new singular pl values forms))), ls, 0)
        | None =>
            wdo t, ls <- parse_msg_w obsolete (lit "msgstr") ls;
            match t with
            | Some text =>
                (Ok (Some (MSimple singular (if is_empty text then None else Some text))), ls, 0)
            | None =>
                wdo _, ls <- expected_w (lit "msgstr") ls;
                (Ok None, ls, 0)
            end
        end
    end.

  (** message_extractor.rs:25-68 *)
  Definition parse_message_fields_w (forms : option plural_forms) (first : bool) (u : unit_)
    (ls : lines) : wres (option unit_) :=
    let parse_msg_w := parse_msg_w (u_obsolete u) in
    wdo prev_context, ls <- parse_msg_w (lit "|msgctxt") ls;
    wdo prev_msgid, ls <- parse_msg_w (lit "|msgid") ls;
    wdo prev_msgid_pl, ls <-
      match prev_msgid with
      | Some _ => parse_msg_w (lit "|msgid_plural") ls
      | None => (Ok None, ls, 0)
      end;
    let prev_message := new_previous forms prev_msgid prev_msgid_pl in
    wdo context, ls <- parse_msg_w (lit "msgctxt") ls;
    wdo msgid, ls <- parse_msg_w (lit "msgid") ls;
    if negb first && match msgid with None => true | Some _ => false end then
      wdo _, ls <- expected_w (lit "msgid") ls;
      (Ok None, ls, 0)
    else
      wdo msgid_pl, ls <- parse_msg_w (lit "msgid_plural") ls;
      wdo m, ls <- new_message_w forms (u_obsolete u) msgid msgid_pl ls;
      match m with
      | None => (Ok None, ls, 0)
      | Some msg => (Ok (Some (set_message u prev_context prev_message context msg)), ls, 0)
      end.

  (** reader.rs:63-85: a peek, and a next for a failure that comes from the lines *)
  Definition read_line_w (r : reader) : outcome (option (N * bool)) * reader * nat :=
    (read_line r,
     match peek (rd_lines r), rd_next_unit r with
     | Some (IFail _), Some (UErr _) => 1
     | Some (IFail _), _ => 2
     | _, _ => 1
     end).

  (** reader.rs:87-126: a peek and a next for each comment, two peeks at the end, and a next
      for a failure *)
  Fixpoint parse_comments_w (u : unit_) (ls : lines) : wres unit_ :=
    match ls with
    | Some (ILine (PComment _ kind s)) :: ls' => tick 2 (parse_comments_w (apply_comment u kind s) ls')
    | Some (IFail e) :: ls' => (Err e, ls', 3)
    | _ => (Ok u, ls, 2)
    end.

  (** reader.rs:135-167 *)
  Definition read_unit_w (first : bool) (r : reader) : outcome (option unit_) * reader * nat :=
    match parse_comments_w unit_default (rd_lines r) with
    | (Err e, ls, c) => (Err e, with_lines r ls, c)
    | (Panic, ls, c) => (Panic, with_lines r ls, c)
    | (Ok u, ls, c) =>
        tick c
        match read_line_w (with_lines r ls) with
        | (Err e, r, c) => (Err e, r, c)
        | (Panic, r, c) => (Panic, r, c)
        | (Ok None, r, c) => (Ok None, r, c)
        | (Ok (Some (line, is_obsolete)), r, c) =>
            tick c
            match parse_message_fields_w (rd_plural_forms r) first (set_obsolete u is_obsolete)
                                         (rd_lines r) with
            | (Err e, ls, c) => (Err e, with_lines r ls, c)
            | (Panic, ls, c) => (Panic, with_lines r ls, c)
            | (Ok None, ls, c) => (Ok None, with_lines r ls, c)
            | (Ok (Some u), ls, c) =>
                if negb first && msg_is_empty (u_message u)
                then (Err (EUnexpected line (lit "Source should not be empty")), with_lines r ls, c)
                else (Ok (Some (finalize_state u)), with_lines r ls, c)
            end
        end
    end.

  (** reader.rs:169-175 *)
  Definition next_unit_w (first : bool) (r : reader) : safe (option uitem) * reader * nat :=
    match read_unit_w first r with
    | (Ok None, r, c) => (Val None, r, c)
    | (Ok (Some u), r, c) => (Val (Some (UOk u)), r, c)
    | (Err e, r, c) => (Val (Some (UErr e)), r, c)
    | (Panic, r, c) => (Crash, r, c)
    end.

  (** reader.rs:29-61; [parse_po_header] does not touch the lines *)
  Definition reader_new_w (lib : lang_lib) (pf : platform) (ls : lines) : outcome reader * nat :=
    let r0 := Reader ls None [] [] [] (lang_invariant lib) None in
    match next_unit_w true r0 with
    | (Crash, _, c) => (Panic, c)
    | (Val (Some (UErr e)), _, c) => (Err e, c)
    | (Val nu, r1, c) =>
        let r2 := with_next_unit r1 nu in
        let has_header := match nu with Some (UOk u) => msg_is_empty (u_message u) | _ => false end in
        if has_header then
          match parse_po_header lib pf r2 with
          | (Err e, _) => (Err e, c)
          | (Panic, _) => (Panic, c)
          | (Ok _, r3) =>
              tick c
              match next_unit_w false r3 with
              | (Crash, _, c) => (Panic, c)
              | (Val nu, r4, c) => (Ok (with_next_unit r4 nu), c)
              end
          end
        else (Ok r2, c)
    end.

  (** reader.rs:219-230 *)
  Definition po_next_w (r : reader) : safe (option uitem) * reader * nat :=
    match rd_next_unit r with
    | None => (Val None, r, 0)
    | Some (UErr e) => (Val (Some (UErr e)), with_next_unit r None, 0)
    | Some (UOk _) =>
        match next_unit_w false r with
        | (Crash, r', c) => (Crash, r', c)
        | (Val nu, r', c) => (Val (rd_next_unit r'), with_next_unit r' nu, c)
        end
    end.

  Fixpoint po_collect_w (fuel : nat) (r : reader) : option (list uitem) * nat :=
    match fuel with
    | O => (None, 0)
    | S fuel' =>
        match po_next_w r with
        | (Crash, _, c) => (None, c)
        | (Val None, _, c) => (Some [], c)
        | (Val (Some x), r', c) => let (l, c') := po_collect_w fuel' r' in (option_map (cons x) l, c + c')
        end
    end.
End Work.
