(** The byte source and the line iterator: [std::io::{BufReader, Lines}] as used by
    src/po/line_iter.rs. *)
From Coq Require Import String Arith NArith Bool List.
From Verif Require Import ModelBase ModelUtf8 ModelLine ModelFormula ModelData.
Import ListNotations.

(** * The source

    An arbitrary [R: Read] is modelled by the finite list of the results of its successive
    [read] calls; after the list every call returns [Ok(0)].  [RdData []] is an [Ok(0)]
    followed by further results (a source that is not fused at end of file). *)
Inductive rd_event :=
| RdData (d : list byte)
| RdInterrupted                    (* ErrorKind::Interrupted *)
| RdError (code : N).              (* any other error *)

(** [BufReader]: buffered bytes not consumed yet, and the remaining results of [read]. *)
Record source := Source { s_buf : list byte; s_events : list rd_event }.

(** [memchr] for the line feed: the bytes up to and including it, and the rest. *)
Fixpoint split_lf (b : list byte) : option (list byte * list byte) :=
  match b with
  | [] => None
  | x :: b' =>
      if N.eqb x 10 then Some ([x], b')
      else match split_lf b' with
           | Some (l, r) => Some (x :: l, r)
           | None => None
           end
  end.

(** [std::io::read_until(b'\n')]: [acc] is what was appended so far.  [inr] is an error.
    The loop calls [fill_buf] (a [read] when the buffer is empty), retries on
    Interrupted, stops at a line feed or at an empty buffer. *)
Fixpoint read_until_events (acc : list byte) (evs : list rd_event)
  : (list byte + N) * source :=
  match evs with
  | [] => (inl acc, Source [] [])
  | RdData [] :: evs' => (inl acc, Source [] evs')
  | RdData d :: evs' =>
      match split_lf d with
      | Some (l, r) => (inl (acc ++ l), Source r evs')
      | None => read_until_events (acc ++ d) evs'
      end
  | RdInterrupted :: evs' => read_until_events acc evs'
  | RdError code :: evs' => (inr code, Source [] evs')
  end.
Definition read_until (s : source) : (list byte + N) * source :=
  match split_lf (s_buf s) with
  | Some (l, r) => (inl l, Source r (s_events s))
  | None => read_until_events (s_buf s) (s_events s)
  end.

(** [Lines::next]: pops the final line feed, then one carriage return before it. *)
Definition chop_eol (s : str) : str :=
  match rev s with
  | x :: r =>
      if N.eqb x 10 then
        match r with
        | y :: r' => if N.eqb y 13 then rev r' else rev r
        | [] => []
        end
      else s
  | [] => []
  end.

(** [std::io::Lines::next] (via [BufRead::read_line]) *)
Definition lines_next (s : source) : option (str + ioerr) * source :=
  match read_until s with
  | (inr code, s') => (Some (inr (IoRead code)), s')
  | (inl [], s') => (None, s')
  | (inl bytes, s') =>
      match utf8_decode bytes with
      | Some line => (Some (inl (chop_eol line)), s')
      | None => (Some (inr IoInvalidUtf8), s')
      end
  end.

(** * src/po/line_iter.rs *)

(** An item of the iterator: [Result<PoLine, Error>] *)
Inductive item := ILine (l : po_line) | IFail (e : error).

(** line_iter.rs:5-9 (the parser is a constant) *)
Record line_iter := LineIter { li_n : N; li_inner : option source }.

(** line_iter.rs:12-18 [LineIter::new] *)
Definition li_new (evs : list rd_event) : line_iter := LineIter 1 (Some (Source [] evs)).

(** An upper bound of the number of further lines of a source. *)
Fixpoint events_size (evs : list rd_event) : nat :=
  match evs with
  | [] => 0
  | RdData d :: evs' => S (length d) + events_size evs'
  | _ :: evs' => S (events_size evs')
  end.
Definition source_size (s : source) : nat := length (s_buf s) + events_size (s_events s).

(** line_iter.rs:24-55 [next]; [fuel] bounds the iterations of the [while] loop, enough
    fuel is proved to be given ([li_next_fuel_enough], SourceFacts.v). *)
Fixpoint li_loop (fuel : nat) (n : N) (inner : option source) : option item * line_iter :=
  match inner with
  | None => (None, LineIter n None)
  | Some src =>
      match fuel with
      | O => (None, LineIter n inner)
      | S fuel' =>
          match lines_next src with
          | (Some (inr e), _) => (Some (IFail (EIo n e)), LineIter n None)
          | (None, src') => (None, LineIter n (Some src'))
          | (Some (inl line), src') =>
              match parse_line line n with
              | Some PBlank => li_loop fuel' (n + 1) (Some src')
              | Some p => (Some (ILine p), LineIter (n + 1) (Some src'))
              | None => (Some (IFail (EParse (n + 1) line [])), LineIter (n + 1) None)
              end
          end
      end
  end.
Definition li_size (it : line_iter) : nat :=
  match li_inner it with Some s => source_size s | None => 0 end.
Definition li_next (it : line_iter) : option item * line_iter :=
  li_loop (S (li_size it)) (li_n it) (li_inner it).

(** * All results of successive [next] calls

    [Peekable<LineIter>] is modelled by the list of the results that the successive calls
    of [LineIter::next] will return ([None]s included); after the list every call
    returns [None].  [peek] looks at the head, [next] removes it.  That the k-th
    call of [li_next] returns the k-th element is theorem [responses_exact]
    (SourceFacts.v). *)
Definition lines := list (option item).

Definition li_done (it : line_iter) : bool :=
  match li_inner it with
  | None => true
  | Some s => is_empty (s_buf s) && is_empty (s_events s)
  end.
Fixpoint responses_fuel (fuel : nat) (it : line_iter) : lines :=
  match fuel with
  | O => []
  | S fuel' =>
      if li_done it then []
      else let (r, it') := li_next it in r :: responses_fuel fuel' it'
  end.
Definition responses (it : line_iter) : lines := responses_fuel (S (li_size it)) it.

(** [Peekable::peek], [Peekable::next] *)
Definition peek (ls : lines) : option item := hd None ls.
Definition next (ls : lines) : option item * lines := (hd None ls, tl ls).
