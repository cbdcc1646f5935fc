(** Data types of the crate: errors, plural forms, plurals, messages, notes, comments,
    units (src/error.rs, src/plural/forms.rs, src/plural/plural.rs,
    src/enums, src/note.rs, src/comment.rs, src/unit.rs). *)
From Coq Require Import String Arith NArith ZArith Bool List.
From Verif Require Import ModelBase ModelLine ModelFormula.
Import ListNotations.

(** [std::io::Error]: either what the underlying [Read] returned (an opaque number) or
    the error created by [read_line] for invalid UTF-8. *)
Inductive ioerr := IoRead (code : N) | IoInvalidUtf8.

(** src/error.rs:7-30 *)
Inductive error :=
| EIo (line : N) (e : ioerr)
| EParse (line : N) (got expected : str)
| EUnexpected (line : N) (msg : str)
| EPluralForms (msg : str).

(** [Result<T, Error>] with an explicit panic outcome. *)
Inductive outcome (A : Type) := Ok (a : A) | Err (e : error) | Panic.
Arguments Ok {A} _.
Arguments Err {A} _.
Arguments Panic {A}.

(** src/plural/forms.rs:6-11 *)
Record plural_forms := PluralForms {
  pf_formula : node;
  pf_count : N;
  pf_definition : str;
  pf_source : str }.

(** Text of LALRPOP's parse errors: not modelled, represented by this constant. *)
Definition formula_error_text : str := lit "<formula error>".

(** src/po/parser.rs:47: [format!("Bad value list definition: `{}`", text)] *)
Definition bad_list_msg (text : str) : str :=
  lit "Bad value list definition: `" ++ text ++ lit "`".

(** src/plural/forms.rs:14-36 [PluralForms::parse] *)
Definition plural_forms_parse (pf : platform) (input : str) : outcome plural_forms :=
  match parse_map input with
  | None => Err (EUnexpected 0 (bad_list_msg input))
  | Some values =>
      let source := unwrap_or_default (sm_get (lit "plural") values) in
      match formula_parse source with
      | None => Err (EPluralForms formula_error_text)
      | Some formula =>
          match sm_get (lit "nplurals") values with
          | None => Ok (PluralForms formula 2 input source)
          | Some s =>
              match parse_unsigned (usize_max pf) s with
              | inl v => Ok (PluralForms formula v input source)
              | inr e => Err (EPluralForms (int_err_msg e))
              end
          end
      end
  end.

(** src/plural/forms.rs:38-40 [get_value]; outer [None]: panic *)
Definition forms_get_value (pf : platform) (f : plural_forms) (count : N) : option (option N) :=
  match formula_execute pf (pf_formula f) count with
  | None => None
  | Some None => Some None
  | Some (Some v) => Some (if N.ltb v (pf_count f) then Some v else None)
  end.

(** src/plural/plural.rs:6-11 *)
Record plural := Plural {
  pl_forms : option plural_forms;
  pl_singular : str;
  pl_plural : str;
  pl_values : list str }.

(** plural.rs:14-21 [Plural::new] *)
Definition plural_new (singular plural : str) (values : list str) (forms : option plural_forms) :=
  Plural forms singular plural values.
(** plural.rs:31-33 *)
Definition plural_first (p : plural) : str := unwrap_or_default (hd_error (pl_values p)).
(** plural.rs:35-42 [Plural::get]; outer [None]: panic *)
Definition plural_get (pf : platform) (p : plural) (count : N) : option (option str) :=
  match pl_forms p with
  | None => Some None
  | Some forms =>
      match forms_get_value pf forms count with
      | None => None
      | Some None => Some None
      | Some (Some index) => Some (nth_error (pl_values p) (N.to_nat index))
      end
  end.
(** plural.rs:48-50 *)
Definition plural_is_blank (p : plural) : bool := forallb is_empty (pl_values p).

(** src/enums/message.rs:7-13 *)
Inductive message :=
| MSimple (id : str) (text : option str)
| MPlural (p : plural).

(** message.rs:80-87 [Default] *)
Definition message_default : message := MSimple [] None.
(** message.rs:16-21 *)
Definition msg_is_empty (m : message) : bool :=
  match m with MSimple id _ => is_empty id | MPlural _ => false end.
(** message.rs:23-28 *)
Definition msg_is_simple (m : message) : bool :=
  match m with MSimple id _ => negb (is_empty id) | MPlural _ => false end.
(** message.rs:30-35 *)
Definition msg_is_plural (m : message) : bool :=
  match m with MPlural _ => true | _ => false end.
(** message.rs:37-42 *)
Definition msg_is_blank (m : message) : bool :=
  match m with
  | MSimple _ text => match text with None => true | Some s => is_empty s end
  | MPlural p => plural_is_blank p
  end.
(** message.rs:44-49 *)
Definition msg_get_id (m : message) : str :=
  match m with MSimple id _ => id | MPlural p => pl_singular p end.
(** message.rs:51-56 *)
Definition msg_get_text (m : message) : str :=
  match m with MSimple _ text => unwrap_or_default text | MPlural p => plural_first p end.
(** message.rs:58-63 *)
Definition msg_get_plural_id (m : message) : option str :=
  match m with MPlural p => Some (pl_plural p) | _ => None end.
(** message.rs:65-70; outer [None]: panic *)
Definition msg_get_plural_text (pf : platform) (m : message) (count : N) : option (option str) :=
  match m with
  | MPlural p => plural_get pf p count
  | MSimple _ text => Some text
  end.
(** message.rs:72-77 *)
Definition msg_plural (m : message) : option plural :=
  match m with MPlural p => Some p | _ => None end.
(** message.rs:89-106 [PartialEq] *)
Definition msg_eqb (a b : message) : bool :=
  match a, b with
  | MSimple li lt, MSimple ri rt =>
      str_eqb li ri
      && match lt, rt with
         | None, None => true
         | None, Some s => is_empty s
         | Some s, None => is_empty s
         | Some l, Some r => str_eqb r l
         end
  | MPlural l, MPlural r =>
      str_eqb (pl_singular l) (pl_singular r) && str_eqb (pl_plural l) (pl_plural r)
  | _, _ => false
  end.

(** src/enums/origin.rs, src/note.rs, src/comment.rs, src/enums/state.rs *)
Inductive origin := Developer | Translator.
Record note := Note { note_origin : origin; note_value : str }.
Record comment := Comment { com_kind : char; com_content : str }.
Inductive state := StEmpty | StNeedsWork | StFinal.

(** src/unit.rs:20-31 *)
Record unit_ := Unit {
  u_context : option str;
  u_message : message;
  u_prev_context : option str;
  u_prev_message : message;
  u_flags : sset;
  u_notes : list note;
  u_locations : list str;
  u_comments : list comment;
  u_state : state;
  u_obsolete : bool }.

(** src/unit.rs:19 [derive(Default)] *)
Definition unit_default : unit_ :=
  Unit None message_default None message_default [] [] [] [] StEmpty false.

(** src/unit.rs:80-82 *)
Definition unit_is_translated (u : unit_) : bool :=
  match u_state u with StFinal => true | _ => false end.

(** src/error.rs:32-99.  [io_fmt] stands for the formatting ([Display] or [Debug]) of
    [std::io::Error]. *)
Definition lquote : str := [8216%N].
Definition rquote : str := [8217%N].
(** src/error.rs:45-57, 75-87 *)
Definition parse_text (line : N) (got exp : str) : str :=
  lit "Parse error at line " ++ dec_str line
  ++ (if negb (is_empty exp) then lit " expected " ++ lquote ++ exp ++ rquote else [])
  ++ (if negb (is_empty got) then lit ", got " ++ lquote ++ got ++ rquote else []).
(** src/error.rs:37-43, 67-73 *)
Definition unexpected_text (line : N) (msg : str) : str :=
  if N.ltb 0 line then lit "Unexpected error at line " ++ dec_str line ++ lit ": " ++ msg
  else lit "Unexpected error: " ++ msg.
(** src/error.rs:32-60 [Display] with [io_fmt] = [Display]; src/error.rs:62-90 [Debug] with
    [io_fmt] = [Debug] (the two bodies are otherwise the same) *)
Definition error_format (io_fmt : ioerr -> str) (e : error) : str :=
  match e with
  | EIo line err => if N.eqb line 0 then io_fmt err
                    else io_fmt err ++ lit " at line " ++ dec_str line
  | EUnexpected line msg => unexpected_text line msg
  | EPluralForms msg => lit "Error in plurals forms: " ++ msg
  | EParse line got exp => parse_text line got exp
  end.
(** src/error.rs:92-99 [Error::source] *)
Definition error_source (e : error) : option ioerr :=
  match e with EIo _ err => Some err | _ => None end.

(** Values of [std::io::Error]: those of the stream, and those made by [io::Error::new] from an
    error of the crate.  std (library/std/src/io/error.rs): [kind] gives back the kind,
    [get_ref] the error, [Display] and [source] are those of the error,
    [Debug] is that of a structure [Custom] with the fields [kind] and [error]. *)
Inductive io_kind := KInvalidData | KOther.
Inductive io_value := IoStream (x : ioerr) | IoCustom (k : io_kind) (e : error).
(** src/error.rs:101-105 [From<Error> for io::Error] *)
Definition io_from (e : error) : io_value := IoCustom KOther e.
Definition io_kind_of (x : io_value) : option io_kind :=
  match x with IoStream IoInvalidUtf8 => Some KInvalidData | IoStream (IoRead _) => None | IoCustom k _ => Some k end.
Definition io_get_ref (x : io_value) : option error :=
  match x with IoStream _ => None | IoCustom _ e => Some e end.
Definition io_source (x : io_value) : option ioerr :=
  match x with IoStream _ => None | IoCustom _ e => error_source e end.
Definition io_display (display : ioerr -> str) (x : io_value) : str :=
  match x with IoStream x => display x | IoCustom _ e => error_format display e end.
Definition io_debug (debug : ioerr -> str) (x : io_value) : str :=
  match x with
  | IoStream x => debug x
  | IoCustom k e => lit "Custom { kind: " ++ match k with KInvalidData => lit "InvalidData" | KOther => lit "Other" end
                    ++ lit ", error: " ++ error_format debug e ++ lit " }"
  end.
