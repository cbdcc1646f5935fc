(** src/po/message_extractor.rs for any decoder, as it is written there; ModelReader.v has it for the decoder of the reader. *)
From Coq Require Import String Arith NArith Bool List.
From Verif Require Import ModelBase ModelUtf8 ModelLine ModelFormula ModelData ModelSource ModelReader.
Import ListNotations.

(** decoder.rs:17-20, the trait [Decoder]: functions on the state [D] of the decoder *)
Record decoder (D : Type) := Decoder {
  dec_msg : str -> unit_ -> D -> outcome (option str) * D;
  dec_expected : str -> D -> outcome unit * D }.
Arguments dec_msg {D} _ _ _ _.
Arguments dec_expected {D} _ _ _.

Section Extractor.
Context {D : Type}.
Variable dec : decoder D.
(** The [?] operator *)
Definition gbind {A B} (m : outcome A * D) (f : A -> D -> outcome B * D) : outcome B * D :=
  match m with
  | (Ok a, d) => f a d
  | (Err e, d) => (Err e, d)
  | (Panic, d) => (Panic, d)
  end.

(** message_extractor.rs:10-14: the fields [unit] and [plural_forms] *)
Variable u : unit_.
Variable forms : option plural_forms.

(** message_extractor.rs:125-127 [parse_msg], 129-131 [expected] *)
Definition ex_msg (tag : str) (d : D) : outcome (option str) * D := dec_msg dec tag u d.
Definition ex_expected (exp : str) (d : D) : outcome unit * D := dec_expected dec exp d.

(** message_extractor.rs:82-86 *)
Fixpoint ex_values (k : nat) (i : N) (values : list str) (d : D) : outcome (list str) * D :=
  match k with
  | O => (Ok values, d)
  | S k' => gbind (ex_msg (msgstr_tag i) d) (fun v d => ex_values k' (i + 1)%N (match v with Some v => values ++ [v] | None => values end) d)
  end.

(** message_extractor.rs:70-110 [new_message] *)
Definition ex_message (msgid msgid_pl : option str) (d : D) : outcome (option message) * D :=
  match msgid with
  | None => (Ok (Some message_default), d)
  | Some singular =>
      match msgid_pl with
      | Some pl =>
          gbind (ex_values (N.to_nat (forms_count forms)) 0%N [] d) (fun values d =>
          if is_empty values then gbind (ex_expected (lit "msgstr[0]") d) (fun _ d => (Ok None, d))
          else (Ok (Some (MPlural (plural_new singular pl values forms))), d))
      | None =>
          gbind (ex_msg (lit "msgstr") d) (fun t d =>
          match t with
          | Some text => (Ok (Some (MSimple singular (if is_empty text then None else Some text))), d)
          | None => gbind (ex_expected (lit "msgstr") d) (fun _ d => (Ok None, d))
          end)
      end
  end.

(** message_extractor.rs:25-68 [parse_message_fields] *)
Definition ex_fields (first : bool) (d : D) : outcome (option unit_) * D :=
  gbind (ex_msg (lit "|msgctxt") d) (fun prev_context d =>
  gbind (ex_msg (lit "|msgid") d) (fun prev_msgid d =>
  gbind (match prev_msgid with Some _ => ex_msg (lit "|msgid_plural") d | None => (Ok None, d) end) (fun prev_msgid_pl d =>
  gbind (ex_msg (lit "msgctxt") d) (fun context d =>
  gbind (ex_msg (lit "msgid") d) (fun msgid d =>
  if negb first && match msgid with None => true | Some _ => false end then
    gbind (ex_expected (lit "msgid") d) (fun _ d => (Ok None, d))
  else
    gbind (ex_msg (lit "msgid_plural") d) (fun msgid_pl d =>
    gbind (ex_message msgid msgid_pl d) (fun m d =>
    match m with
    | None => (Ok None, d)
    | Some msg => (Ok (Some (set_message u prev_context (new_previous forms prev_msgid prev_msgid_pl) context msg)), d)
    end))))))).
End Extractor.

(** decoder.rs:22-71: the decoder of the reader *)
Definition line_decoder : decoder lines :=
  Decoder _ (fun tag u ls => parse_msg (u_obsolete u) tag ls) expected.
