(** The extractor of messages and its decoder (C110). *)
From Coq Require Import String Arith NArith ZArith Bool List.
From Verif Require Import ModelBase ModelUtf8 ModelLine ModelFormula ModelData ModelSource ModelReader ModelDecoder SpecBlock SpecReader SpecDecoder FileIntro DecoderFacts DecoderMore.
Import ListNotations.
Local Open Scope N_scope.

(** C110: with any decoder, a result comes of a dialogue of the stated form, and of no other. *)
Theorem C110_dialogue : forall D (dec : decoder D) forms u first d o d',
  ex_fields dec u forms first d = (o, d') <-> exists l, talks dec u d l d' /\ extraction forms first u l o.
Proof. exact @dialogue. Qed.
Print Assumptions C110_dialogue.
(** No question is asked twice, and there are at most eight more than there are plural forms. *)
Theorem C110_once : forall forms first u l o, extraction forms first u l o ->
  NoDup (map fst l) /\ N.of_nat (length l) <= 8 + match forms with Some f => pf_count f | None => 2 end.
Proof. exact questions_once. Qed.
Print Assumptions C110_once.
(** The reader is the extractor with the decoder of lines. *)
Theorem C110_reader : forall forms first u ls, parse_message_fields forms first u ls = ex_fields line_decoder u forms first ls.
Proof. exact reader_dialogue. Qed.
Print Assumptions C110_reader.
(** A decoder that answers from a list, until it fails: the dialogue is the list of the questions. *)
Example C110_example :
  let dec := Decoder (list (option str) * list question)%type
    (fun tag _ d => match fst d with a :: r => (Ok a, (r, snd d ++ [AskText tag])) | [] => (Err (EUnexpected 7 (lit "x")), ([], snd d ++ [AskText tag])) end)
    (fun tag d => (Ok tt, (fst d, snd d ++ [AskMissed tag]))) in
  let run first l := ex_fields dec unit_default None first (l, []) in
  run false [None; Some (lit "p"); None; None; Some (lit "i"); Some (lit "is"); None; Some (lit "b")]
    = (Ok (Some (filled unit_default None (MSimple (lit "p") None) None (MPlural (Plural None (lit "i") (lit "is") [lit "b"])))),
       ([], [AskText (lit "|msgctxt"); AskText (lit "|msgid"); AskText (lit "|msgid_plural"); AskText (lit "msgctxt"); AskText (lit "msgid"); AskText (lit "msgid_plural"); AskText (lit "msgstr[0]"); AskText (lit "msgstr[1]")]))
  /\ run false [None; None; None; None] = (Ok None, ([], [AskText (lit "|msgctxt"); AskText (lit "|msgid"); AskText (lit "msgctxt"); AskText (lit "msgid"); AskMissed (lit "msgid")]))
  /\ run true [None; None; None; None; Some (lit "lost")]
    = (Ok (Some unit_default), ([], [AskText (lit "|msgctxt"); AskText (lit "|msgid"); AskText (lit "msgctxt"); AskText (lit "msgid"); AskText (lit "msgid_plural")]))
  /\ run false [None; None] = (Err (EUnexpected 7 (lit "x")), ([], [AskText (lit "|msgctxt"); AskText (lit "|msgid"); AskText (lit "msgctxt")]))
  /\ extraction None false unit_default [text_of "|msgctxt" None; text_of "|msgid" None; (AskText (lit "msgctxt"), Failure (EUnexpected 7 (lit "x")))] (Err (EUnexpected 7 (lit "x"))).
Proof.
  split; [vm_compute; reflexivity|]. split; [vm_compute; reflexivity|]. split; [vm_compute; reflexivity|]. split; [vm_compute; reflexivity|].
  apply (xt_failure None false unit_default [text_of "|msgctxt" None; text_of "|msgid" None] (AskText (lit "msgctxt")) (Text None)
    [text_of "msgid" None; (AskMissed (lit "msgid"), Assent)] None).
  apply (wt_intro None false unit_default [text_of "|msgctxt" None; text_of "|msgid" None] None (MSimple [] None) None [text_of "msgid" None; (AskMissed (lit "msgid"), Assent)] None); [apply pt_none|apply mt_missed; reflexivity].
Qed.
