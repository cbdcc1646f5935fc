(** The dialogue of the extractor of messages with its decoder (C110). *)
From Coq Require Import String NArith Bool List.
From Verif Require Import ModelBase ModelLine ModelFormula ModelData SpecBlock ModelDecoder.
Import ListNotations.

(** A question is a tag whose text is wanted, or a tag that should have been there.  An answer is a
    text (or none), an assent, or a failure. *)
Inductive question := AskText (tag : str) | AskMissed (tag : str).
Inductive answer := Text (t : option str) | Assent | Failure (e : error) | Crashes.
Definition turn : Type := question * answer.

(** The answers of a decoder: [talks dec u d l d'], asked the questions of [l] one after the other
    about the unit [u], it gives the answers of [l], and goes from the state [d] to the state [d']. *)
Definition text_answer (o : outcome (option str)) : answer := match o with Ok t => Text t | Err e => Failure e | Panic => Crashes end.
Definition assent_answer (o : outcome unit) : answer := match o with Ok _ => Assent | Err e => Failure e | Panic => Crashes end.
Inductive talks {D} (dec : decoder D) (u : unit_) : D -> list turn -> D -> Prop :=
| tk_end d : talks dec u d [] d
| tk_text d tag o d1 l d2 : dec_msg dec tag u d = (o, d1) -> talks dec u d1 l d2 -> talks dec u d ((AskText tag, text_answer o) :: l) d2
| tk_missed d tag o d1 l d2 : dec_expected dec tag d = (o, d1) -> talks dec u d1 l d2 -> talks dec u d ((AskMissed tag, assent_answer o) :: l) d2.

(** What is said, at first, about the message before the last change: a plural is asked for only if there is a message. *)
Definition text_of (tag : string) (t : option str) : turn := (AskText (lit tag), Text t).
Inductive previous_talk (forms : option plural_forms) : list turn -> option str -> message -> Prop :=
| pt_none c : previous_talk forms [text_of "|msgctxt" c; text_of "|msgid" None] c (MSimple [] None)
| pt_simple c i : previous_talk forms [text_of "|msgctxt" c; text_of "|msgid" (Some i); text_of "|msgid_plural" None] c (MSimple i None)
| pt_plural c i p : previous_talk forms [text_of "|msgctxt" c; text_of "|msgid" (Some i); text_of "|msgid_plural" (Some p)] c (MPlural (Plural forms i p [])).
(** The plural forms: each is asked for once, in order; those that are there are kept. *)
Inductive values_talk (count : N) : N -> list turn -> list str -> Prop :=
| vt_end i : (count <= i)%N -> values_talk count i [] []
| vt_given i kw v l vs : (i < count)%N -> msgstr_kw i kw -> values_talk count (i + 1) l vs -> values_talk count i ((AskText kw, Text (Some v)) :: l) (v :: vs)
| vt_absent i kw l vs : (i < count)%N -> msgstr_kw i kw -> values_talk count (i + 1) l vs -> values_talk count i ((AskText kw, Text None) :: l) vs.
(** The message itself; [None]: there is none. *)
Inductive message_talk (forms : option plural_forms) (first : bool) : list turn -> option message -> Prop :=
| mt_missed : first = false -> message_talk forms first [text_of "msgid" None; (AskMissed (lit "msgid"), Assent)] None
| mt_none p : first = true -> message_talk forms first [text_of "msgid" None; text_of "msgid_plural" p] (Some (MSimple [] None))
| mt_empty i : message_talk forms first [text_of "msgid" (Some i); text_of "msgid_plural" None; text_of "msgstr" (Some [])] (Some (MSimple i None))
| mt_simple i t : t <> [] -> message_talk forms first [text_of "msgid" (Some i); text_of "msgid_plural" None; text_of "msgstr" (Some t)] (Some (MSimple i (Some t)))
| mt_no_text i : message_talk forms first [text_of "msgid" (Some i); text_of "msgid_plural" None; text_of "msgstr" None; (AskMissed (lit "msgstr"), Assent)] None
| mt_plural i p l vs : values_talk (match forms with Some f => pf_count f | None => 2 end) 0 l vs -> vs <> [] ->
    message_talk forms first (text_of "msgid" (Some i) :: text_of "msgid_plural" (Some p) :: l) (Some (MPlural (Plural forms i p vs)))
| mt_no_values i p l : values_talk (match forms with Some f => pf_count f | None => 2 end) 0 l [] ->
    message_talk forms first (text_of "msgid" (Some i) :: text_of "msgid_plural" (Some p) :: l ++ [(AskMissed (lit "msgstr[0]"), Assent)]) None.
(** The unit that comes of it: the four fields are set, the others are kept. *)
Definition filled (u : unit_) (pc : option str) (pm : message) (c : option str) (m : message) : unit_ :=
  Unit c m pc pm (u_flags u) (u_notes u) (u_locations u) (u_comments u) (u_state u) (u_obsolete u).
Inductive whole_talk (forms : option plural_forms) (first : bool) (u : unit_) : list turn -> option unit_ -> Prop :=
| wt_intro l pc pm c l' m : previous_talk forms l pc pm -> message_talk forms first l' m ->
    whole_talk forms first u (l ++ text_of "msgctxt" c :: l') (option_map (filled u pc pm c) m).
(** A failure ends the dialogue, wherever it comes; otherwise it goes on to its end. *)
Inductive extraction (forms : option plural_forms) (first : bool) (u : unit_) : list turn -> outcome (option unit_) -> Prop :=
| xt_whole l r : whole_talk forms first u l r -> extraction forms first u l (Ok r)
| xt_failure l q a l' r e : whole_talk forms first u (l ++ (q, a) :: l') r -> extraction forms first u (l ++ [(q, Failure e)]) (Err e)
| xt_crash l q a l' r : whole_talk forms first u (l ++ (q, a) :: l') r -> extraction forms first u (l ++ [(q, Crashes)]) Panic.
