(** The parts of an entry are read independently of each other (C112). *)
From Coq Require Import String Arith NArith Bool List.
From Verif Require Import ModelBase ModelUtf8 ModelLine ModelFormula ModelData ModelSource ModelReader
  SpecLine SpecSource SpecReader SpecBlock SpecHeader SpecFile SpecSections FileIntro LineFacts IndepFacts SectionsFacts.
Import ListNotations.
Local Open Scope N_scope.

(** C112 *)
(** The entries are the texts made of comments, previous message, context and message; what a
    unit shows of each part is determined by this part alone. *)
Theorem C112_parts : forall forms ls u, entry_text forms ls u <-> sections forms ls u.
Proof. exact entry_sections. Qed.
Print Assumptions C112_parts.
(** Files written part by part. *)
Theorem C112_catalogue : forall lib pf hls v ps forms blks us bs evs, heading_text pf hls v ps forms -> Forall2 (sections forms) blks us ->
  contents bs None (hls ++ concat blks) None -> delivers evs bs None ->
  exists c, read_catalogue lib pf evs = Ok c /\ header_shown lib v ps c /\ c_items c = map UOk us.
Proof. exact catalogue_sections. Qed.
Print Assumptions C112_catalogue.
(** Comments are added to an entry, anywhere among its comments: all else is as it was. *)
Theorem C112_comments : forall lib pf hls v ps forms blks1 A S B blks2 us1 u us2 F N L C bs evs, heading_text pf hls v ps forms -> Forall2 (entry_text forms) blks1 us1 ->
  (exists F N L C, comment_part A F N L C) -> comment_part S F N L C -> entry_text forms (A ++ B) u -> Forall2 (entry_text forms) blks2 us2 ->
  contents bs None (hls ++ concat blks1 ++ (A ++ S ++ B) ++ concat blks2) None -> delivers evs bs None ->
  exists c u', read_catalogue lib pf evs = Ok c /\ header_shown lib v ps c /\ c_items c = map UOk (us1 ++ u' :: us2) /\ commented_unit u F N L C u'.
Proof. exact catalogue_comments. Qed.
Print Assumptions C112_comments.
(** An instance: the entry is marked as fuzzy. *)
Theorem C112_fuzzy : comment_part [lit "#, fuzzy"] [lit "fuzzy"] [] [] [].
Proof. exact fuzzy_part. Qed.
Print Assumptions C112_fuzzy.
(** The message of an entry is replaced. *)
Theorem C112_message : forall lib pf hls v ps forms blks1 B M M' blks2 us1 u us2 obs m m' st bs evs, heading_text pf hls v ps forms -> Forall2 (entry_text forms) blks1 us1 ->
  message_part forms obs M m -> message_part forms obs M' m' -> entry_text forms (B ++ M) u -> Forall2 (entry_text forms) blks2 us2 ->
  (forall t, m' <> MSimple [] t) -> state_of (u_flags u) m' st ->
  contents bs None (hls ++ concat blks1 ++ (B ++ M') ++ concat blks2) None -> delivers evs bs None ->
  exists c, read_catalogue lib pf evs = Ok c /\ header_shown lib v ps c /\ c_items c = map UOk (us1 ++ reworded u m' st :: us2).
Proof. exact catalogue_message. Qed.
Print Assumptions C112_message.
(** The translation of an entry is replaced. *)
Theorem C112_translation : forall forms B I S S' u obs id t t', string_part obs (lit "msgid") I id -> id <> [] -> string_part obs (lit "msgstr") S t -> string_part obs (lit "msgstr") S' t' ->
  entry_text forms (B ++ I ++ S) u ->
  let st := if existsb (str_eqb (lit "fuzzy")) (u_flags u) then StNeedsWork else match t' with [] => StEmpty | _ => StFinal end in
  entry_text forms (B ++ I ++ S') (reworded u (MSimple id (some_text t')) st).
Proof. exact translation_replaced. Qed.
Print Assumptions C112_translation.
(** An entry with all its parts, with and without a fuzzy mark, and with another translation. *)
Definition sections_sample (f : list string) (t : string) : list string :=
  ["# note"]%string ++ f ++ ["#: f:1"; "#| msgctxt ""x"""; "#| msgid ""o"""; "msgctxt ""c"""; "msgid ""a"""; "msgstr """ ++ t ++ """"; ""; "msgid ""d"""; "msgstr ""e"""]%string.
Example C112_example :
  let items f t := match read_catalogue demo_lib demo_pf (lf_stream (sections_sample f t)) with Ok c => c_items c | _ => [] end in
  let unit f t := match items f t with UOk u :: _ => u | _ => Unit None (MSimple [] None) None (MSimple [] None) [] [] [] [] StEmpty false end in
  let u := unit [] "g"%string in let v := unit ["#, fuzzy"%string] "g"%string in let w := unit [] "h"%string in
  (u_flags u, u_state u) = ([], StFinal) /\ (u_flags v, u_state v) = ([lit "fuzzy"], StNeedsWork)
  /\ v = Unit (u_context u) (u_message u) (u_prev_context u) (u_prev_message u) [lit "fuzzy"] (u_notes u) (u_locations u) (u_comments u) StNeedsWork false
  /\ w = reworded u (MSimple (lit "a") (Some (lit "h"))) StFinal /\ unit [] ""%string = reworded u (MSimple (lit "a") None) StEmpty
  /\ tl (items ["#, fuzzy"%string] "g"%string) = tl (items [] "g"%string) /\ length (items [] "g"%string) = 2%nat.
Proof. vm_compute. repeat split; reflexivity. Qed.
(** The parts of a small entry. *)
Example C112_sections : sections None [lit "#, fuzzy"; lit "msgid ""a"""; lit "msgstr ""b"""]
  (Unit None (MSimple (lit "a") (Some (lit "b"))) None (MSimple [] None) [lit "fuzzy"] [] [] [] StNeedsWork false).
Proof.
  apply (sc_intro None [lit "#, fuzzy"] [] [] [lit "msgid ""a"""; lit "msgstr ""b"""] [lit "fuzzy"] [] [] [] false None (MSimple [] None) None (MSimple (lit "a") (Some (lit "b"))) StNeedsWork).
  - exact fuzzy_part.
  - exists [], []. split; [constructor|]. split; constructor.
  - exists []. split; constructor.
  - apply (simple_part None false [lit "msgid ""a"""] [lit "msgstr ""b"""] (lit "a") (lit "b")).
    + exists [PMessage 1 [] (lit "msgid") (lit "a")]. split; [exact (parse_lines_spec [lit "msgid ""a"""] (okb_lines [lit "msgid ""a"""] eq_refl) 1)|].
      apply (fl_intro (own false) (lit "msgid") 1 (lit "a") [] []). constructor.
    + exists [PMessage 1 [] (lit "msgstr") (lit "b")]. split; [exact (parse_lines_spec [lit "msgstr ""b"""] (okb_lines [lit "msgstr ""b"""] eq_refl) 1)|].
      apply (fl_intro (own false) (lit "msgstr") 1 (lit "b") [] []). constructor.
  - apply so_fuzzy. left. reflexivity.
  - intros t H. discriminate H.
Qed.
