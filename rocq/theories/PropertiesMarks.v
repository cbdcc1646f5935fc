(** Markers of obsolete entries and previous messages, compared with GNU gettext (C98). *)
From Coq Require Import String Arith NArith ZArith Bool List Lia.
From Verif Require Import ModelBase ModelUtf8 ModelLine ModelFormula ModelData ModelSource ModelReader
  SpecLine SpecFormula SpecSource SpecReader SpecBlock SpecHeader SpecFile SpecGettext SpecLayout SpecMarks FileIntro BlockWitness IndepFacts LayoutFacts MarksFacts MarksMore.
Import ListNotations.
Local Open Scope N_scope.

(** C98: false of the code that obsolete entries and previous messages are read as by GNU gettext.  True if each
    line has, after its marker, a keyword and one string, or one string, or is empty and without marker. *)
Theorem C98_marks_partial : forall lib pf hls v ps forms ls tss es us bs evs, heading_text pf hls v ps forms ->
  Forall2 marked_line ls tss -> Forall2 (marked_entry forms) es us -> flat_map line_marks tss = concat es -> Forall has_source us -> Forall usual_line tss ->
  contents bs None (hls ++ ls) None -> delivers evs bs None ->
  exists c, read_catalogue lib pf evs = Ok c /\ header_shown lib v ps c /\ c_items c = map UOk us.
Proof. exact marks_read. Qed.
Print Assumptions C98_marks_partial.
(** These are the only files read with the units they stand for, apart from lines with nothing but a marker at the end. *)
Theorem C98_exact_partial : forall lib pf hls v ps forms ls tss es us bs evs, heading_text pf hls v ps forms ->
  Forall2 marked_line ls tss -> Forall2 (marked_entry forms) es us -> flat_map line_marks tss = concat es -> Forall has_source us ->
  contents bs None (hls ++ ls) None -> delivers evs bs None ->
  ((exists c, read_catalogue lib pf evs = Ok c /\ c_items c = map UOk us)
   <-> exists a b, tss = a ++ b /\ Forall usual_line a /\ Forall (fun l => snd l = []) b).
Proof. exact marks_exact. Qed.
Print Assumptions C98_exact_partial.
(** A line with nothing but a marker inside an obsolete entry makes the file fail. *)
Theorem C98_gap_refuted : exists ls tss es u, Forall2 marked_line (map lit ls) tss /\ Forall2 (marked_entry None) es [u] /\ flat_map line_marks tss = concat es /\ has_source u
  /\ forall lib pf, read_catalogue lib pf (lf_stream ls) = Err (EParse 2 (lit "#~") (lit "msgstr")).
Proof. exact marker_gap. Qed.
Print Assumptions C98_gap_refuted.
(** In front of an entry it becomes a comment. *)
Theorem C98_lone_refuted : exists ls tss es u, Forall2 marked_line (map lit ls) tss /\ Forall2 (marked_entry None) es [u] /\ flat_map line_marks tss = concat es /\ has_source u
  /\ forall lib pf, exists c v, read_catalogue lib pf (lf_stream ls) = Ok c /\ c_items c = [UOk v] /\ u_comments v = [Comment 126 []] /\ u_comments u = [].
Proof. exact marker_lone. Qed.
Print Assumptions C98_lone_refuted.
(** Marked lines that gettext refuses are accepted: those with unknown words ... *)
Theorem C98_word_refuted : exists ls, (forall s, In s ls -> forall l, ~ marked_line (lit s) l) /\ ls <> []
  /\ forall lib pf, exists c, read_catalogue lib pf (lf_stream ls) = Ok c /\ c_items c = [].
Proof. exact marker_word. Qed.
Print Assumptions C98_word_refuted.
(** ... and those with a previous context but no previous id. *)
Theorem C98_context_refuted : exists ls tss, Forall2 marked_line (map lit ls) tss /\ (forall forms es us, Forall2 (marked_entry forms) es us -> flat_map line_marks tss <> concat es)
  /\ forall lib pf, exists c v, read_catalogue lib pf (lf_stream ls) = Ok c /\ c_items c = [UOk v] /\ u_prev_context v = Some (lit "c").
Proof. exact marker_context. Qed.
Print Assumptions C98_context_refuted.
Example C98_example : marked_entry None (with_mark (true, false) demo_tokens) (obs_unit [])
  /\ marked_line (lit "#~ msgid ""a""") ((true, false), [GKeyword (lit "msgid"); GString (lit "a")])
  /\ match read_catalogue demo_lib demo_pf (lf_stream ["#~| msgid ""p"""; "#~| msgid_plural ""q"""; "#~ msgctxt ""c"""; "#~ msgid ""a"""; "#~ msgstr ""b"""; "#~ ""d"""]%string) with Ok c => c_items c | _ => [] end
     = [UOk (Unit (Some (lit "c")) (MSimple (lit "a") (Some (lit "bd"))) None (MPlural (Plural None (lit "p") (lit "q") [])) [] [] [] [] StFinal true)].
Proof. split; [exact demo_obsolete|]. split; [apply (field_line (true, false) (lit "msgid") 97); [constructor|discriminate|discriminate]|vm_compute; reflexivity]. Qed.
Example C98_end_example : marked_line (lit "#~") ((true, false), [])
  /\ match read_catalogue demo_lib demo_pf (lf_stream ["#~ msgid ""a"""; "#~ msgstr ""b"""; "#~"]%string) with Ok c => c_items c | _ => [] end = [UOk (obs_unit [])].
Proof. split; [exact (lone_marker (true, false))|vm_compute; reflexivity]. Qed.
