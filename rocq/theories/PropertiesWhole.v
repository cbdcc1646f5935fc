(** The meaning of a whole file (C59) and the first entry without msgid (C50). *)
From Coq Require Import String Arith NArith ZArith Bool List Lia.
From Verif Require Import ModelBase ModelUtf8 ModelLine ModelFormula ModelData ModelSource ModelReader
  SpecLine SpecFormula SpecSource SpecReader SpecBlock SpecHeader SpecFile SpecWhole FileIntro BlockWitness WholeFacts WholeWitness.
Import ListNotations.
Local Open Scope N_scope.

(** C59 *)
(** The outcome of reading a file is exactly what its lines mean. *)
Theorem C59_meaning : forall lib pf evs ls e pl tl o, file evs ls e pl tl ->
  (whole lib pf pl tl o <-> alike (read_catalogue lib pf evs) o).
Proof. exact whole_file. Qed.
Print Assumptions C59_meaning.
(** Every file has a meaning, and only one. *)
Theorem C59_exists : forall lib pf evs ls e pl tl, file evs ls e pl tl -> exists o, whole lib pf pl tl o.
Proof. exact whole_total. Qed.
Print Assumptions C59_exists.
Theorem C59_unique : forall lib pf evs ls e pl tl o o', file evs ls e pl tl -> whole lib pf pl tl o -> whole lib pf pl tl o' -> alike o o'.
Proof. exact whole_unique. Qed.
Print Assumptions C59_unique.
Example C59_example :
  let shown x := match x with Ok c => (c_notes c, length (c_items c)) | _ => ([], 9%nat) end in
  shown (demo_read "# note") = ([], 0%nat)
  /\ shown (demo_read ("# note" ++ LFs ++ "msgctxt ""c""")) = ([Note Translator (lit "note")], 0%nat)
  /\ shown (demo_read ("# note" ++ LFs ++ "msgid ""a""")) = ([], 0%nat)
  /\ shown (demo_read ("# note" ++ LFs ++ "msgid ""a""" ++ LFs ++ "msgstr ""b""")) = ([], 1%nat)
  /\ shown (demo_read ("# note" ++ LFs ++ "msgid """"" ++ LFs ++ "msgstr """"")) = ([Note Translator (lit "note")], 0%nat).
Proof. repeat split; vm_compute; reflexivity. Qed.

(** C50 *)
(** A first entry without msgid is taken for a header without properties; its comments are
    those of the header; the entries are read from the line that does not belong to it. *)
Theorem C50_first_without_id : forall lib pf evs ls e pl tl h r u, file evs ls e pl tl -> pl = h ++ r -> headless None h u -> headless_ends h r tl ->
  exists c us o, read_catalogue lib pf evs = Ok c /\ c_notes c = u_notes u /\ c_comments c = u_comments u
    /\ (forall k, sm_get k (c_properties c) = None) /\ blocks None r tl us o /\ c_items c = map UOk us ++ error_item o.
Proof. exact headless_first. Qed.
Print Assumptions C50_first_without_id.
Example C50_first_example : file (lf_stream noted_lines) (map lit noted_lines) None (noted_head ++ simple_block 3 4 (lit "a") (lit "b")) None
  /\ headless None noted_head noted_unit /\ headless_ends noted_head (simple_block 3 4 (lit "a") (lit "b")) None.
Proof. exact noted_example. Qed.
Example C50_first_read :
  match demo_read ("# note" ++ LFs ++ "msgid_plural ""lost""" ++ LFs ++ "msgid ""a""" ++ LFs ++ "msgstr ""b""") with
  | Ok c => c_notes c = [Note Translator (lit "note")] /\ c_items c = [UOk (simple_unit (lit "a") (lit "b"))]
  | _ => False
  end.
Proof. vm_compute. auto. Qed.
