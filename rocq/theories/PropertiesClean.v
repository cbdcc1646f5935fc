(** Exactly which files are read without error (C89). *)
From Coq Require Import String Arith NArith ZArith Bool List Lia.
From Verif Require Import ModelBase ModelUtf8 ModelLine ModelFormula ModelData ModelSource ModelReader
  SpecLine SpecFormula SpecSource SpecReader SpecBlock SpecHeader SpecFile FileIntro CleanFacts.
Import ListNotations.
Local Open Scope N_scope.

(** C89: a file is opened, and its items are all units, exactly when reading does not fail,
    every line is a line of a PO file, and the lines that are not blank are comments only, or
    a first entry cut short after its msgid, or a header (or none) followed by entries.
    After these there may be the beginning of another one ([entries]): it is dropped
    without an error. *)
Theorem C89_error_free : forall lib pf evs ls e pl tl, file evs ls e pl tl ->
  ((exists c, read_catalogue lib pf evs = Ok c /\ forall x, ~ In (UErr x) (c_items c))
   <-> e = None /\ (forall s, In s ls -> exists n l, line_of s n l)
       /\ (Forall comment_line pl \/ (exists w, awaited None pl w /\ w <> lit "msgid")
           \/ exists h r forms us, pl = h ++ r /\ heading pf h r None forms us /\ entries forms r us)).
Proof. exact error_free. Qed.
Print Assumptions C89_error_free.
Example C89_example :
  let clean ls := match read_catalogue demo_lib demo_pf (lf_stream ls) with
    | Ok c => forallb (fun i => match i with UOk _ => true | UErr _ => false end) (c_items c) | _ => false end in
  map clean [[]; ["# c"]; ["msgid ""a"""]; ["msgctxt ""a"""]; ["msgid ""a"""; "msgstr ""b"""]; ["msgid """""; "msgstr """""];
       ["msgid ""a"""; "msgstr ""b"""; "# c"]; ["msgid ""a"""; "msgstr ""b"""; "msgid ""c"""]]%string = repeat true 8
  /\ map clean [["msgid"]; ["msgstr ""b"""]; ["msgid """""; "msgstr ""Plural-Forms: x\n"""]; ["msgid ""a"""; "msgstr ""b"""; "foo"];
       ["msgid ""a"""; "msgstr ""b"""; "msgid """""; "msgstr """""]; ["msgid ""a"""; "msgstr ""b"""; "msgid ""c"""; "# c"; "msgstr ""d"""]]%string = repeat false 6.
Proof. split; vm_compute; reflexivity. Qed.
