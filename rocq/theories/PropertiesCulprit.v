(** C117: the line that decides an error. *)
From Coq Require Import String Arith NArith ZArith Bool List.
From Verif Require Import ModelBase ModelUtf8 ModelLine ModelFormula ModelData ModelSource ModelReader
  SpecLine SpecFormula SpecSource SpecReader SpecBlock SpecHeader SpecFile SpecWhole SpecLazy SpecCulprit FileIntro FlagFacts CulpritFacts.
Import ListNotations.

(** C117 *)
(** False of the code that a file which is refused at a line is refused whatever comes after this
    line (C117_sourceless_refuted).  True of errors about a line that is not acceptable, or does
    not fit: all files with the same lines up to there have the same header data, units and error, *)
Theorem C117_decided_partial : forall lib pf evs ls e pl tl evs' ls' e' pl' tl' n g w, file evs ls e pl tl -> ends_with_error (read_catalogue lib pf evs) (EParse n g w) ->
  file evs' ls' e' pl' tl' -> firstn (culprit n w) ls' = firstn (culprit n w) ls -> SpecWhole.alike (read_catalogue lib pf evs') (read_catalogue lib pf evs).
Proof. exact error_decided. Qed.
Print Assumptions C117_decided_partial.
(** this is a line of the file, *)
Theorem C117_exists : forall lib pf evs ls e pl tl n g w, file evs ls e pl tl -> ends_with_error (read_catalogue lib pf evs) (EParse n g w) -> 0 < culprit n w <= length ls.
Proof. exact culprit_exists. Qed.
Print Assumptions C117_exists.
(** and the first of its kind: files with fewer of the lines have no such error. *)
Theorem C117_first : forall lib pf evs ls e pl tl evs' e' pl' tl' n g w k, file evs ls e pl tl -> ends_with_error (read_catalogue lib pf evs) (EParse n g w) ->
  k < culprit n w -> file evs' (firstn k ls) e' pl' tl' -> forall n' g' w', ~ ends_with_error (read_catalogue lib pf evs') (EParse n' g' w').
Proof. exact error_first. Qed.
Print Assumptions C117_first.
(** An entry without source is reported with the number of its first keyword line, but decided by
    the line after it (or by the end of the file). *)
Theorem C117_sourceless_partial : forall lib pf evs ls e pl tl n s, file evs ls e pl tl -> ends_with_error (read_catalogue lib pf evs) (EUnexpected n s) -> n <> 0%N ->
  exists r, sourceless_at pl tl n r /\ forall l r0 evs' ls' e' pl' tl', r = l :: r0 -> file evs' ls' e' pl' tl' -> firstn (N.to_nat (po_line_no l)) ls' = firstn (N.to_nat (po_line_no l)) ls ->
    SpecWhole.alike (read_catalogue lib pf evs') (read_catalogue lib pf evs).
Proof. exact sourceless_decided. Qed.
Print Assumptions C117_sourceless_partial.
Theorem C117_sourceless_refuted : exists evs ls pl evs' ls' pl' n s, file evs ls None pl None /\ file evs' ls' None pl' None /\ firstn (N.to_nat n) ls' = firstn (N.to_nat n) ls
  /\ forall lib pf, ends_with_error (read_catalogue lib pf evs) (EUnexpected n s) /\ exists c u v, read_catalogue lib pf evs' = Ok c /\ c_items c = [UOk u; UOk v].
Proof. exact decided_refuted. Qed.
Print Assumptions C117_sourceless_refuted.
(** The third line does not fit, whatever follows; without it there is no error. *)
Definition unfit_lines : list string := ["msgid ""a"""; "msgid_plural ""b"""; "msgstr ""c"""; "msgid ""d"""; "oops"]%string.
Example C117_example : exists pl tl, file (lf_stream unfit_lines) (map lit unfit_lines) None pl tl
  /\ ends_with_error (read_catalogue demo_lib demo_pf (lf_stream unfit_lines)) (EParse 3 [] (lit "msgstr[0]"))
  /\ ends_with_error (read_catalogue demo_lib demo_pf (lf_stream (firstn 3 unfit_lines))) (EParse 3 [] (lit "msgstr[0]"))
  /\ exists c, read_catalogue demo_lib demo_pf (lf_stream (firstn 2 unfit_lines)) = Ok c /\ c_items c = [].
Proof.
  do 2 eexists. split; [apply lf_file; [discriminate|vm_compute; reflexivity|vm_compute; reflexivity]|].
  split; [left; vm_compute; reflexivity|]. split; [left; vm_compute; reflexivity|]. eexists. split; vm_compute; reflexivity.
Qed.
(** A line that is not acceptable: the number is one too large. *)
Definition unread_lines : list string := ["msgid ""a"""; "msgstr ""b"""; "oops"; "msgid ""c"""]%string.
Example C117_unread : exists pl tl c u, file (lf_stream unread_lines) (map lit unread_lines) None pl tl
  /\ read_catalogue demo_lib demo_pf (lf_stream unread_lines) = Err (EParse 4 (lit "oops") []) /\ culprit 4 [] = 3
  /\ read_catalogue demo_lib demo_pf (lf_stream (firstn 2 unread_lines)) = Ok c /\ c_items c = [UOk u].
Proof.
  do 4 eexists. split; [apply lf_file; [discriminate|vm_compute; reflexivity|vm_compute; reflexivity]|]. split; [vm_compute; reflexivity|]. split; [reflexivity|]. split; vm_compute; reflexivity.
Qed.
