(** Files put one after the other (C83). *)
From Coq Require Import String Arith NArith ZArith Bool List Lia.
From Verif Require Import ModelBase ModelUtf8 ModelLine ModelFormula ModelData ModelSource ModelReader
  SpecLine SpecFormula SpecSource SpecReader SpecBlock SpecHeader SpecFile SpecJoin FileIntro BlockWitness IndepFacts JoinFacts.
Import ListNotations.
Local Open Scope N_scope.

(** C83 *)
(** Entries appended to a file: the units of both. *)
Theorem C83_entries_appended : forall lib pf h1 v1 ps1 forms1 blks1 us1 blks2 us2 a b evs,
  heading_text pf h1 v1 ps1 forms1 -> Forall2 (entry_text forms1) blks1 us1 -> contents a None (h1 ++ concat blks1) None -> ended a ->
  Forall2 (entry_text forms1) blks2 us2 -> contents b None (concat blks2) None -> delivers evs (a ++ b) None ->
  exists c, read_catalogue lib pf evs = Ok c /\ header_shown lib v1 ps1 c /\ c_items c = map UOk us1 ++ map UOk us2.
Proof. exact entries_appended. Qed.
Print Assumptions C83_entries_appended.
(** A file with a header appended to a file: the units of the first one, then an error that
    points to the second header; nothing of the second file is delivered. *)
Theorem C83_second_header : forall lib pf h1 v1 ps1 forms1 blks1 us1 h2 v2 ps2 forms2 blks2 us2 a b evs,
  heading_text pf h1 v1 ps1 forms1 -> Forall2 (entry_text forms1) blks1 us1 -> contents a None (h1 ++ concat blks1) None -> ended a ->
  heading_text pf h2 v2 ps2 forms2 -> Forall2 (entry_text forms2) blks2 us2 -> contents b None (h2 ++ concat blks2) None ->
  delivers evs (a ++ b) None ->
  exists c i, read_catalogue lib pf evs = Ok c /\ header_shown lib v1 ps1 c /\ keyword_at h2 i
    /\ c_items c = map UOk us1 ++ [UErr (EUnexpected (1 + N.of_nat (length (h1 ++ concat blks1)) + i) (lit "Source should not be empty"))].
Proof. exact header_again. Qed.
Print Assumptions C83_second_header.
Example C83_example :
  let h := ["msgid """""; "msgstr """""]%string in let e := ["msgid ""a"""; "msgstr ""b"""]%string in
  let ids := fun ls => match read_catalogue demo_lib demo_pf (lf_stream ls) with Ok c => c_items c | _ => [] end in
  heading_text demo_pf (map lit h) (simple_unit [] []) [] None /\ entry_text None (map lit e) (simple_unit (lit "a") (lit "b"))
  /\ ids (h ++ e ++ e) = [UOk (simple_unit (lit "a") (lit "b")); UOk (simple_unit (lit "a") (lit "b"))]
  /\ ids (h ++ e ++ ["# x"; ""]%string ++ h ++ e)%list = [UOk (simple_unit (lit "a") (lit "b")); UErr (EUnexpected 7 (lit "Source should not be empty"))].
Proof.
  split; [apply empty_heading|]. split; [apply simple_text; [reflexivity|vm_compute; reflexivity|vm_compute; reflexivity|discriminate]|].
  split; vm_compute; reflexivity.
Qed.
