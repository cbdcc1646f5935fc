(** C61: a stream that goes on after reports of its end is read as one file. *)
From Coq Require Import String Arith NArith ZArith Bool List.
From Verif Require Import ModelBase ModelUtf8 ModelLine ModelFormula ModelData ModelSource ModelReader
  SpecLine SpecFormula SpecSource SpecReader SpecBlock SpecHeader SpecFile SpecStitch FileIntro StitchFacts StitchWitness.
Import ListNotations.
Local Open Scope N_scope.

(** If a comment or a keyword line follows each report of the end, or nothing, then the stream is
    read as a file: that of its pieces, one after the other, up to the first report that comes
    before any line, or after a comment, or after a failure.  Hence what is proved of files holds of such
    streams, too. *)
Theorem C61_one_file_partial : forall lib pf evs bs f rs, pieces evs bs f -> answers 1 bs f rs -> resumes_afresh rs ->
  exists bs1 bs2 t f' ls e pl tl, bs = bs1 ++ bs2 /\ stitched bs1 t /\ contents t f' ls e /\ parsed 1 ls e pl tl
  /\ (bs2 = [] /\ f' = f \/ f' = None /\ (tl <> None \/ tl = None /\ terminated t /\ ends_in_comment pl))
  /\ forall evs0, delivers evs0 t f' -> read_catalogue lib pf evs = read_catalogue lib pf evs0.
Proof. exact as_one_file. Qed.
Print Assumptions C61_one_file_partial.

(** Three pieces, one of them without line end, are read as one file with two entries and an unfinished third one. *)
Example C61_one_file_example :
  let p1 := (["# x"; "msgid ""a"""], "")%string in let p2 := (["msgstr ""b"""; "msgid ""c"""], "msgstr ""d""")%string in let p3 := (["msgid ""e"""], "")%string in
  let e := ([], ""%string) in let ps := [p1; p2; p3; e] in
  let evs := portion_stream ps in let bs := map portion_bytes (ps ++ [e]) in
  let t := portion_bytes p1 ++ portion_bytes p2 ++ [13; 10] ++ portion_bytes p3 in
  pieces evs bs None /\ answers 1 bs None (run 1 (ps ++ [e])) /\ resumes_afresh (run 1 (ps ++ [e])) /\ stitched bs t
  /\ read_catalogue demo_lib demo_pf evs = read_catalogue demo_lib demo_pf [RdData t]
  /\ exists c u, read_catalogue demo_lib demo_pf evs = Ok c /\ length (c_items c) = 2%nat /\ nth_error (c_items c) 1 = Some (UOk u).
Proof.
  cbv zeta. split; [|split; [|split; [|split; [|split]]]].
  - exact (portion_pieces [_; _; _; _]).
  - apply run_answers; [discriminate|]. vm_compute. reflexivity.
  - match goal with |- resumes_afresh ?r => let v := eval vm_compute in r in change r with v end.
    do 2 apply resumes_some. apply resumes_report; [right; eexists _, _; split; [reflexivity|exact Logic.I]|]. do 4 apply resumes_some.
    apply resumes_report; [left; intros i [<-|[]]; reflexivity|]. apply resumes_report; [left; intros i []|]. exact resumes_nil.
  - cbn [map app]. apply st_whole; [apply portion_terminated; reflexivity|]. apply st_open; [intros T; apply portion_terminated in T; [discriminate|reflexivity]|].
    rewrite <- (app_nil_r (portion_bytes (["msgid ""e"""], "")%string)). apply st_whole; [apply portion_terminated; reflexivity|].
    apply (st_whole [] [[]] []); [left; reflexivity|]. constructor.
  - vm_compute. reflexivity.
  - match goal with |- exists c u, ?r = Ok c /\ _ => let v := eval vm_compute in r in match v with Ok ?c => let i := eval vm_compute in (nth_error (c_items c) 1) in
      match i with Some (UOk ?u) => exists c, u end end end. split; [vm_compute; reflexivity|]. split; reflexivity.
Qed.
(** The condition is needed: a continuation line, a failure or a second report right after a report are not
    read as in one file. *)
Definition piece (l : list string) : list byte := portion_bytes (l, ""%string).
Example C61_one_file_needed :
  let a := piece ["msgid ""a"""; "msgstr ""b"""]%string in let o := piece ["msgid ""a"""]%string in
  let c := piece ["""c"""]%string in let p := piece ["msgid_plural ""b"""; "msgstr[0] ""c"""]%string in
  read_catalogue demo_lib demo_pf [RdData a; RdData []; RdData c] <> read_catalogue demo_lib demo_pf [RdData (a ++ c)]
  /\ read_catalogue demo_lib demo_pf [RdData a; RdData []; RdError 5] <> read_catalogue demo_lib demo_pf [RdData a; RdError 5]
  /\ read_catalogue demo_lib demo_pf [RdData o; RdData []; RdData []; RdData p] <> read_catalogue demo_lib demo_pf [RdData (o ++ p)]
  /\ read_catalogue demo_lib demo_pf [RdData o; RdData []; RdData []; RdData p] <> read_catalogue demo_lib demo_pf [RdData o].
Proof. vm_compute. repeat split; discriminate. Qed.
