(** C07 and C08 with the texts of errors about formulas. *)
From Coq Require Import String Arith NArith ZArith Bool List Lia.
From Verif Require Import ModelBase ModelLine ModelFormula ModelData ModelUtf8 ModelSource ModelReader ModelParser ModelReport
  SpecLine SpecSource SpecReader SpecParser FileIntro ReportThms ReportSame.
Import ListNotations.
Local Open Scope N_scope.

(** C07: the way the stream is cut has no influence, on the texts of errors about formulas neither. *)
Theorem C07_texts : forall early expected lib pf evs evs' bs k, cautious early -> delivers evs bs k -> delivers evs' bs k ->
  report_catalogue early expected lib pf evs = report_catalogue early expected lib pf evs'.
Proof. exact report_chunking. Qed.
Print Assumptions C07_texts.
(** C08: nor have the ends of lines. *)
Theorem C08_texts : forall early expected lib pf ls bs bs' evs evs', cautious early -> (forall s, In s ls -> text_line s) ->
  text_file ls bs -> text_file ls bs' -> delivers evs bs None -> delivers evs' bs' None ->
  report_catalogue early expected lib pf evs = report_catalogue early expected lib pf evs'.
Proof. exact report_line_ends. Qed.
Print Assumptions C08_texts.
Example C08_texts_example : let l1 := lit "msgid """"" in let l2 := lit "msgstr ""Plural-Forms: nplurals=2; plural=n n;""" in
  let r bs := report_catalogue (fun _ _ => false) (fun _ _ => []) demo_lib demo_pf [RdData bs] in
  r (utf8 l1 ++ [10] ++ utf8 l2) = Err (EPluralForms (lit "Unrecognized token `n` found at 2:3")) /\ r (utf8 l1 ++ [13; 10] ++ utf8 l2 ++ [10]) = r (utf8 l1 ++ [10] ++ utf8 l2)
  /\ text_file [l1; l2] (utf8 l1 ++ [10] ++ utf8 l2) /\ text_file [l1; l2] (utf8 l1 ++ [13; 10] ++ utf8 l2 ++ [10] ++ []).
Proof. split; [vm_compute; reflexivity|]. split; [vm_compute; reflexivity|]. split; repeat constructor. Qed.
