(** Files with the same lines, with the texts of errors about formulas (C07, C08). *)
From Coq Require Import String Arith NArith ZArith Bool List Lia.
From Verif Require Import ModelBase ModelLine ModelFormula ModelData ModelUtf8 ModelSource ModelReader ModelParser ModelReport
  SpecLine SpecSource SpecReader SpecParser SourceFacts IterFacts ReadsFacts CatalogueFacts StreamFacts StreamThms ReportFacts RenamedReport.
Import ListNotations.
Local Open Scope N_scope.

Theorem report_items early expected lib pf evs evs' bs bs' k k' ls ls' e e' : cautious early -> delivers evs bs k -> delivers evs' bs' k' -> contents bs k ls e -> contents bs' k' ls' e' ->
  items 1 ls e = items 1 ls' e' -> report_catalogue early expected lib pf evs = report_catalogue early expected lib pf evs'.
Proof.
  intros Ca D D' C C' I. pose proof (items_catalogue lib pf _ _ _ _ _ _ _ _ _ _ D D' C C' I) as Q.
  destruct (report_cases early expected Ca lib pf evs) as [[-> N]|(u & l & def & x & Qu & G & F & -> & E)];
    destruct (report_cases early expected Ca lib pf evs') as [[-> N']|(u' & l' & def' & x' & Qu' & G' & F' & -> & E')]; try congruence.
  destruct (first_contents _ _ _ _ _ _ _ D C Qu) as (r & H). destruct (first_contents _ _ _ _ _ _ _ D' C' Qu') as (r' & H'). congruence.
Qed.
Theorem report_chunking early expected lib pf evs evs' bs k : cautious early -> delivers evs bs k -> delivers evs' bs k ->
  report_catalogue early expected lib pf evs = report_catalogue early expected lib pf evs'.
Proof. intros Ca D D'. destruct (contents_total bs k) as (ls & e & C). exact (report_items _ _ _ _ _ _ _ _ _ _ _ _ _ _ Ca D D' C C eq_refl). Qed.
Theorem report_line_ends early expected lib pf ls bs bs' evs evs' : cautious early -> (forall s, In s ls -> text_line s) ->
  text_file ls bs -> text_file ls bs' -> delivers evs bs None -> delivers evs' bs' None ->
  report_catalogue early expected lib pf evs = report_catalogue early expected lib pf evs'.
Proof.
  intros Ca H F F' D D'. destruct (text_file_contents _ _ F H) as (l & C & E), (text_file_contents _ _ F' H) as (l' & C' & E').
  eapply report_items; [exact Ca|exact D|exact D'|exact C|exact C'|]. rewrite E, E'. reflexivity.
Qed.
