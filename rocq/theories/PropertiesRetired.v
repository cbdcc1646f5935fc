(** Marking entries as obsolete (C111). *)
From Coq Require Import String Arith NArith Bool List.
From Verif Require Import ModelBase ModelUtf8 ModelLine ModelFormula ModelData ModelSource ModelReader
  SpecLine SpecSource SpecReader SpecBlock SpecHeader SpecFile SpecRetired FileIntro LineFacts IndepFacts RetiredFacts.
Import ListNotations.
Local Open Scope N_scope.

(** C111 *)
(** The marker of obsolete entries on every keyword and continuation line: the same unit,
    obsolete. *)
Theorem C111_entry : forall forms ls ls' u, Forall2 retired ls ls' -> (forall s, In s ls' -> one_line s) -> entry_text forms ls u ->
  u_obsolete u = false /\ entry_text forms ls' (retired_unit u).
Proof. exact entry_retired. Qed.
Print Assumptions C111_entry.
(** Taking the markers away: the same unit, not obsolete. *)
Theorem C111_entry_back : forall forms ls ls' u', Forall2 retired ls ls' -> (forall s, In s ls -> one_line s) -> entry_text forms ls' u' ->
  exists u, entry_text forms ls u /\ u_obsolete u = false /\ u' = retired_unit u.
Proof. exact entry_revived. Qed.
Print Assumptions C111_entry_back.
(** Some entries of a file: the other entries and the header are not affected. *)
Theorem C111_catalogue : forall lib pf hls v ps forms blks blks' us us' bs evs, heading_text pf hls v ps forms -> Forall2 (entry_text forms) blks us ->
  some_retired blks blks' us us' -> contents bs None (hls ++ concat blks') None -> delivers evs bs None ->
  exists c, read_catalogue lib pf evs = Ok c /\ header_shown lib v ps c /\ c_items c = map UOk us'.
Proof. exact catalogue_retired. Qed.
Print Assumptions C111_catalogue.
Theorem C111_catalogue_without_header : forall lib pf blks blks' us us' bs evs, blks <> [] -> Forall2 (entry_text None) blks us ->
  some_retired blks blks' us us' -> contents bs None (concat blks') None -> delivers evs bs None ->
  read_catalogue lib pf evs = Ok (Catalogue [] [] [] (lang_invariant lib) (map UOk us')).
Proof. exact catalogue_retired_plain. Qed.
Print Assumptions C111_catalogue_without_header.
(** What to write: the marker and a space in front of a line without marker; a tilde before
    the bar of a line of the previous message. *)
Theorem C111_prefix : forall s kw quoted, quoted_line s [] kw quoted -> (forall w r, s = w ++ 35 :: r -> ~ blanks w) ->
  retired s (lit "#~ " ++ s).
Proof. exact retired_prefix. Qed.
Print Assumptions C111_prefix.
Theorem C111_bar : forall w r kw quoted, blanks w -> quoted_line (w ++ lit "#|" ++ r) (lit "|") kw quoted ->
  retired (w ++ lit "#|" ++ r) (w ++ lit "#~|" ++ r).
Proof. exact retired_bar. Qed.
Print Assumptions C111_bar.
(** Two entries with all their parts, as they are and as obsolete ones. *)
Definition retired_sample (t b : string) : list string :=
  ["# note"; "#, fuzzy"; b ++ "msgctxt ""x"""; b ++ "msgid ""o"""; t ++ "msgctxt ""c"""; t ++ "msgid ""a"""; t ++ """b"""; t ++ "msgstr ""g"""; ""; "#: f:1";
   t ++ "msgid ""d"""; t ++ "msgid_plural ""ds"""; t ++ "msgstr[0] ""e"""; t ++ "msgstr[1] ""f"""]%string.
Example C111_example :
  let items t b := match read_catalogue demo_lib demo_pf (lf_stream (retired_sample t b)) with Ok c => c_items c | _ => [] end in
  map (fun i => match i with UOk u => u_obsolete u | _ => true end) (items ""%string "#| "%string) = [false; false]
  /\ items "#~ "%string "#~| "%string = map (fun i => match i with UOk u => UOk (retired_unit u) | _ => i end) (items ""%string "#| "%string)
  /\ map (fun i => match i with UOk u => u_prev_context u | _ => None end) (items "#~ "%string "#~| "%string) = [Some (lit "x"); None].
Proof. vm_compute. repeat split; reflexivity. Qed.
(** The relation of the lines. *)
Example C111_lines : retired (lit "msgid ""a""") (lit "#~ msgid ""a""") /\ retired (lit "#| msgid ""a""") (lit "#~| msgid ""a""") /\ retired (lit "# a") (lit "# a").
Proof.
  assert (white 32) as W by (apply is_ws_white; reflexivity). assert (blanks [32]) as B by (intros c [<-|[]]; exact W). assert (blanks []) as B0 by (intros c []).
  assert (one_line (lit "a")) as O by (apply line_okb_text; reflexivity).
  split; [|split].
  - apply (rt_quoted _ _ [] (Some (lit "msgid")) (lit "a")); [left; reflexivity| |].
    + exists [], [], [], [32], []. split; [reflexivity|]. split; [constructor|]. split; [intros k [= <-]; constructor|auto 10].
    + exists (lit "#~"), [], [32], [32], []. split; [reflexivity|]. split; [constructor|]. split; [intros k [= <-]; constructor|auto 10].
  - apply (rt_quoted _ _ (lit "|") (Some (lit "msgid")) (lit "a")); [right; left; reflexivity| |].
    + exists (lit "#|"), [], [32], [32], []. split; [reflexivity|]. split; [constructor|]. split; [intros k [= <-]; constructor|auto 10].
    + exists (lit "#~|"), [], [32], [32], []. split; [reflexivity|]. split; [constructor|]. split; [intros k [= <-]; constructor|auto 10].
  - apply rt_other. intros f kw q (mark & w1 & w2 & w3 & w4 & E & _). assert (In 34 (lit "# a")) as I by (rewrite E; rewrite !in_app_iff; cbn; auto 10).
    cbn in I. intuition discriminate.
Qed.
