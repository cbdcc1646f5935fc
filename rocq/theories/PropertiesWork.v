(** The work of reading a catalogue (C49). *)
From Coq Require Import String Arith NArith ZArith Bool List Lia.
From Verif Require Import ModelBase ModelUtf8 ModelLine ModelFormula ModelData ModelSource ModelReader ModelWork
  SpecLine SpecSource SpecReader SpecBlock SpecSize SpecWork FileIntro WorkFacts WorkThms WorkLinear WorkWitness.
Import ListNotations.
Local Open Scope nat_scope.

(** C49: false of the code. *)
(** What is counted is the work of the reader of ModelReader.v. *)
Theorem C49_work_of_the_reader : forall w lib pf evs, fst (read_catalogue_w w lib pf evs) = read_catalogue lib pf evs.
Proof. exact work_of_the_reader. Qed.
Print Assumptions C49_work_of_the_reader.
(** Files with one entry whose reading takes exponentially many steps, in their size; whatever
    a clone costs. *)
Theorem C49_work_bounded_refuted : forall lib pf d, (10 ^ N.of_nat d < 2 ^ usize_bits pf)%N ->
  exists evs c, read_catalogue lib pf evs = Ok c /\ length (c_items c) = 1 /\ events_size evs = d + 98
    /\ forall w, (10 ^ N.of_nat d <= N.of_nat (work w lib pf evs))%N.
Proof. exact work_exponential. Qed.
Print Assumptions C49_work_bounded_refuted.
(** Every plural entry costs at least the number of forms that the header declares. *)
Theorem C49_forms_are_paid : forall w lib pf evs c, read_catalogue lib pf evs = Ok c -> forms_asked (c_items c) <= work w lib pf evs.
Proof. exact work_lower. Qed.
Print Assumptions C49_forms_are_paid.
(** The true bound: apart from this factor, polls are linear in the size of what is read and in
    the number of items; counting the characters of cloned lines adds one factor of that size. *)
Theorem C49_work_bounded_partial : forall lib pf evs r c K, po_parse lib pf evs = Ok r -> N.to_nat (nforms (rd_plural_forms r)) <= K -> 2 <= K ->
  read_catalogue lib pf evs = Ok c ->
  let size := events_size evs in
  work polls_only lib pf evs <= 2 * (size + 1 + (2 + length (c_items c)) * (2 * K + 18))
  /\ work line_chars lib pf evs <= (2 + data_size evs) * (size + 1 + (2 + length (c_items c)) * (2 * K + 18)).
Proof. exact work_polynomial. Qed.
Print Assumptions C49_work_bounded_partial.
(** The same for a catalogue that is refused at its header or first entry. *)
Theorem C49_work_of_a_refusal : forall lib pf evs x, po_parse lib pf evs = Err x ->
  work polls_only lib pf evs <= 2 * (events_size evs + 23) /\ work line_chars lib pf evs <= (2 + data_size evs) * (events_size evs + 23).
Proof. exact work_polynomial_error. Qed.
Print Assumptions C49_work_of_a_refusal.
(** In fact the characters of cloned lines are linear in the size, for a given number of forms. *)
Theorem C49_linear_partial : forall lib pf evs r c K, po_parse lib pf evs = Ok r -> N.to_nat (nforms (rd_plural_forms r)) <= K -> 2 <= K ->
  read_catalogue lib pf evs = Ok c -> work line_chars lib pf evs <= 32 * (K + 10) * (events_size evs + 1).
Proof. exact work_linear. Qed.
Print Assumptions C49_linear_partial.
Theorem C49_linear_refusal : forall lib pf evs x, po_parse lib pf evs = Err x -> work line_chars lib pf evs <= 102 * (events_size evs + 1).
Proof. exact work_linear_error. Qed.
Print Assumptions C49_linear_refusal.
(** Two forms, three hundred forms; a refused file. *)
Definition work_lines (n : string) : list string :=
  ["msgid """""; ("msgstr ""Plural-Forms: nplurals=" ++ n ++ "; plural=n;"""); "msgid ""a"""; "msgid_plural ""b"""; "msgstr[0] ""c"""; "msgid ""d"""; "msgstr ""e"""]%string.
Example C49_example :
  let polls n := work polls_only demo_lib demo_pf (lf_stream (work_lines n)) in
  let chars n := work line_chars demo_lib demo_pf (lf_stream (work_lines n)) in
  polls "2"%string = 46 /\ polls "300"%string = 344 /\ chars "2"%string = 322 /\ chars "300"%string = 2414
  /\ work polls_only demo_lib demo_pf (lf_stream (work_lines "x")) = 13
  /\ (10 ^ N.of_nat 19 < 2 ^ usize_bits demo_pf)%N.
Proof. vm_compute. repeat split. Qed.
