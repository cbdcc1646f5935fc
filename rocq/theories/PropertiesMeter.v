(** What the work of reading a catalogue is (C49). *)
From Coq Require Import String Arith NArith Bool List.
From Verif Require Import ModelBase ModelUtf8 ModelLine ModelFormula ModelData ModelSource ModelReader ModelWork ModelMeter
  SpecLine SpecSource SpecReader SpecBlock SpecWork SpecMeter FileIntro MeterFacts.
Import ListNotations.
Local Open Scope nat_scope.

(** C49: the work that its theorems bound is what a meter shows that only the calls of [peek] and [next] and
    the clones of lines move. *)
Theorem C49_metered : forall w lib pf evs, read_metered w lib pf evs = (read_catalogue lib pf evs, work w lib pf evs).
Proof. exact metered_work. Qed.
Print Assumptions C49_metered.
(** A file that is read, one that is refused at its first entry, one that fails later, one without lines; calls and
    characters of clones. *)
Example C49_metered_example :
  let meter w ls := snd (read_metered w demo_lib demo_pf (lf_stream ls)) in
  let good := ["# note"; "msgid ""a"""; "msgstr ""b"""; """c"""]%string in
  let refused := ["# note"; "msgid ""a"""; "msgid ""b"""]%string in
  let late := ["msgid ""a"""; "msgstr ""b"""; ""; "msgid ""c"""; "nonsense"]%string in
  meter polls_only good = 21 /\ meter line_chars good = 67
  /\ meter polls_only refused = 14 /\ meter line_chars refused = 56
  /\ meter polls_only late = 23 /\ meter line_chars late = 98
  /\ meter polls_only ([] : list string) = 3
  /\ match fst (read_metered polls_only demo_lib demo_pf (lf_stream good)) with Ok c => length (c_items c) = 1 | _ => False end
  /\ match fst (read_metered polls_only demo_lib demo_pf (lf_stream refused)) with Err _ => True | _ => False end.
Proof. vm_compute. repeat split. Qed.
