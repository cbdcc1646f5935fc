(** The work of single calls (C108). *)
From Coq Require Import String Arith NArith ZArith Bool List Lia.
From Verif Require Import ModelBase ModelUtf8 ModelLine ModelFormula ModelData ModelSource ModelReader ModelWork
  SpecLine SpecSource SpecReader SpecBlock SpecFile SpecSize SpecWork SpecLazy SpecCalls FileIntro CallWork.
Import ListNotations.
Local Open Scope nat_scope.

(** C108: every call of [next], after any number of them.  The answers that it takes from the line
    iterator are those in [taken]; the number of forms is a factor only if one of them is a
    [msgid_plural] line. *)
Theorem C108_next : forall lib pf evs r0 k K, po_parse lib pf evs = Ok r0 -> N.to_nat (nforms (rd_plural_forms r0)) <= K -> 1 <= K ->
  let r := snd (calls k r0) in let r' := snd (po_next r) in let work := snd (po_next_w line_chars r) in
  fst (po_next_w line_chars r) = po_next r /\ exists taken, rd_lines r = taken ++ rd_lines r'
  /\ work <= (K + 10) * answers_cost taken + (K + 9) * next_cost (rd_lines r')
  /\ (~ plural_among taken -> work <= 12 * answers_cost taken + 11 * next_cost (rd_lines r')).
Proof. exact call_cost. Qed.
Print Assumptions C108_next.
(** The constructor. *)
Theorem C108_opening : forall lib pf evs r K, po_parse lib pf evs = Ok r -> N.to_nat (nforms (rd_plural_forms r)) <= K -> 1 <= K ->
  let m := reader_new_w line_chars lib pf (responses (li_new evs)) in
  fst m = Ok r /\ exists taken, responses (li_new evs) = taken ++ rd_lines r
  /\ snd m <= (K + 21) * answers_cost taken + (K + 20) * next_cost (rd_lines r)
  /\ (~ plural_among taken -> snd m <= 23 * answers_cost taken + 22 * next_cost (rd_lines r)).
Proof. exact opening_cost. Qed.
Print Assumptions C108_opening.
(** Three hundred forms: the calls that take the entry with a plural, and an entry without; what
    is left of the lines, and the work. *)
Definition calls_lines (n : string) : list string :=
  ["msgid """""; ("msgstr ""Plural-Forms: nplurals=" ++ n ++ "; plural=n;"""); "msgid ""z"""; "msgstr ""y""";
   "msgid ""a"""; "msgid_plural ""b"""; "msgstr[0] ""c"""; "msgid ""d"""; "msgstr ""e"""]%string.
Definition calls_work (n : string) : list (nat * nat) :=
  match po_parse demo_lib demo_pf (lf_stream (calls_lines n)) with
  | Ok r0 => map (fun k => let r := snd (calls k r0) in (length (rd_lines r), snd (po_next_w line_chars r))) [0; 1; 2; 3]
  | _ => []
  end.
Example C108_example : calls_work "2" = [(5, 98); (2, 59); (0, 3); (0, 0)] /\ calls_work "300" = [(5, 2184); (2, 59); (0, 3); (0, 0)].
Proof. vm_compute. repeat split. Qed.
