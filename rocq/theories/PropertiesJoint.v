(** Property C121: what can be read before an error. *)
From Coq Require Import String Arith NArith ZArith Bool List Lia.
From Verif Require Import ModelBase ModelLine ModelFormula ModelData ModelUtf8 ModelSource ModelReader
  SpecLine SpecSource SpecReader SpecBlock SpecHeader SpecFault SpecWriter SpecReport SpecPossible SpecBadEnds FileIntro PossibleFacts JointFacts TightErrors.
Import ListNotations.
Local Open Scope N_scope.

(** C121: what is read before an error is possible, and so is the error; the line it names comes after
    two lines for each unit at least ... *)
Theorem C121_only : forall lib pf evs c us x, read_catalogue lib pf evs = Ok c -> c_items c = map UOk us ++ [UErr x] ->
  possible lib pf c us /\ possible_error pf x /\ 2 * N.of_nat (length us) + 1 <= named_line x.
Proof. exact joint_only. Qed.
Print Assumptions C121_only.
(** ... and no more, whatever the number of units ... *)
Theorem C121_tight : forall lib pf n, exists evs bs c us, delivers evs bs None /\ read_catalogue lib pf evs = Ok c
  /\ c_items c = map UOk us ++ [UErr (EParse (2 * N.of_nat n + 1) [] (lit "msgid"))] /\ length us = n.
Proof. exact error_at_once. Qed.
Print Assumptions C121_tight.
(** ... and after whatever can be read, all possible errors can follow, from some line on. *)
Theorem C121_all : forall lib pf c us, possible lib pf c us -> exists k, forall x, possible_error pf x -> k <= named_line x ->
  exists evs bs f c', delivers evs bs f /\ read_catalogue lib pf evs = Ok c' /\ same_catalogue c c' /\ c_items c' = map UOk us ++ [UErr x].
Proof. exact joint_read. Qed.
Print Assumptions C121_all.
(** A header, a unit, then a line that does not fit. *)
Definition before_error : list string := ["msgid """""; "msgstr ""Language: de\n"""; "msgid ""a"""; "msgstr ""b"""; "# x"; "msgctxt ""c"""; "msgctxt ""d"""]%string.
Example C121_example : exists c u, read_catalogue demo_lib demo_pf (lf_stream before_error) = Ok c /\ c_items c = map UOk [u] ++ [UErr (EParse 7 [] (lit "msgid"))]
  /\ c_language c = lit "de" /\ possible demo_lib demo_pf c [u].
Proof.
  assert (exists c u, read_catalogue demo_lib demo_pf (lf_stream before_error) = Ok c /\ c_items c = map UOk [u] ++ [UErr (EParse 7 [] (lit "msgid"))] /\ c_language c = lit "de") as (c & u & R & E & L)
    by (eexists; eexists; vm_compute; repeat split; reflexivity).
  exists c, u. split; [exact R|]. split; [exact E|]. split; [exact L|]. exact (proj1 (joint_only _ _ _ _ _ _ R E)).
Qed.
(** Without a comment in between, a failure after a unit takes the unit along: the line must come late enough. *)
Example C121_late : demo_ids (read_catalogue demo_lib demo_pf (lf_stream ["msgid ""a"""; "msgstr ""b"""; "?"]%string)) = [inr (Some 4)]
  /\ demo_ids (read_catalogue demo_lib demo_pf (lf_stream ["msgid ""a"""; "msgstr ""b"""; "# x"; "?"]%string)) = [inl (lit "a"); inr (Some 5)].
Proof. split; vm_compute; reflexivity. Qed.
(** After one unit, the error can name the third line. *)
Example C121_soon : demo_ids (read_catalogue demo_lib demo_pf (lf_stream ["msgid ""a"""; "msgstr ""b"""; "msgstr ""c"""]%string)) = [inl (lit "a"); inr (Some 3)].
Proof. vm_compute. reflexivity. Qed.
