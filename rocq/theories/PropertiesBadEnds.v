(** Property C120: the errors that reading can end with. *)
From Coq Require Import String Arith NArith ZArith Bool List Lia.
From Verif Require Import ModelBase ModelLine ModelFormula ModelData ModelUtf8 ModelSource ModelReader
  SpecLine SpecSource SpecReader SpecBlock SpecHeader SpecFault SpecWriter SpecBadEnds BlocksFacts FileIntro BadEndFacts.
Import ListNotations.
Local Open Scope N_scope.

(** C120: whatever the stream, if reading ends with an error, it is a possible one ... *)
Theorem C120_only : forall lib pf evs x, ends_with_error (read_catalogue lib pf evs) x -> possible_error pf x.
Proof. exact error_possible. Qed.
Print Assumptions C120_only.
(** ... and reading ends with each of the possible ones for some stream. *)
Theorem C120_all : forall lib pf x, possible_error pf x -> exists evs bs f, delivers evs bs f /\ ends_with_error (read_catalogue lib pf evs) x.
Proof. exact possible_comes_out. Qed.
Print Assumptions C120_all.
(** A few of them; and that an error names the keyword it stopped at, or awaits a context, is impossible. *)
Example C120_example : possible_error demo_pf (EIo 7 IoInvalidUtf8) /\ possible_error demo_pf (EParse 12 (lit "oops") []) /\ possible_error demo_pf (EParse 5 (lit "#.") (lit "msgstr[0]"))
  /\ demo_ids (read_catalogue demo_lib demo_pf (lf_stream [""; ""; "msgid ""a"""; "msgid_plural ""b"""; "#. c"]%string)) = [inr (Some 5)].
Proof.
  split; [apply pe_failure; lia|]. split; [|split; [|vm_compute; reflexivity]].
  - assert (one_line (lit "oops")) as O by (intros I; cbn in I; intuition discriminate). apply pe_unreadable; [lia|exact O|intros c I; cbn in I; left; lia|].
    intros m l L. apply (line_of_iff _ _ _ O) in L. discriminate L.
  - assert (one_line (lit "#. c")) as O by (intros I; cbn in I; intuition discriminate).
    apply (pe_no_form demo_pf 5 (lit "#. c") (PComment 5 46 (lit "c"))); [lia|exact O|intros c I; cbn in I; left; lia|apply line_of_iff; [exact O|reflexivity]|discriminate].
Qed.
(** At the beginning of the file: the first line can stand instead of an id, but no comment there, nor in
    the second line, and a text cannot be missing in the first line. *)
Example C120_beginning : possible_error demo_pf (EParse 1 [] (lit "msgid")) /\ (forall n c, n <= 2 -> ~ possible_error demo_pf (EParse n (35 :: [c]) (lit "msgid")))
  /\ (forall s, ~ possible_error demo_pf (EParse 1 s (lit "msgstr"))) /\ (forall t, ~ possible_error demo_pf (EUnexpected 1 t))
  /\ demo_ids (read_catalogue demo_lib demo_pf (lf_stream ["msgstr ""a"""]%string)) = [inr (Some 1)].
Proof.
  assert (forall def n s w, ~ forms_fault demo_pf def (EParse n s w)) as NF by (intros def n s w F; inversion F).
  split; [|split; [|split; [|split; [|vm_compute; reflexivity]]]].
  - assert (one_line (lit "msgstr ""a""")) as O by (intros I; cbn in I; intuition discriminate).
    apply (pe_no_msgid demo_pf 1 (lit "msgstr ""a""") (PMessage 1 [] (lit "msgstr") (lit "a"))); [lia|exact O|intros c I; cbn in I; left; lia|apply line_of_iff; [exact O|reflexivity]|discriminate|discriminate].
  - intros n c L P. remember (EParse n [35; c] (lit "msgid")) as x eqn:E. destruct P as [? ?|? ? ? ? ? ?|m s l L' O S Lo NB Co|? s l|? s l|?|? ? ? ? ? F]; try discriminate; [|subst; exact (NF _ _ _ _ F)].
    injection E as -> E. destruct Lo as [B|flags kw q t Q U|flags q t Q U|k t C N]; cbn [shown] in E; try discriminate; [|specialize (Co _ _ eq_refl); lia].
    destruct Q as (? & w1 & w2 & w3 & w4 & _ & M & _). destruct M; discriminate.
  - intros s P. inversion P as [| | |? ? ? L| | |? ? ? ? ? F]; subst; [lia|exact (NF _ _ _ _ F)].
  - intros t P. inversion P as [| | | | |? L|? ? ? ? ? F]; subst; [lia|inversion F].
Qed.
Example C120_impossible : (forall n w, w <> [] -> ~ possible_error demo_pf (EParse n (lit "msgid") w)) /\ (forall n s, ~ possible_error demo_pf (EParse n s (lit "msgctxt")))
  /\ (forall i, ~ possible_error demo_pf (EIo 0 i)) /\ (forall s, ~ possible_error demo_pf (EParse 1 s [])).
Proof.
  assert (forall def n s w, ~ forms_fault demo_pf def (EParse n s w)) as NF by (intros def n s w F; inversion F).
  assert (forall s n l, line_of s n l -> l <> PBlank -> shown l <> lit "msgid") as NS.
  { intros s n l Lo NB. destruct Lo as [B|flags kw q t Q U|flags q t Q U|k c C N]; cbn [shown]; try discriminate.
    destruct Q as (m & w1 & w2 & w3 & w4 & _ & M & _). destruct M; discriminate. }
  split; [|split; [|split]].
  - intros n w NE P. remember (EParse n (lit "msgid") w) as x eqn:E.
    destruct P as [? ?|? ? ? ? ? ?|? s l L O S Lo NB Co|? s l L O S Lo NB|? s l L O S Lo NB|?|? ? ? ? ? F]; try discriminate; try (injection E as _ E _; exact (NS _ _ _ Lo NB E)).
    + injection E as _ _ <-. apply NE. reflexivity.
    + subst. exact (NF _ _ _ _ F).
  - intros n s P. inversion P as [| | | | | |? ? ? ? ? F]; subst. exact (NF _ _ _ _ F).
  - intros i P. inversion P as [? ? L| | | | | |? ? ? ? ? F]; subst; [lia|inversion F].
  - intros s P. inversion P as [|? ? L| | | | |? ? ? ? ? F]; subst; [lia|exact (NF _ _ _ _ F)].
Qed.
