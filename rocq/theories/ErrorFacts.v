(** Which errors there are; how many units. *)
From Coq Require Import String Arith NArith ZArith Bool List Lia.
From Verif Require Import ModelBase ModelUtf8 ModelLine ModelFormula ModelData ModelSource ModelReader
  SpecLine SpecFormula SpecSource SpecReader SpecBlock SpecHeader SpecFile BaseFacts LineFacts
  BlockFacts BlocksFacts FirstFacts HeaderFacts FileFacts BlockThms EntryThms.
Import ListNotations.
Local Open Scope N_scope.

Lemma awaited_word forms p w : awaited forms p w -> In w [lit "msgid"; lit "msgstr"; lit "msgstr[0]"].
Proof. intros []; cbn; auto. Qed.
Lemma parsed_numbers n ls e pl tl : parsed n ls e pl tl -> 0 < n -> (forall l, In l pl -> 0 < po_line_no l) /\ (forall x, tl = Some x -> iteration_error x).
Proof.
  induction 1 as [n|n e|n s ls e O E|n s ls e pl tl O E P IH|n s l ls e pl tl O E NB P IH]; intros H.
  - split; [intros l []|discriminate].
  - split; [intros l []|]. intros x [= <-]. constructor. exact H.
  - split; [intros l []|]. intros x [= <-]. constructor. lia.
  - apply IH. lia.
  - destruct IH as [A B]; [lia|]. split; [|exact B]. intros l' [<-|I]; [rewrite (parse_line_no _ _ _ (proj1 (line_of_iff _ _ _ O) E) NB); exact H|apply A, I].
Qed.
Lemma closing_error forms rest tl o x : closing forms rest tl o -> o = Some x -> (forall l, In l rest -> 0 < po_line_no l) ->
  (forall y, tl = Some y -> iteration_error y) -> iteration_error x.
Proof.
  intros [rest' I|rest' z G|inc w l r tl' A NG|cs F N L C' obs k ks pc pm c text r tl' Bc K Ea] Ey Hl Ht; try discriminate; injection Ey as <-.
  - apply Ht; reflexivity.
  - apply ie_keyword; [apply Hl, in_elt|eapply awaited_word; exact A].
  - apply ie_source. apply Hl. apply in_or_app. left. apply in_elt.
Qed.
Theorem errors_of_parse lib pf evs ls e pl tl x : file evs ls e pl tl -> read_catalogue lib pf evs = Err x ->
  iteration_error x \/ exists h r u ps, pl = h ++ r /\ entry None h u /\ ends_at None h r tl /\ header u ps /\ header_error pf ps x.
Proof.
  intros (bs & f & D & C & P) R. pose proof (file_shape lib pf evs bs f ls e pl tl D C P) as S. rewrite R in S.
  destruct (parsed_numbers _ _ _ _ _ P eq_refl) as [Hl Ht].
  remember (Err x) as oc eqn:Eo. destruct S as [Et In0|y Et|inc w l r E A N|u us o B|h u r y E En S HF|h u r forms us o E En S HF B]; try discriminate; injection Eo as <-.
  - left. apply Ht, Et.
  - left. apply ie_keyword; [apply Hl; subst pl; apply in_elt|eapply awaited_word; exact A].
  - right. destruct (header_exists u S) as (ps & H). pose proof H as H'. apply header_intro in H' as [_ HP].
    destruct En as [En Ea|Hh _]; [|destruct Hh; discriminate].
    exists h, r, u, ps. split; [exact E|]. split; [exact En|]. split; [exact Ea|]. split; [exact H|].
    destruct (header_forms_error pf u ps y HP HF) as (def & Ed & NE & [[ND ->]|(DL & NF & m & ->)]).
    + apply her_list; assumption.
    + eapply her_forms; eassumption.
Qed.
(** A fortiori no error of the iteration is about plural forms, and all of them have a line number. *)

(** * Counting *)
Lemma blocks_msgid forms bls us : Forall2 (unit_entry forms) bls us -> msgid_lines (concat bls) = length us.
Proof. induction 1 as [|b u bls us [E _] H IH]; [reflexivity|]. cbn [concat length]. rewrite msgid_lines_app, IH, (entry_msgid _ _ _ E). reflexivity. Qed.
Theorem units_counted lib pf evs ls e pl tl c : file evs ls e pl tl -> read_catalogue lib pf evs = Ok c -> (forall x, ~ In (UErr x) (c_items c)) ->
  exists h t, msgid_lines pl = (h + length (c_items c) + t)%nat /\ (h <= 1)%nat /\ (t <= 1)%nat.
Proof.
  intros Fi R NE. destruct (catalogue_entries lib pf evs ls e pl tl c Fi R NE) as (_ & _ & h & forms & r & us & -> & Pa & Ei & bls & tail & -> & F & I).
  exists (msgid_lines h), (msgid_lines tail). rewrite !msgid_lines_app, (blocks_msgid _ _ _ F), Ei, map_length. split; [lia|].
  split; [|exact (incomplete_msgid _ _ I)]. destruct Pa as [r' tl' c' _|h r' tl' u ps forms' c' [E _|Hl _] _ _ _]; [cbn; lia|rewrite (entry_msgid _ _ _ E); lia|].
  destruct Hl as [cs FF N L C obs l1 pc l2 pm l3 c0 l4 t st B K1 K2 K3 K4 St].
  rewrite !msgid_lines_app, (comments_msgid _ _ _ _ _ B), (previous_msgid _ _ _ _ K2).
  rewrite (opt_msgid _ _ _ _ K1), (opt_msgid _ _ _ _ K3), (opt_msgid _ _ _ _ K4); [lia|destruct obs; reflexivity..].
Qed.
