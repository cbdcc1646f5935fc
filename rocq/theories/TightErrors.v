(** An error after so many units can name the line after two lines for each (C121). *)
From Coq Require Import String Arith NArith ZArith Bool List Lia.
From Verif Require Import ModelBase ModelUtf8 ModelLine ModelFormula ModelData ModelSource ModelReader
  SpecLine SpecSource SpecReader SpecBlock SpecHeader SpecFile SpecAny SpecReport SpecWriter BaseFacts LineFacts ReaderFacts ReadsFacts CatalogueFacts
  BlockFacts BlocksFacts FileFacts WriterFacts WritableFacts AccessFacts PieceFacts AnyFacts BareFacts PossibleFacts BadEndFacts.
Import ListNotations.
Local Open Scope N_scope.

Fixpoint pairs_lines (n : nat) : list str := match n with O => [lit "msgstr ""c"""] | S n => lit "msgid ""a""" :: lit "msgstr ""b""" :: pairs_lines n end.
Fixpoint pairs_parsed (m : N) (n : nat) : list po_line :=
  match n with
  | O => [PMessage m [] (lit "msgstr") (lit "c")]
  | S n => PMessage m [] (lit "msgid") (lit "a") :: PMessage (m + 1) [] (lit "msgstr") (lit "b") :: pairs_parsed (m + 1 + 1) n
  end.
Lemma pairs_ok n : Forall ok_line (pairs_lines n).
Proof.
  pose proof (fun x m k' => ascii_line (lit x) m k') as K. induction n as [|n IH]; cbn [pairs_lines].
  - constructor; [|constructor]. exact (proj1 (K "msgstr ""c"""%string 1 _ eq_refl eq_refl)).
  - constructor; [exact (proj1 (K "msgid ""a"""%string 1 _ eq_refl eq_refl))|]. constructor; [exact (proj1 (K "msgstr ""b"""%string 1 _ eq_refl eq_refl))|exact IH].
Qed.
Lemma pairs_read n : forall m, parsed m (pairs_lines n) None (pairs_parsed m n) None.
Proof.
  pose proof (fun x m k' => ascii_line (lit x) m k') as K. induction n as [|n IH]; intros m; cbn [pairs_lines pairs_parsed].
  - destruct (K "msgstr ""c"""%string m (PMessage m [] (lit "msgstr") (lit "c")) eq_refl eq_refl) as [A L]. apply ps_line; [exact (proj1 A)|exact L|discriminate|constructor].
  - destruct (K "msgid ""a"""%string m (PMessage m [] (lit "msgid") (lit "a")) eq_refl eq_refl) as [A L]. apply ps_line; [exact (proj1 A)|exact L|discriminate|].
    destruct (K "msgstr ""b"""%string (m + 1) (PMessage (m + 1) [] (lit "msgstr") (lit "b")) eq_refl eq_refl) as [A' L']. apply ps_line; [exact (proj1 A')|exact L'|discriminate|apply IH].
Qed.
Definition pair_unit : unit_ := Unit None (MSimple (lit "a") (Some (lit "b"))) None message_default [] [] [] [] StFinal false.
Lemma pair_read first m n : runit None first (listing (pairs_parsed m (S n)) None) = (Ok (Some pair_unit), listing (pairs_parsed (m + 1 + 1) n) None).
Proof. destruct first, n; reflexivity. Qed.
Lemma pairs_reads n : forall m, reads None (listing (pairs_parsed m n) None) (map UOk (repeat pair_unit n) ++ [UErr (EParse (m + 2 * N.of_nat n) [] (lit "msgid"))]).
Proof.
  induction n as [|n IH]; intros m.
  - replace (m + 2 * N.of_nat 0) with m by lia. eapply reads_err. reflexivity.
  - cbn [repeat map app]. eapply reads_unit; [apply pair_read|]. replace (m + 2 * N.of_nat (S n)) with (m + 1 + 1 + 2 * N.of_nat n) by lia. apply IH.
Qed.
Theorem error_at_once lib pf n : exists evs bs c us, delivers evs bs None /\ read_catalogue lib pf evs = Ok c
  /\ c_items c = map UOk us ++ [UErr (EParse (2 * N.of_nat n + 1) [] (lit "msgid"))] /\ length us = n.
Proof.
  destruct (lines_written (pairs_lines n)) as (bs & C); [intros s I; pose proof (pairs_ok n) as H; rewrite Forall_forall in H; exact (H s I)|].
  pose proof (delivers_one bs) as D. assert (exists c, catalogue_of lib pf (listing (pairs_parsed 1 n) None) (Ok c) /\ c_items c = map UOk (repeat pair_unit n) ++ [UErr (EParse (2 * N.of_nat n + 1) [] (lit "msgid"))]) as (c & R & E).
  { destruct n as [|n].
    - eexists. split; [eapply co_header; [reflexivity|reflexivity|reflexivity|exact (pairs_reads 0 1)]|]. reflexivity.
    - eexists. split; [eapply co_plain; [apply pair_read|reflexivity|apply pairs_reads]|]. cbn [c_items repeat map app]. do 4 f_equal. f_equal. lia. }
  do 2 eexists. exists c, (repeat pair_unit n). split; [exact D|]. split; [|split; [exact E|apply repeat_length]].
  exact (proj2 (proj1 (file_catalogue lib pf _ _ _ _ _ _ _ _ D C (pairs_read n 1))) R).
Qed.
