(** The number of items of streams that may go on after a report of their end (C12). *)
From Coq Require Import Arith NArith Bool List Lia.
From Verif Require Import ModelBase ModelUtf8 ModelLine ModelFormula ModelData ModelSource ModelReader
  SpecLine SpecSource SpecReader SpecBlock SpecHeader SpecFile SpecAny ReaderFacts ReadsFacts PieceFacts AnyFacts AnyErrors ItemFacts StreamFacts BlocksFacts ExampleFacts.
Import ListNotations.
Local Open Scope N_scope.

Lemma blocks_twice forms bls us : Forall2 (unit_entry forms) bls us -> (2 * length us <= length (concat bls))%nat.
Proof. induction 1 as [|b u bls us [E _] F IH]; cbn; [lia|]. rewrite app_length. pose proof (entry_length _ _ _ E). lia. Qed.
Lemma nothing_kept lib pf rs c : catalogue_of lib pf rs (Ok c) -> kept rs = [] -> c_items c = [].
Proof.
  intros H K. assert (forall u r, runit None true rs <> (Ok (Some u), r)) as N.
  { destruct rs as [|[[l|x]|] rs]; [| | |]; intros u r; cbn; try discriminate. }
  remember (Ok c) as o eqn:Eo. destruct H as [e r E|r E|u r l E M R|u r e E M HF|u r forms l E M HF R]; try discriminate; injection Eo as <-; try reflexivity; destruct (N _ _ E).
Qed.
Theorem any_items_bounded lib pf evs bs f rs c : pieces evs bs f -> answers 1 bs f rs -> read_catalogue lib pf evs = Ok c ->
  (length (c_items c) <= length (kept rs))%nat.
Proof.
  intros P A R. destruct (catalogue_items _ _ _ _ R) as (us & o & E).
  destruct (any_stream _ _ _ _ _ _ _ P A R) as (h & forms & bls & rest & K & _ & F). pose proof (blocks_twice _ _ _ F) as B.
  assert (U : units (c_items c) = us) by (rewrite E; destruct o; unfold error_item; [|rewrite app_nil_r; apply units_map]; clear; induction us; cbn; [reflexivity|f_equal; assumption]).
  rewrite U in B.
  assert (kept rs = [] -> c_items c = []) as Z by (apply (nothing_kept lib pf); apply (any_catalogue lib pf _ _ _ _ _ P A), R).
  destruct (kept rs) as [|l r]; [rewrite Z by reflexivity; apply le_n|].
  rewrite E, app_length, map_length. apply (f_equal (@length _)) in K. rewrite !app_length in K. cbn [length] in *. destruct o as [x|]; cbn [error_item length]; lia.
Qed.
