(** The example programs from their arguments on (C71). *)
From Coq Require Import String Arith NArith Bool List Lia.
From Verif Require Import ModelBase ModelUtf8 ModelLine ModelFormula ModelData ModelSource ModelReader ModelExample ModelProgram
  SpecLine SpecSource SpecReader SpecBlock SpecHeader SpecFile SpecError SpecWhole SpecExample SpecProgram ExampleFacts.
Import ListNotations.
Local Open Scope N_scope.

Lemma run_on_shows debug lib pf open name : settled open -> exists out err code, run_on debug lib pf open name = Some (out, err, code) /\ file_shows debug lib pf (open name) out err code.
Proof.
  intros S. unfold run_on. destruct (open name) as [x|evs] eqn:O.
  - exists [], (lit "Error: " ++ debug x ++ [10]), 1. split; [cbn [io_debug]; rewrite <- app_assoc; reflexivity|constructor].
  - destruct (S _ _ O) as (ls & e & pl & tl & F). destruct (example_program debug lib pf evs ls e pl tl F) as (out & err & code & E & H).
    exists out, err, code. split; [exact E|exact (fs_open debug lib pf evs ls e pl tl out err code F H)].
Qed.
Lemma arguments_shown debug lib pf open args : settled open ->
  (unicode_start args ->
    (exists out err code, readme_main debug lib pf open args = Some (out, err, code) /\ line_shows debug lib pf readme_missing 1 open args out err code)
    /\ (exists out err code, lib_main debug lib pf open args = Some (out, err, code) /\ line_shows debug lib pf lib_missing 0 open args out err code))
  /\ (~ unicode_start args -> readme_main debug lib pf open args = None /\ lib_main debug lib pf open args = None).
Proof.
  intros S. unfold readme_main, lib_main. destruct args as [|[p|] args].
  - split; [|intros N0; destruct N0; intros [|[|k]]; discriminate]. intros _. split; do 3 eexists; (split; [reflexivity|constructor]).
  - destruct args as [|[name|] others]; cbn [first_argument next_argument option_map fst].
    + split; [|intros N0; destruct N0; intros [|[|k]] _; discriminate]. intros _. split; do 3 eexists; (split; [reflexivity|constructor]).
    + split; [|intros N0; destruct N0; intros [|[|k]] L; try discriminate; lia]. intros _.
      destruct (run_on_shows debug lib pf open name S) as (out & err & code & E & H). split; exists out, err, code; (split; [exact E|constructor; exact H]).
    + split; [intros U; destruct (U 1%nat (le_n 2) eq_refl)|]. auto.
  - split; [intros U; destruct (U 0%nat Nat.lt_0_2 eq_refl)|]. auto.
Qed.
Lemma others_ignored debug lib pf open p q name others others' :
  readme_main debug lib pf open (Some p :: Some name :: others) = readme_main debug lib pf open (Some q :: Some name :: others')
  /\ lib_main debug lib pf open (Some p :: Some name :: others) = lib_main debug lib pf open (Some q :: Some name :: others').
Proof. split; reflexivity. Qed.
Lemma programs_agree debug lib pf open args : (2 <= length args)%nat -> readme_main debug lib pf open args = lib_main debug lib pf open args.
Proof.
  intros L. destruct args as [|a [|b args]]; cbn [length] in L; try lia. destruct a; [destruct b|]; reflexivity.
Qed.
Lemma programs_differ : ~ (forall debug lib pf open args out err code out' err' code', settled open ->
  readme_main debug lib pf open args = Some (out, err, code) -> lib_main debug lib pf open args = Some (out', err', code') -> code = code').
Proof.
  intros H. assert (settled (fun _ => inl IoInvalidUtf8)) as S by (intros name evs E; discriminate E).
  specialize (H (fun _ => []) demo_lib demo_pf (fun _ => inl IoInvalidUtf8) [Some (lit "show")] _ _ _ _ _ _ S eq_refl eq_refl). discriminate H.
Qed.
