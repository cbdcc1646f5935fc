(** C71: the example programs from their arguments on. *)
From Coq Require Import String Arith NArith Bool List.
From Verif Require Import ModelBase ModelUtf8 ModelLine ModelFormula ModelData ModelSource ModelReader ModelExample ModelProgram
  SpecLine SpecSource SpecReader SpecBlock SpecHeader SpecFile SpecError SpecWhole SpecExample SpecProgram FileIntro ProgramFacts.
Import ListNotations.
Local Open Scope N_scope.

(** What the programs of README.md and of the documentation show for a command line; they panic exactly
    for arguments that are not Unicode. *)
Theorem C71_arguments : forall debug lib pf open args, settled open ->
  (unicode_start args ->
    (exists out err code, readme_main debug lib pf open args = Some (out, err, code) /\ line_shows debug lib pf readme_missing 1 open args out err code)
    /\ (exists out err code, lib_main debug lib pf open args = Some (out, err, code) /\ line_shows debug lib pf lib_missing 0 open args out err code))
  /\ (~ unicode_start args -> readme_main debug lib pf open args = None /\ lib_main debug lib pf open args = None).
Proof. exact arguments_shown. Qed.
Print Assumptions C71_arguments.
(** Arguments after the name do not matter, not even whether they are Unicode. *)
Theorem C71_other_arguments : forall debug lib pf open p q name others others',
  readme_main debug lib pf open (Some p :: Some name :: others) = readme_main debug lib pf open (Some q :: Some name :: others')
  /\ lib_main debug lib pf open (Some p :: Some name :: others) = lib_main debug lib pf open (Some q :: Some name :: others').
Proof. exact others_ignored. Qed.
Print Assumptions C71_other_arguments.
(** With a name the two programs do the same ... *)
Theorem C71_programs_agree_partial : forall debug lib pf open args, (2 <= length args)%nat -> readme_main debug lib pf open args = lib_main debug lib pf open args.
Proof. exact programs_agree. Qed.
Print Assumptions C71_programs_agree_partial.
(** ... but without one they have different exit codes. *)
Theorem C71_programs_agree_refuted : ~ (forall debug lib pf open args out err code out' err' code', settled open ->
  readme_main debug lib pf open args = Some (out, err, code) -> lib_main debug lib pf open args = Some (out', err', code') -> code = code').
Proof. exact programs_differ. Qed.
Print Assumptions C71_programs_agree_refuted.
Example C71_arguments_example :
  let files name := if str_eqb name (lit "a.po") then inr (lf_stream ["msgid ""a"""; "msgstr ""b"""]%string) else inl (IoRead 2) in
  let run main args := main (fun _ => lit "NotFound") demo_lib demo_pf files args in
  run readme_main [Some (lit "show"); Some (lit "a.po"); None] = Some (lit (" - a" ++ LFs), [], 0)
  /\ run lib_main [Some (lit "show"); Some (lit "b.po")] = Some ([], lit ("Error: NotFound" ++ LFs), 1)
  /\ run readme_main [Some (lit "show")] = Some ([], lit ("Error: Custom { kind: Other, error: No file specified }" ++ LFs), 1)
  /\ run lib_main [] = Some ([], lit ("No file specified" ++ LFs), 0) /\ run lib_main [Some (lit "show"); None] = None.
Proof. vm_compute. repeat split; reflexivity. Qed.
