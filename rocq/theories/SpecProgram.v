(** What the two example programs show for a command line. *)
From Coq Require Import String Arith NArith Bool List.
From Verif Require Import ModelBase ModelUtf8 ModelLine ModelFormula ModelData ModelSource ModelReader
  SpecLine SpecSource SpecBlock SpecHeader SpecFile SpecError SpecWhole SpecExample.
Import ListNotations.
Local Open Scope N_scope.

(** A file: it cannot be opened, or it is read. *)
Inductive file_shows (debug : ioerr -> str) (lib : lang_lib) (pf : platform) : ioerr + list rd_event -> str -> str -> N -> Prop :=
| fs_closed x : file_shows debug lib pf (inl x) [] (lit "Error: " ++ debug x ++ [10]) 1
| fs_open evs ls e pl tl out err code : file evs ls e pl tl -> example_shows debug lib pf pl tl out err code ->
    file_shows debug lib pf (inr evs) out err code.
(** A command line of Unicode texts: the program, the name of the file, and others that do not matter.
    Without a name there is a message and an exit code, which depend on the program. *)
Inductive line_shows (debug : ioerr -> str) (lib : lang_lib) (pf : platform) (missing : str) (exit : N) (open : str -> ioerr + list rd_event)
  : list (option str) -> str -> str -> N -> Prop :=
| ls_nothing : line_shows debug lib pf missing exit open [] [] missing exit
| ls_program p : line_shows debug lib pf missing exit open [Some p] [] missing exit
| ls_name p name others out err code : file_shows debug lib pf (open name) out err code ->
    line_shows debug lib pf missing exit open (Some p :: Some name :: others) out err code.
Definition readme_missing : str := lit "Error: Custom { kind: Other, error: No file specified }" ++ [10].
Definition lib_missing : str := lit "No file specified" ++ [10].
(** The first two arguments are Unicode; the files that can be opened do not resume after their end. *)
Definition unicode_start (args : list (option str)) : Prop := forall k, (k < 2)%nat -> nth_error args k <> Some None.
Definition settled (open : str -> ioerr + list rd_event) : Prop := forall name evs, open name = inr evs -> exists ls e pl tl, file evs ls e pl tl.
