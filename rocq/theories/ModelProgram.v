(** The two example programs from their arguments on: README.md:39-80 and src/lib.rs:17-51.

    The command line is a list of arguments, [None] one that is not valid Unicode ([args] panics when it
    comes to it, also when it is skipped); [open] is what [File::open] gives for a name: an error or
    the answers of the file. *)
From Coq Require Import String Arith NArith Bool List.
From Verif Require Import ModelBase ModelUtf8 ModelLine ModelFormula ModelData ModelSource ModelReader ModelExample.
Import ListNotations.
Local Open Scope N_scope.

(** [args().skip(1).next()]; the outer [None] is a panic *)
Definition next_argument (args : list (option str)) : option (option str * list (option str)) :=
  match args with
  | [] => Some (None, [])
  | None :: _ => None
  | Some a :: args => Some (Some a, args)
  end.
Definition first_argument (args : list (option str)) : option (option str) :=
  match next_argument args with
  | None => None
  | Some (None, _) => Some None
  | Some (Some _, args) => option_map fst (next_argument args)
  end.
(** README.md:61-64, lib.rs:33-34: opening and reading; an error of [File::open] is returned as it is *)
Definition run_on (debug : ioerr -> str) (lib : lang_lib) (pf : platform) (open : str -> ioerr + list rd_event) (name : str) : option (str * str * N) :=
  match open name with
  | inl x => Some ([], (lit "Error: " ++ io_debug debug (IoStream x)) ++ [10], 1)
  | inr evs => example_main debug lib pf evs
  end.
(** README.md:54-79; 44-52 the text of [NoArg] *)
Definition readme_main (debug : ioerr -> str) (lib : lang_lib) (pf : platform) (open : str -> ioerr + list rd_event) (args : list (option str)) : option (str * str * N) :=
  match first_argument args with
  | None => None
  | Some None => Some ([], (lit "Error: " ++ lit "Custom { kind: Other, error: " ++ lit "No file specified" ++ lit " }") ++ [10], 1)
  | Some (Some name) => run_on debug lib pf open name
  end.
(** lib.rs:22-50 *)
Definition lib_main (debug : ioerr -> str) (lib : lang_lib) (pf : platform) (open : str -> ioerr + list rd_event) (args : list (option str)) : option (str * str * N) :=
  match first_argument args with
  | None => None
  | Some None => Some ([], lit "No file specified" ++ [10], 0)
  | Some (Some name) => run_on debug lib pf open name
  end.
