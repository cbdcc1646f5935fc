(** The example program of README.md:39-80.

    The file is opened (the failure to open it is not modelled); lines written to the standard output and
    error are collected; a panic is [None].  What [main] returns is reported by std
    (library/std/src/process.rs, [Termination for Result]: Error: and the debug text on the
    standard error, exit code 1). *)
From Coq Require Import String Arith NArith Bool List.
From Verif Require Import ModelBase ModelUtf8 ModelLine ModelFormula ModelData ModelSource ModelReader.
Import ListNotations.
Local Open Scope N_scope.

(** README.md:71-76: the [for] loop; [Err] holds the error after [?] *)
Fixpoint example_loop (fuel : nat) (out : str) (r : reader) : option (str * (unit + io_value)) :=
  match fuel with
  | O => None
  | S fuel' =>
      match po_next r with
      | (Crash, _) => None
      | (Val None, _) => Some (out, inl tt)
      | (Val (Some (UErr e)), _) => Some (out, inr (io_from e))
      | (Val (Some (UOk u)), r) => example_loop fuel' (out ++ (lit " - " ++ msg_get_id (u_message u)) ++ [10]) r
      end
  end.
(** README.md:54-79 [main], and what std does with its result: standard output, standard error, exit code *)
Definition example_main (debug : ioerr -> str) (lib : lang_lib) (pf : platform) (evs : list rd_event) : option (str * str * N) :=
  let res := match po_parse lib pf evs with
             | Ok r => example_loop (S (S (length (responses (li_new evs))))) [] r
             | Err e => Some ([], inr (io_from e))
             | Panic => None
             end in
  match res with
  | Some (out, inl _) => Some (out, [], 0)
  | Some (out, inr e) => Some (out, (lit "Error: " ++ io_debug debug e) ++ [10], 1)
  | None => None
  end.
