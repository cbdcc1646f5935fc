(** The lengths of error messages (C107). *)
From Coq Require Import NArith List.
From Verif Require Import ModelBase ModelData.
Local Open Scope N_scope.

(** The number of the line that an error names, 0 if it names none. *)
Definition named_line (x : error) : N := match x with EIo n _ | EParse n _ _ | EUnexpected n _ => n | EPluralForms _ => 0 end.
(** The length of the text of the I/O error in it. *)
Definition io_length (io : ioerr -> str) (x : error) : nat := match x with EIo _ i => length (io i) | _ => 0%nat end.
