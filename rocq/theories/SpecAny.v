(** Catalogues of streams that may go on after a report of their end. *)
From Coq Require Import String Arith NArith ZArith Bool List.
From Verif Require Import ModelBase ModelUtf8 ModelLine ModelFormula ModelData ModelSource ModelReader
  SpecLine SpecSource SpecReader SpecBlock SpecHeader SpecFile.
Import ListNotations.
Local Open Scope N_scope.

(** The lines among the answers of the line iterator. *)
Definition kept (rs : lines) : list po_line := flat_map (fun i => match i with Some (ILine l) => [l] | _ => [] end) rs.
(** The lines [pl] are those of a header, if there is one, then those of the units, in order,
    then others. *)
Definition stream_catalogue (lib : lang_lib) (pf : platform) (pl : list po_line) (c : catalogue) : Prop :=
  exists h forms bls rest, pl = h ++ concat bls ++ rest
  /\ (h = [] /\ forms = None /\ no_header lib c
      \/ exists u ps, (entry None h u \/ headless None h u) /\ header u ps /\ header_forms_of pf ps forms /\ header_shown lib u ps c)
  /\ Forall2 (unit_entry forms) bls (units (c_items c)).

(** The errors about lines: a failure that the line iterator answered; a line that does not fit;
    an entry without source, whose first keyword line is named. *)
Inductive stream_error (rs : lines) : error -> Prop :=
| ste_failure x : In (Some (IFail x)) rs -> stream_error rs x
| ste_line l w : In l (kept rs) -> In w [lit "msgid"; lit "msgstr"; lit "msgstr[0]"] -> stream_error rs (EParse (po_line_no l) (shown l) w)
| ste_source n p t s : In (PMessage n p t s) (kept rs) -> stream_error rs (EUnexpected n (lit "Source should not be empty")).
(** The unit [u] is the item [k]; it is the content of the lines [b], which follow those of the
    header, if there is one, and of the units before it. *)
Definition stream_unit (lib : lang_lib) (pf : platform) (pl : list po_line) (c : catalogue) (k : nat) (forms : option plural_forms) (b : list po_line) (u : unit_) : Prop :=
  exists h bls rest us items, pl = h ++ concat bls ++ b ++ rest
  /\ (h = [] /\ forms = None /\ no_header lib c
      \/ exists v ps, (entry None h v \/ headless None h v) /\ header v ps /\ header_forms_of pf ps forms /\ header_shown lib v ps c)
  /\ Forall2 (unit_entry forms) bls us /\ length us = k /\ c_items c = map UOk us ++ UOk u :: items /\ unit_entry forms b u.
