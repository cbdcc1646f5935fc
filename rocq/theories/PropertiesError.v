(** Texts of errors (C46). *)
From Coq Require Import String Arith NArith ZArith Bool List.
From Verif Require Import ModelBase ModelUtf8 ModelLine ModelFormula ModelData ModelSource ModelReader
  SpecLine SpecSource SpecReader SpecBlock SpecFile SpecError ErrorTextFacts AnyErrors.
Import ListNotations.
Local Open Scope N_scope.

(** C46 *)
Theorem C46_display_equals_debug : forall display debug e,
  (forall n x, e <> EIo n x) -> error_format display e = error_format debug e.
Proof. exact display_is_debug. Qed.
Print Assumptions C46_display_equals_debug.
Theorem C46_texts : forall io e t, error_format io e = t <-> shows io e t.
Proof. exact error_format_shows. Qed.
Print Assumptions C46_texts.
Theorem C46_line_can_be_read_off : forall io io' n got exp n' got' exp' t,
  shows io (EParse n got exp) t -> shows io' (EParse n' got' exp') t -> n = n'.
Proof. exact line_read_off. Qed.
Print Assumptions C46_line_can_be_read_off.
(** An error of the reader that is no I/O error can be told from its text. *)
Theorem C46_text_determines : forall io io' e e' t, plain e -> plain e' -> shows io e t -> shows io' e' t -> e = e'.
Proof. exact text_determines. Qed.
Print Assumptions C46_text_determines.
Theorem C46_reader_errors_plain : forall lib pf evs x,
  (read_catalogue lib pf evs = Err x \/ exists c, read_catalogue lib pf evs = Ok c /\ In (UErr x) (c_items c)) -> (exists n i, x = EIo n i) \/ plain x.
Proof. exact any_plain. Qed.
Print Assumptions C46_reader_errors_plain.
Theorem C46_source : forall e x, error_source e = Some x <-> exists n, e = EIo n x.
Proof. exact source_iff. Qed.
Print Assumptions C46_source.
(** The error wrapped into an I/O error. *)
Theorem C46_conversion : forall e,
  io_kind_of (io_from e) = Some KOther /\ io_get_ref (io_from e) = Some e
  /\ (forall x, io_source (io_from e) = Some x <-> exists n, e = EIo n x)
  /\ (forall display t, io_display display (io_from e) = t <-> shows display e t)
  /\ (forall debug t, io_debug debug (io_from e) = t <-> exists u, shows debug e u /\ t = lit "Custom { kind: Other, error: " ++ u ++ lit " }").
Proof. exact conversion. Qed.
Print Assumptions C46_conversion.
(** The restriction to expected words without closing quote is needed (the reader satisfies it). *)
Theorem C46_condition_needed : exists e e' t, e <> e' /\ (forall n x, e <> EIo n x) /\ (forall n x, e' <> EIo n x) /\ (forall io, shows io e t /\ shows io e' t).
Proof. exact ambiguous_refuted. Qed.
Print Assumptions C46_condition_needed.
Example C46_example :
  error_format (fun _ => []) (EParse 12 (lit "x") []) = lit "Parse error at line 12, got " ++ [8216; 120; 8217]
  /\ error_format (fun _ => []) (EParse 12 (lit "x") (lit "y")) = lit "Parse error at line 12 expected " ++ [8216; 121; 8217] ++ lit ", got " ++ [8216; 120; 8217]
  /\ error_format (fun _ => []) (EUnexpected 0 (lit "x")) = lit "Unexpected error: x"
  /\ error_format (fun _ => []) (EUnexpected 1 (lit "x")) = lit "Unexpected error at line 1: x"
  /\ error_format (fun _ => lit "io") (EIo 1 IoInvalidUtf8) = lit "io at line 1" /\ error_format (fun _ => lit "io") (EIo 0 IoInvalidUtf8) = lit "io"
  /\ error_format (fun _ => []) (EPluralForms (lit "x")) = lit "Error in plurals forms: x"
  /\ io_display (fun _ => lit "io") (io_from (EIo 2 IoInvalidUtf8)) = lit "io at line 2"
  /\ io_debug (fun _ => lit "io") (io_from (EPluralForms (lit "x"))) = lit "Custom { kind: Other, error: Error in plurals forms: x }"
  /\ plain (EParse 1 (lit "x") (lit "msgid")).
Proof. repeat split; try (vm_compute; reflexivity). constructor. vm_compute. intuition discriminate. Qed.
