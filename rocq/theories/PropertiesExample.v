(** Properties C71 to C73: the example program, errors about lines, previous messages. *)
From Coq Require Import String Arith NArith ZArith Bool List.
From Verif Require Import ModelBase ModelUtf8 ModelLine ModelFormula ModelData ModelSource ModelReader ModelExample
  SpecLine SpecFormula SpecSource SpecReader SpecBlock SpecHeader SpecFile SpecError SpecWhole SpecExample FileIntro ExampleFacts.
Import ListNotations.
Local Open Scope N_scope.

(** C71 *)
(** The example program never crashes and shows exactly the ids of the entries, then the error, if any. *)
Theorem C71_example_program : forall debug lib pf evs ls e pl tl, file evs ls e pl tl ->
  exists out err code, example_main debug lib pf evs = Some (out, err, code) /\ example_shows debug lib pf pl tl out err code.
Proof. exact example_program. Qed.
Print Assumptions C71_example_program.
Theorem C71_example_unique : forall debug lib pf evs ls e pl tl out err code, file evs ls e pl tl -> example_shows debug lib pf pl tl out err code ->
  exists err', example_main debug lib pf evs = Some (out, err', code)
  /\ (err' = err \/ exists m m', reported debug (Some (EPluralForms m)) err 1 /\ reported debug (Some (EPluralForms m')) err' 1).
Proof. exact example_unique. Qed.
Print Assumptions C71_example_unique.
Theorem C71_success : forall debug lib pf evs,
  (exists out, example_main debug lib pf evs = Some (out, [], 0)) <-> exists c us, read_catalogue lib pf evs = Ok c /\ c_items c = map UOk us.
Proof. exact example_success. Qed.
Print Assumptions C71_success.
(** The lines printed determine the ids if none of these contains a line feed ... *)
Theorem C71_ids_readable_partial : forall us us' s, printed us s -> printed us' s ->
  (forall u id, In u us \/ In u us' -> has_id (u_message u) id -> ~ In 10 id) ->
  Forall2 (fun u v => forall id, has_id (u_message u) id <-> has_id (u_message v) id) us us'.
Proof. exact printed_ids. Qed.
Print Assumptions C71_ids_readable_partial.
(** ... but not in general. *)
Theorem C71_ids_readable_refuted : ~ (forall lib pf evs evs' c c' us us' s, read_catalogue lib pf evs = Ok c -> read_catalogue lib pf evs' = Ok c' ->
  c_items c = map UOk us -> c_items c' = map UOk us' -> printed us s -> printed us' s -> length us = length us').
Proof. exact readable_refuted. Qed.
Print Assumptions C71_ids_readable_refuted.
Example C71_example : let run ls := example_main (fun _ => lit "io") demo_lib demo_pf (lf_stream ls) in
  run ["msgid """""; "msgstr ""Language: de"""; ""; "msgid ""a"""; "msgstr ""b"""; ""; "msgid ""c"""; "msgid_plural ""d"""; "msgstr[0] ""e"""]%string
    = Some (lit (" - a" ++ LFs ++ " - c" ++ LFs), [], 0)
  /\ run ["msgid ""a"""; "msgstr ""b"""; "#"; "oops"]%string
    = Some (lit (" - a" ++ LFs), lit "Error: Custom { kind: Other, error: Parse error at line 5, got " ++ [8216] ++ lit "oops" ++ [8217] ++ lit " }" ++ [10], 1)
  /\ run ["oops"]%string
    = Some ([], lit "Error: Custom { kind: Other, error: Parse error at line 2, got " ++ [8216] ++ lit "oops" ++ [8217] ++ lit " }" ++ [10], 1).
Proof. vm_compute. repeat split; reflexivity. Qed.

(** C72 *)
(** An error about a line that does not fit names one of three keywords as expected, and the line with its
    number is there; of a comment the first two characters are shown, of a continuation line a quote, of a
    keyword line only the marker (nothing, if it has none). *)
Theorem C72_shown_partial : forall lib pf evs ls e pl tl n got w, file evs ls e pl tl -> ends_with_error (read_catalogue lib pf evs) (EParse n got w) -> w <> [] ->
  In w [lit "msgid"; lit "msgstr"; lit "msgstr[0]"]
  /\ exists s, line_at ls n s
     /\ ((exists kind t, line_of s n (PComment n kind t) /\ got = 35 :: [kind])
         \/ (exists flags t, line_of s n (PCont n flags t) /\ got = lit """")
         \/ (exists mark flags tag t, line_of s n (PMessage n flags tag t) /\ marker mark flags /\ got = flags)).
Proof. exact shown_of_line. Qed.
Print Assumptions C72_shown_partial.
(** The unexpected keyword is not shown. *)
Theorem C72_token_refuted : ~ (forall lib pf evs ls e pl tl n got w flags tag t, file evs ls e pl tl -> ends_with_error (read_catalogue lib pf evs) (EParse n got w) ->
  w <> [] -> In (PMessage n flags tag t) pl -> got = tag).
Proof. exact token_refuted. Qed.
Print Assumptions C72_token_refuted.
(** The keyword named is not the only one that would have been accepted. *)
Theorem C72_expected_refuted : ~ (forall lib pf evs ls e pl tl a l r got w x, file evs ls e pl tl -> pl = a ++ l :: r ->
  ends_with_error (read_catalogue lib pf evs) (EParse (po_line_no l) got w) -> w <> [] ->
  forall evs' ls' pl' tl' tag r', file evs' ls' None pl' tl' -> pl' = a ++ PMessage (po_line_no l) [] tag x :: r' -> tag <> w ->
  exists e', ends_with_error (read_catalogue lib pf evs') e').
Proof. exact expected_refuted. Qed.
Print Assumptions C72_expected_refuted.
Example C72_example : let err ls := match read_catalogue demo_lib demo_pf (lf_stream ls) with Err e => Some (error_format (fun _ => []) e) | _ => None end in
  let text got := Some (lit "Parse error at line 2 expected " ++ [8216] ++ lit "msgstr" ++ [8217] ++ got) in
  err ["msgid ""a"""; "msgctxt ""b"""]%string = text []
  /\ err ["msgid ""a"""; "msgid ""b"""]%string = text []
  /\ err ["msgid ""a"""; "#~ msgstr ""b"""]%string = text (lit ", got " ++ [8216] ++ lit "~" ++ [8217])
  /\ err ["msgid ""a"""; "#: x"]%string = text (lit ", got " ++ [8216] ++ lit "#:" ++ [8217]).
Proof. vm_compute. repeat split; reflexivity. Qed.

(** C73 *)
Theorem C73_previous_refuted : ~ (forall lib pf evs ls e pl tl c u, file evs ls e pl tl -> read_catalogue lib pf evs = Ok c -> In (UOk u) (c_items c) ->
  u_prev_context u <> None \/ ~ has_id (u_prev_message u) [] -> u_state u = StNeedsWork).
Proof. exact previous_refuted. Qed.
Print Assumptions C73_previous_refuted.
