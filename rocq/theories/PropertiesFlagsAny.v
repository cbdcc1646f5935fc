(** Flags, locations and notes compared with GNU gettext, for any stream (C86-C88). *)
From Coq Require Import String Arith NArith ZArith Bool List Lia.
From Verif Require Import ModelBase ModelUtf8 ModelLine ModelFormula ModelData ModelSource ModelReader
  SpecLine SpecFormula SpecSource SpecReader SpecBlock SpecHeader SpecFile SpecAny SpecFlags FileIntro FlagFacts NoteFacts PieceFacts FlagAny.
Import ListNotations.
Local Open Scope N_scope.

(** C86, also if the stream fails or goes on after a report of its end. *)
Theorem C86_flags_any_partial : forall lib pf evs bs fin rs c k u, pieces evs bs fin -> answers 1 bs fin rs -> read_catalogue lib pf evs = Ok c -> nth_error (c_items c) k = Some (UOk u) ->
  exists forms cs ks, stream_unit lib pf (kept rs) c k forms (cs ++ ks) u /\ Forall comment_line cs /\ ~ Exists comment_line ks
    /\ (comments_white c_white 44 cs ->
        (u_state u = StNeedsWork -> gettext_flag cs (lit "fuzzy"))
        /\ ((forall f x, In f (u_flags u) -> In x f -> ~ white x) ->
            (u_state u = StNeedsWork <-> gettext_flag cs (lit "fuzzy")) /\ forall f, In f (u_flags u) /\ f <> [] <-> gettext_flag cs f)).
Proof. exact flags_any. Qed.
Print Assumptions C86_flags_any_partial.
Theorem C86_exact_any_partial : forall lib pf evs bs fin rs c k u, pieces evs bs fin -> answers 1 bs fin rs -> read_catalogue lib pf evs = Ok c -> nth_error (c_items c) k = Some (UOk u) ->
  exists forms cs ks, stream_unit lib pf (kept rs) c k forms (cs ++ ks) u /\ Forall comment_line cs /\ ~ Exists comment_line ks
    /\ (comments_white c_white 44 cs ->
        ((forall f, In f (u_flags u) /\ f <> [] <-> gettext_flag cs f) <-> forall f x, In f (u_flags u) -> In x f -> ~ white x)).
Proof. exact flags_exact_any. Qed.
Print Assumptions C86_exact_any_partial.
(** C87, as well. *)
Theorem C87_locations_any_partial : forall lib pf evs bs fin rs c k u, pieces evs bs fin -> answers 1 bs fin rs -> read_catalogue lib pf evs = Ok c -> nth_error (c_items c) k = Some (UOk u) ->
  exists forms cs ks, stream_unit lib pf (kept rs) c k forms (cs ++ ks) u /\ Forall comment_line cs /\ ~ Exists comment_line ks
    /\ (comments_white blank 58 cs -> (forall n s, In (PComment n 58 s) cs -> ~ In 8296 s) -> forall L, gettext_locations cs L <-> L = u_locations u).
Proof. exact locations_any. Qed.
Print Assumptions C87_locations_any_partial.
Theorem C87_exact_any_partial : forall lib pf evs bs fin rs c k u, pieces evs bs fin -> answers 1 bs fin rs -> read_catalogue lib pf evs = Ok c -> nth_error (c_items c) k = Some (UOk u) ->
  exists forms cs ks, stream_unit lib pf (kept rs) c k forms (cs ++ ks) u /\ Forall comment_line cs /\ ~ Exists comment_line ks
    /\ (comments_white blank 58 cs -> forall L, gettext_locations cs L -> (L = u_locations u <-> forall x c, In x L -> In c x -> ~ blank c)).
Proof. exact locations_exact_any. Qed.
Print Assumptions C87_exact_any_partial.
(** C88, as well. *)
Theorem C88_unit_notes_any : forall lib pf evs bs fin rs c k u, pieces evs bs fin -> answers 1 bs fin rs -> read_catalogue lib pf evs = Ok c -> nth_error (c_items c) k = Some (UOk u) ->
  exists forms cs ks, stream_unit lib pf (kept rs) c k forms (cs ++ ks) u /\ Forall comment_line cs /\ ~ Exists comment_line ks /\ u_notes u = flat_map line_notes cs.
Proof. exact notes_any. Qed.
Print Assumptions C88_unit_notes_any.
(** The first unit of a stream that goes on after a report of its end, and then fails. *)
Definition resumed : list rd_event :=
  [RdData (utf8 (lit "#, fuzzy, c-format" ++ 10 :: lit "#: a.c:1 b.c:2" ++ 10 :: lit "# n")); RdData []; RdInterrupted;
   RdData (utf8 (lit "#: c.c:3" ++ 10 :: lit "msgid ""a""" ++ 10 :: lit "msgstr ""b""" ++ 10 :: lit "msgid ""c""" ++ 10 :: lit "msgstr ""d""" ++ [10])); RdError 7].
Example C86_any_example : match read_catalogue demo_lib demo_pf resumed with
  | Ok c => match units (c_items c) with
            | u :: _ => u_flags u = [lit "fuzzy"; lit "c-format"] /\ u_state u = StNeedsWork /\ u_locations u = [lit "a.c:1"; lit "b.c:2"; lit "c.c:3"]
                     /\ u_notes u = [Note Translator (lit "n")] /\ c_items c = [UOk u; UErr (EIo 9 (IoRead 7))]
            | _ => False end
  | _ => False end.
Proof. vm_compute. repeat split. Qed.
