(** Notes for developers, compared with GNU gettext (C95); flags and locations once more (C86, C87). *)
From Coq Require Import String Arith NArith ZArith Bool List Lia.
From Verif Require Import ModelBase ModelUtf8 ModelLine ModelFormula ModelData ModelSource ModelReader
  SpecLine SpecFormula SpecSource SpecReader SpecBlock SpecHeader SpecFile SpecFlags SpecExtracted FileIntro FlagFacts NoteFacts ExtractedFacts FlagMore.
Import ListNotations.
Local Open Scope N_scope.

(** C95: false of the code that the notes for developers are the extracted comments of gettext; their texts
    are those of gettext without the white space at their beginning, for each line, *)
Theorem C95_line_partial : forall s n x, one_line s -> (parse_line s n = Some (PComment n 46 x) <-> exists t, extracted_comment s t /\ unindented t x).
Proof. exact extracted_iff. Qed.
Print Assumptions C95_line_partial.
(** so that they are the same exactly if there is none; *)
Theorem C95_same_text_partial : forall s t n, one_line s -> extracted_comment s t ->
  exists x, unindented t x /\ parse_line s n = Some (PComment n 46 x) /\ (x = t <-> not_white_first t).
Proof. exact extracted_line. Qed.
Print Assumptions C95_same_text_partial.
(** and for each unit, in the order of the lines. *)
Theorem C95_unit_partial : forall lib pf evs ls e pl tl c k u, file evs ls e pl tl -> read_catalogue lib pf evs = Ok c -> nth_error (c_items c) k = Some (UOk u) ->
  exists forms a m z n b ts, ls = a ++ m ++ z /\ parsed n m None b None /\ unit_at lib pf pl tl c k forms b u
    /\ extracted m ts /\ Forall2 unindented ts (developer_texts (u_notes u)).
Proof. exact unit_extracted. Qed.
Print Assumptions C95_unit_partial.
(** Comments that differ in their indentation give the same note. *)
Theorem C95_indent_refuted : exists s t s' t' ls u, extracted_comment s t /\ extracted_comment s' t' /\ t <> t' /\ length (u_notes u) = 1%nat
  /\ forall lib pf, exists c, read_catalogue lib pf (str_stream (s :: ls)) = Ok c /\ read_catalogue lib pf (str_stream (s' :: ls)) = Ok c /\ c_items c = [UOk u].
Proof. exact extracted_indent_refuted. Qed.
Print Assumptions C95_indent_refuted.
Example C95_example : extracted_comment (lit "#.  a ") (lit " a ") /\ extracted_comment (lit "#.a") (lit "a") /\ unindented (lit " a ") (lit "a ")
  /\ parse_line (lit "#.  a ") 1 = Some (PComment 1 46 (lit "a "))
  /\ match read_catalogue demo_lib demo_pf (str_stream [lit "#. x"; lit "# y"; lit "#.z"; lit "msgid ""a"""; lit "msgstr ""b"""]) with
     | Ok c => map (fun i => match i with UOk u => developer_texts (u_notes u) | UErr _ => [] end) (c_items c) | _ => [] end = [[lit "x"; lit "z"]].
Proof.
  split; [exists [], (lit "  a "); split; [reflexivity|]; split; [intros c []|left; reflexivity]|].
  split; [exists [], (lit "a"); split; [reflexivity|]; split; [intros c []|right; split; [reflexivity|discriminate]]|].
  split; [apply (ui_intro (lit " ") (lit "a ")); [intros c [<-|[]]; vm_compute; tauto|intros c r [= <- _]; vm_compute; intuition discriminate]|].
  split; vm_compute; reflexivity.
Qed.

(** C87, false also of [# File: NAME, line: NUMBER], a location in gettext: it is always a note of the translators here. *)
Theorem C87_solaris_line : forall s name number n, one_line s -> solaris_location s name number ->
  parse_line s n = Some (PComment n 32 (lit "File: " ++ name ++ lit ", line: " ++ number)).
Proof. exact solaris_line. Qed.
Print Assumptions C87_solaris_line.
Theorem C87_solaris_refuted : exists s name number ls u, solaris_location s name number
  /\ u_locations u = [] /\ length (u_notes u) = 1%nat
  /\ forall lib pf, exists c, read_catalogue lib pf (str_stream (s :: ls)) = Ok c /\ c_items c = [UOk u].
Proof. exact solaris_refuted. Qed.
Print Assumptions C87_solaris_refuted.
(** C87: if there are no other blanks than spaces and tabs in the [#:] comments of a unit, its locations are those of gettext exactly if none of these contains a blank. *)
Theorem C87_exact_partial : forall lib pf evs ls e pl tl c k u, file evs ls e pl tl -> read_catalogue lib pf evs = Ok c -> nth_error (c_items c) k = Some (UOk u) ->
  exists forms cs ks, unit_at lib pf pl tl c k forms (cs ++ ks) u /\ Forall comment_line cs /\ ~ Exists comment_line ks
    /\ (comments_white blank 58 cs -> forall L, gettext_locations cs L -> (L = u_locations u <-> forall x c, In x L -> In c x -> ~ blank c)).
Proof. exact locations_exact. Qed.
Print Assumptions C87_exact_partial.
(** C86: if the white space in the flag comments of a unit is that of C, its non-empty flags are those of gettext exactly if none contains white space. *)
Theorem C86_exact_partial : forall lib pf evs ls e pl tl c k u, file evs ls e pl tl -> read_catalogue lib pf evs = Ok c -> nth_error (c_items c) k = Some (UOk u) ->
  exists forms cs ks, unit_at lib pf pl tl c k forms (cs ++ ks) u /\ Forall comment_line cs /\ ~ Exists comment_line ks
    /\ (comments_white c_white 44 cs ->
        ((forall f, In f (u_flags u) /\ f <> [] <-> gettext_flag cs f) <-> forall f x, In f (u_flags u) -> In x f -> ~ white x)).
Proof. exact flags_exact. Qed.
Print Assumptions C86_exact_partial.
Example C87_isolated_example : gettext_locations [PComment 1 58 (8296 :: lit "a" ++ 8297 :: lit ":1")] [8296 :: lit "a" ++ 8297 :: lit ":1"]
  /\ forall c, In c (8296 :: lit "a" ++ 8297 :: lit ":1") -> ~ blank c.
Proof.
  assert (B : forall c, In c (8296 :: lit "a" ++ 8297 :: lit ":1") -> ~ blank c) by (intros c I H; vm_compute in I, H; intuition congruence).
  split; [|exact B]. apply (gl_line 1 _ [] [_] []); [|constructor]. rewrite <- (app_nil_r (8296 :: lit "a" ++ 8297 :: lit ":1")) at 1.
  apply (ls_more [] (8296 :: lit "a" ++ 8297 :: lit ":1") [] []); [intros c []| |discriminate|constructor; intros c []].
  apply (lc_isolated (lit "a") (lit ":1")); [vm_compute; intuition discriminate|]. intros c I. apply B. right. apply in_app_iff. right. right. exact I.
Qed.
