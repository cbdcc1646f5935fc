(** Property C118: characters outside ASCII. *)
From Coq Require Import String Arith NArith ZArith Bool List Lia.
From Verif Require Import ModelBase ModelLine ModelFormula ModelData ModelUtf8 ModelSource ModelReader ModelParser ModelReport
  SpecLine SpecSource SpecReader SpecParser SpecRenamed FlagFacts RenamedThms RenamedWitness RenamedReport.
Import ListNotations.
Local Open Scope N_scope.

(** C118: renaming the characters outside ASCII of a file renames them in what is read, errors included, if white space and digits remain such
    (in the main model, where the text of errors about formulas is a constant). *)
Theorem C118_renamed_partial : forall f, renaming f -> forall lib pf evs bs k ls e evs' bs' k', delivers evs bs k -> contents bs k ls e -> delivers evs' bs' k' -> contents bs' k' (map (ren f) ls) e ->
  renamed f (read_catalogue lib pf evs) (read_catalogue lib pf evs').
Proof. exact read_renamed. Qed.
Print Assumptions C118_renamed_partial.
(** With the texts of errors about formulas this is false of the code: they tell offsets in bytes,
    and a no-break space has two bytes, an em space three ... *)
Theorem C118_offsets_refuted : exists f ls bs bs', renaming f /\ delivers (str_stream ls) bs None /\ contents bs None ls None /\ delivers (str_stream (map (ren f) ls)) bs' None /\ contents bs' None (map (ren f) ls) None
  /\ forall early expected lib pf, cautious early -> ~ renamed f (report_catalogue early expected lib pf (str_stream ls)) (report_catalogue early expected lib pf (str_stream (map (ren f) ls))).
Proof. exact offsets_matter. Qed.
Print Assumptions C118_offsets_refuted.
(** ... but true of renamings that keep the number of bytes of white space, if the list of expected
    tokens in the text does not depend on the characters outside ASCII. *)
Theorem C118_texts_partial : forall f, renaming f -> (forall c, white c -> length (encode_char (f c)) = length (encode_char c)) ->
  forall early expected, cautious early -> (forall s ft, expected (ren f s) ft = map (ren f) (expected s ft)) ->
  forall lib pf evs bs k ls e evs' bs' k', delivers evs bs k -> contents bs k ls e -> delivers evs' bs' k' -> contents bs' k' (map (ren f) ls) e ->
  renamed f (report_catalogue early expected lib pf evs) (report_catalogue early expected lib pf evs').
Proof. exact report_renamed. Qed.
Print Assumptions C118_texts_partial.
(** Lookups in renamed messages find the renamed texts. *)
Theorem C118_lookups : forall f pf m n, msg_get_plural_text pf (ren_message f m) n = option_map (option_map (ren f)) (msg_get_plural_text pf m n).
Proof. exact plural_text_renamed. Qed.
Print Assumptions C118_lookups.
(** There are renamed files. *)
Theorem C118_files : forall f bs k ls e, renaming f -> (forall c, scalar c -> scalar (f c)) -> contents bs k ls e ->
  exists evs' bs', delivers evs' bs' None /\ contents bs' None (map (ren f) ls) None.
Proof. exact renamed_file. Qed.
Print Assumptions C118_files.
(** White space and digits outside ASCII matter: a no-break space before msgid, an Arabic digit in msgstr[]. *)
Theorem C118_white_matters : exists f ls bs bs', (forall c, c < 128 -> f c = c) /\ (forall c, 128 <= c -> 128 <= f c) /\ (forall c d, f c = f d -> c = d) /\ (forall c, decimal_digit (f c) <-> decimal_digit c)
  /\ delivers (str_stream ls) bs None /\ contents bs None ls None /\ delivers (str_stream (map (ren f) ls)) bs' None /\ contents bs' None (map (ren f) ls) None
  /\ ~ renamed f (read_catalogue demo_lib demo_pf (str_stream ls)) (read_catalogue demo_lib demo_pf (str_stream (map (ren f) ls))).
Proof. exact white_matters. Qed.
Print Assumptions C118_white_matters.
Theorem C118_digits_matter : exists f ls bs bs', (forall c, c < 128 -> f c = c) /\ (forall c, 128 <= c -> 128 <= f c) /\ (forall c d, f c = f d -> c = d) /\ (forall c, white (f c) <-> white c)
  /\ delivers (str_stream ls) bs None /\ contents bs None ls None /\ delivers (str_stream (map (ren f) ls)) bs' None /\ contents bs' None (map (ren f) ls) None
  /\ ~ renamed f (read_catalogue demo_lib demo_pf (str_stream ls)) (read_catalogue demo_lib demo_pf (str_stream (map (ren f) ls))).
Proof. exact digits_matter. Qed.
Print Assumptions C118_digits_matter.
(** The letters U+00E9 and U+0436 exchanged. *)
Example C118_example : renaming (swap 233 1078)
  /\ match read_catalogue demo_lib demo_pf (str_stream [35 :: 233 :: lit " n"; lit "msgid ""a" ++ 233 :: lit """"; lit "msgstr ""b" ++ 1078 :: lit """"]) with
     | Ok c => map (fun i => match i with UOk u => (u_message u, u_comments u) | UErr _ => (message_default, []) end) (c_items c) | _ => [] end
     = [(MSimple (lit "a" ++ [233]) (Some (lit "b" ++ [1078])), [Comment 233 (lit "n")])]
  /\ match read_catalogue demo_lib demo_pf (str_stream [35 :: 1078 :: lit " n"; lit "msgid ""a" ++ 1078 :: lit """"; lit "msgstr ""b" ++ 233 :: lit """"]) with
     | Ok c => map (fun i => match i with UOk u => (u_message u, u_comments u) | UErr _ => (message_default, []) end) (c_items c) | _ => [] end
     = [(MSimple (lit "a" ++ [1078]) (Some (lit "b" ++ [233])), [Comment 1078 (lit "n")])].
Proof. split; [apply swap_renaming; [lia|lia|reflexivity|reflexivity]|]. split; vm_compute; reflexivity. Qed.
(** Offsets in a formula with a no-break space and with an em space. *)
Example C118_offsets_example : map (fun c => match report_catalogue (fun _ _ => false) (fun _ _ => []) demo_lib demo_pf (str_stream (spaced c)) with Err e => Some e | _ => None end) [160; 8195]
  = [Some (EPluralForms (lit "Invalid token at 3")); Some (EPluralForms (lit "Invalid token at 4"))].
Proof. vm_compute. reflexivity. Qed.
