(** Translated units, influence of the header, repeated entries, charset (C44, C67-C70). *)
From Coq Require Import String Arith NArith ZArith Bool List Lia.
From Verif Require Import ModelBase ModelUtf8 ModelLine ModelFormula ModelData ModelSource ModelReader
  SpecLine SpecFormula SpecSource SpecReader SpecBlock SpecHeader SpecFile SpecUse FileIntro UseFacts.
Import ListNotations.
Local Open Scope N_scope.

(** C67: false of the code that a translated unit has a text for every count. *)
Theorem C67_simple : forall lib pf evs c u id t, read_catalogue lib pf evs = Ok c -> In (UOk u) (c_items c) ->
  u_message u = MSimple id t -> unit_is_translated u = true ->
  exists s, t = Some s /\ s <> [] /\ msg_get_text (u_message u) = s /\ forall n, msg_get_plural_text pf (u_message u) n = Some (Some s).
Proof. exact translated_simple. Qed.
Print Assumptions C67_simple.
(** For which counts a plural unit offers a text, on every platform. *)
Theorem C67_plural : forall lib pf evs c u p n w, read_catalogue lib pf evs = Ok c -> In (UOk u) (c_items c) -> u_message u = MPlural p -> congruent w (Z.of_N n) ->
  (offers pf u n <-> exists f i s, pl_forms p = Some f /\ looks_up pf f w (Some (Some i)) /\ nth_error (pl_values p) (N.to_nat i) = Some s /\ s <> []).
Proof. exact offers_iff. Qed.
Print Assumptions C67_plural.
(** The look-up itself, any definition of plural forms (the literals of every formula that is read are in range: C30). *)
Theorem C37_lookup_on_every_platform : forall pf f n w r, literals_ok (pf_formula f) -> congruent w (Z.of_N n) -> (forms_get_value pf f n = r <-> looks_up pf f w r).
Proof. exact lookup_iff. Qed.
Print Assumptions C37_lookup_on_every_platform.
Example C37_lookup_example : let f := PluralForms (NNum 4294967297) 2 [] [] in
  literals_ok (pf_formula f) /\ congruent 5 (Z.of_N 5) /\ looks_up (Platform 32 false) f 5 (Some (Some 1)) /\ looks_up (Platform 64 false) f 5 (Some None).
Proof.
  split; [cbn; unfold max64; lia|]. split; [split; [unfold in64, min64, max64; lia|reflexivity]|].
  split; [eapply lu_form|eapply (lu_large _ _ _ _ 4294967297)]; try (left; reflexivity); try apply r_num; try discriminate; reflexivity.
Qed.
Theorem C67_all_forms_partial : forall lib pf evs c u p f n w i, read_catalogue lib pf evs = Ok c -> In (UOk u) (c_items c) -> u_message u = MPlural p -> pl_forms p = Some f ->
  congruent w (Z.of_N n) -> N.of_nat (length (pl_values p)) = pf_count f -> (forall s, In s (pl_values p) -> s <> []) -> looks_up pf f w (Some (Some i)) -> offers pf u n.
Proof. exact complete_offers. Qed.
Print Assumptions C67_all_forms_partial.
(** Without plural forms in the header no plural unit has a text for any count. *)
Theorem C67_no_forms : forall lib pf evs c u p n, read_catalogue lib pf evs = Ok c -> In (UOk u) (c_items c) -> u_message u = MPlural p ->
  sm_get (lit "Plural-Forms") (c_properties c) = None \/ sm_get (lit "Plural-Forms") (c_properties c) = Some [] ->
  msg_get_plural_text pf (u_message u) n = Some None.
Proof. exact translated_no_forms. Qed.
Print Assumptions C67_no_forms.
Theorem C67_without_forms_refuted : exists evs c u, (forall lib pf, exists c, read_catalogue lib pf evs = Ok c /\ c_items c = [UOk u])
  /\ read_catalogue demo_lib demo_pf evs = Ok c /\ unit_is_translated u = true /\ translations (u_message u) = [lit "c"; lit "d"]
  /\ forall pf n, msg_get_plural_text pf (u_message u) n = Some None.
Proof. exact no_forms_refuted. Qed.
Print Assumptions C67_without_forms_refuted.
Theorem C67_blank_form_refuted : exists evs c u, read_catalogue demo_lib demo_pf evs = Ok c /\ c_items c = [UOk u] /\ unit_is_translated u = true
  /\ msg_get_plural_text demo_pf (u_message u) 1 = Some (Some []) /\ offers demo_pf u 2.
Proof. exact blank_form_refuted. Qed.
Print Assumptions C67_blank_form_refuted.
Theorem C67_missing_form_refuted : exists evs c u, read_catalogue demo_lib demo_pf evs = Ok c /\ c_items c = [UOk u] /\ unit_is_translated u = true
  /\ msg_get_plural_text demo_pf (u_message u) 2 = Some None /\ offers demo_pf u 1.
Proof. exact missing_form_refuted. Qed.
Print Assumptions C67_missing_form_refuted.
(** Nor is it in use. *)
Theorem C67_obsolete_refuted : exists evs u, (forall lib pf, exists c, read_catalogue lib pf evs = Ok c /\ c_items c = [UOk u]) /\ unit_is_translated u = true /\ u_obsolete u = true.
Proof. exact obsolete_refuted. Qed.
Print Assumptions C67_obsolete_refuted.
Example C67_example :
  match read_catalogue demo_lib demo_pf (lf_stream (forms_lines ["msgstr[0] ""c"""; "msgstr[1] ""d"""]%string)) with
  | Ok c => map (fun u => (unit_is_translated u, map (msg_get_plural_text demo_pf (u_message u)) [0; 1; 2])) (units (c_items c))
            = [(true, [Some (Some (lit "d")); Some (Some (lit "c")); Some (Some (lit "d"))])]
  | _ => False end.
Proof. vm_compute. reflexivity. Qed.

(** C68 *)
(** Two files with headers that agree about plural forms, and the same lines after them (up to
    line numbers and cuts of strings): the same items, or the same error.  The language depends on the property
    Language only. *)
Theorem C68_header_influence : forall lib pf Rn evs ls e h r tl u ps evs' ls' e' h' r' tl' u' ps',
  file evs ls e (h ++ r) tl -> first_entry h r tl u -> header u ps -> file evs' ls' e' (h' ++ r') tl' -> first_entry h' r' tl' u' -> header u' ps' ->
  property ps (lit "Plural-Forms") = property ps' (lit "Plural-Forms") -> resplit Rn r r' -> same_end Rn tl tl' ->
  match read_catalogue lib pf evs, read_catalogue lib pf evs' with
  | Ok c, Ok c' => Forall2 (uitem_sim Rn eq) (c_items c) (c_items c') /\ (property ps (lit "Language") = property ps' (lit "Language") -> c_language c = c_language c')
  | Err x, Err x' => x = x'
  | _, _ => False
  end.
Proof. exact header_influence. Qed.
Print Assumptions C68_header_influence.
(** A header that defines no plural forms makes no difference to the items. *)
Theorem C68_header_added : forall lib pf Rn evs ls e h r tl u ps evs' ls' e' b v rest tl',
  file evs ls e (h ++ r) tl -> first_entry h r tl u -> header u ps -> property ps (lit "Plural-Forms") = None \/ property ps (lit "Plural-Forms") = Some [] ->
  file evs' ls' e' (b ++ rest) tl' -> unit_entry None b v -> ends_at None b rest tl' -> resplit Rn r (b ++ rest) -> same_end Rn tl tl' ->
  exists c c', read_catalogue lib pf evs = Ok c /\ read_catalogue lib pf evs' = Ok c' /\ Forall2 (uitem_sim Rn eq) (c_items c) (c_items c').
Proof. exact header_added. Qed.
Print Assumptions C68_header_added.
Example C68_example :
  let items ls := match read_catalogue demo_lib demo_pf (lf_stream ls) with Ok c => (c_language c, c_items c) | _ => ([], []) end in
  (items ["msgid """""; "msgstr ""X: y\n"""; "msgid ""a"""; "msgstr ""b"""] = ([], [UOk (simple_unit (lit "a") (lit "b"))])
   /\ items ["msgid """""; "msgstr ""Language: fr\nContent-Type: text/plain; charset=KOI8-R\n"""; "msgid ""a"""; "msgstr ""b"""] = (lit "fr", [UOk (simple_unit (lit "a") (lit "b"))])
   /\ items ["msgid ""a"""; "msgstr ""b"""] = ([], [UOk (simple_unit (lit "a") (lit "b"))]))%string.
Proof. vm_compute. auto. Qed.

(** C69: false of the code that the units of a catalogue can be told apart by context and id. *)
Theorem C69_repeated_entries : forall lib pf hls v ps forms blks us bs evs i j blk, heading_text pf hls v ps forms -> Forall2 (entry_text forms) blks us ->
  contents bs None (hls ++ concat blks) None -> delivers evs bs None -> nth_error blks i = Some blk -> nth_error blks j = Some blk ->
  exists c u, read_catalogue lib pf evs = Ok c /\ nth_error (c_items c) i = Some (UOk u) /\ nth_error (c_items c) j = Some (UOk u).
Proof. exact repeated. Qed.
Print Assumptions C69_repeated_entries.
Theorem C69_distinct_refuted : exists evs u v, (forall lib pf, exists c, read_catalogue lib pf evs = Ok c /\ c_items c = [UOk u; UOk v]) /\ lookup_key u = lookup_key v
  /\ msg_get_text (u_message u) <> msg_get_text (u_message v).
Proof. exact distinct_refuted. Qed.
Print Assumptions C69_distinct_refuted.

(** C70: false of the code that the charset declared by the header is respected: all text is
    UTF-8 (C09), whatever the header says (C68). *)
Theorem C70_charset_refuted : forall lib pf, exists c, read_catalogue lib pf latin_stream = Ok c /\ sm_get (lit "Content-Type") (c_properties c) = Some (lit "text/plain; charset=ISO-8859-1")
  /\ c_items c = [UErr (EIo 4 IoInvalidUtf8)].
Proof. exact charset_refuted. Qed.
Print Assumptions C70_charset_refuted.
(** Nor is the file refused: other text is read than the one written, without any error. *)
Theorem C70_misread_refuted : forall lib pf, exists c u, read_catalogue lib pf misread_stream = Ok c /\ sm_get (lit "Content-Type") (c_properties c) = Some (lit "text/plain; charset=ISO-8859-1")
  /\ c_items c = [UOk u] /\ msg_get_text (u_message u) = [233].
Proof. exact misread_refuted. Qed.
Print Assumptions C70_misread_refuted.
Example C70_bytes : exists a b, misread_stream = [RdData (a ++ utf8 (lit "msgstr """) ++ [195; 169] ++ b)] /\ utf8_decode [195; 169] = Some [233].
Proof. eexists. eexists. split; reflexivity. Qed.

(** C44, for the messages of one file: two entries whose messages are equal have, for each
    count, different texts. *)
Theorem C44_in_one_file_refuted : exists u v, (forall lib, exists c, read_catalogue lib demo_pf twins_stream = Ok c /\ c_items c = [UOk u; UOk v])
  /\ msg_eqb (u_message u) (u_message v) = true
  /\ forall n, exists s t, msg_get_plural_text demo_pf (u_message u) n = Some (Some s) /\ msg_get_plural_text demo_pf (u_message v) n = Some (Some t) /\ s <> t.
Proof. exact twins_refuted. Qed.
Print Assumptions C44_in_one_file_refuted.
(** Exactly when two plural units of one file (with equal messages or not) have the same text for a count:
    the values at the index that is looked up are the same. *)
Theorem C44_plural_messages_partial : forall lib pf evs c u v p q n w, read_catalogue lib pf evs = Ok c -> In (UOk u) (c_items c) -> In (UOk v) (c_items c) ->
  u_message u = MPlural p -> u_message v = MPlural q -> congruent w (Z.of_N n) ->
  (msg_get_plural_text pf (u_message u) n = msg_get_plural_text pf (u_message v) n
   <-> forall f i, pl_forms p = Some f -> looks_up pf f w (Some (Some i)) -> nth_error (pl_values p) (N.to_nat i) = nth_error (pl_values q) (N.to_nat i)).
Proof. exact same_text_iff. Qed.
Print Assumptions C44_plural_messages_partial.
