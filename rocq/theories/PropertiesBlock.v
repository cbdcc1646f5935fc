(** Properties of entries and units (C18-C22, C24, C39-C42, C47, C49, C50). *)
From Coq Require Import String Arith NArith Bool List Lia Sorted.
From Verif Require Import ModelBase ModelUtf8 ModelLine ModelFormula ModelData ModelSource ModelReader
  SpecLine SpecSource SpecReader SpecBlock SpecHeader SpecFile SpecAny BlockFacts FileIntro BlockThms EntryThms PlaceFacts HeaderThms BlockWitness AnyFacts AnyParts.
Import ListNotations.
Local Open Scope N_scope.

(** C18: false of the code. *)
Theorem C18_truncated_entry_reported_refuted : exists evs ls e pl, file evs ls e pl None
  /\ (exists b, pl = b ++ [PMessage 3 [] (lit "msgid") (lit "c")]) /\ incomplete None [PMessage 3 [] (lit "msgid") (lit "c")]
  /\ forall lib pf, exists c, read_catalogue lib pf evs = Ok c /\ forall x, ~ In (UErr x) (c_items c).
Proof.
  exists (lf_stream cut_lines), (map lit cut_lines), None, cut_parsed. split; [exact cut_file|]. split; [eexists; reflexivity|]. split; [apply cut_incomplete|].
  intros lib pf. eexists. split; [apply cut_read|]. intros x [H|[]]. discriminate.
Qed.
Print Assumptions C18_truncated_entry_reported_refuted.
(** It is never reported: whatever unfinished entry the file ends with. *)
Theorem C18_truncated_entry_ignored : forall lib pf evs ls e pl h bls tail forms us, file evs ls e pl None -> pl = h ++ concat bls ++ tail ->
  heading pf h (concat bls ++ tail) None forms us -> Forall2 (unit_entry forms) bls us -> incomplete forms tail ->
  exists c, read_catalogue lib pf evs = Ok c /\ c_items c = map UOk us.
Proof. exact unfinished_ignored. Qed.
Print Assumptions C18_truncated_entry_ignored.
Theorem C18_truncated_only_entry_ignored : forall lib pf evs ls e pl, file evs ls e pl None -> incomplete None pl ->
  exists c, read_catalogue lib pf evs = Ok c /\ c_items c = [].
Proof. exact read_unfinished. Qed.
Print Assumptions C18_truncated_only_entry_ignored.

(** C19 *)
(** Of any stream. *)
Theorem C19_state : forall lib pf evs c u, read_catalogue lib pf evs = Ok c -> In (UOk u) (c_items c) ->
  (u_state u = StNeedsWork <-> In (lit "fuzzy") (u_flags u))
  /\ (u_state u = StFinal <-> ~ In (lit "fuzzy") (u_flags u) /\ exists t, In t (translations (u_message u)) /\ t <> [])
  /\ (u_state u = StEmpty <-> ~ In (lit "fuzzy") (u_flags u) /\ forall t, In t (translations (u_message u)) -> t = [])
  /\ (unit_is_translated u = true <-> u_state u = StFinal).
Proof. exact unit_state_any. Qed.
Print Assumptions C19_state.
Example C19_example :
  match demo_read ("#, c-format , fuzzy" ++ LFs ++ "msgid ""a""" ++ LFs ++ "msgstr ""b""" ++ LFs ++ "msgid ""c""" ++ LFs ++ "msgstr """"" ++ LFs
                   ++ "msgid ""d""" ++ LFs ++ "msgid_plural ""e""" ++ LFs ++ "msgstr[0] """"" ++ LFs ++ "msgstr[1] ""f""") with
  | Ok c => map u_state (units (c_items c)) = [StNeedsWork; StEmpty; StFinal]
  | _ => False end.
Proof. vm_compute. reflexivity. Qed.

(** C20 *)
Theorem C20_no_empty_source : forall lib pf evs c u, read_catalogue lib pf evs = Ok c -> In (UOk u) (c_items c) ->
  forall text, u_message u <> MSimple [] text.
Proof. exact unit_source_any. Qed.
Print Assumptions C20_no_empty_source.
(** An entry with an empty id after the first one is reported, at its first keyword line;
    nothing is delivered after it. *)
Theorem C20_empty_source_reported : forall lib pf evs ls e pl tl h r forms us bls cs F N L C obs k ks pc pm ct text rest,
  file evs ls e pl tl -> pl = h ++ r -> r = concat bls ++ (cs ++ k :: ks) ++ rest -> heading pf h r tl forms us ->
  Forall2 (unit_entry forms) bls us -> block_comments cs F N L C -> keywords forms obs (k :: ks) pc pm ct (MSimple [] text) ->
  ends_at forms (cs ++ k :: ks) rest tl ->
  exists c, read_catalogue lib pf evs = Ok c
    /\ c_items c = map UOk us ++ [UErr (EUnexpected (po_line_no k) (lit "Source should not be empty"))].
Proof. exact empty_source. Qed.
Print Assumptions C20_empty_source_reported.
(** A plural entry may have empty ids: it is delivered, even in the place of the header. *)
Theorem C20_plural_without_source : exists evs u, u_message u = MPlural (Plural None [] [] [lit "Language: de" ++ [10]; []])
  /\ forall lib pf, read_catalogue lib pf evs = Ok (Catalogue [] [] [] (lang_invariant lib) [UOk u]).
Proof. exact (ex_intro _ (lf_stream plural_header_lines) plural_header). Qed.
Print Assumptions C20_plural_without_source.
Example C20_example :
  demo_ids (demo_read ("msgid ""a""" ++ LFs ++ "msgstr ""b""" ++ LFs ++ "# x" ++ LFs ++ "msgid """"" ++ LFs ++ "msgstr ""c""" ++ LFs ++ "msgid ""d""" ++ LFs ++ "msgstr ""e"""))
  = [inl (lit "a"); inr (Some 4)].
Proof. vm_compute. reflexivity. Qed.
Example C20_hypotheses : let pl := [] ++ concat [ab_block] ++ ([PComment 3 32 (lit "x")] ++ sourceless_keys) ++ [] in
  file (lf_stream sourceless_lines) (map lit sourceless_lines) None pl None /\ heading demo_pf [] pl None None [ab_unit] /\ Forall2 (unit_entry None) [ab_block] [ab_unit]
  /\ block_comments [PComment 3 32 (lit "x")] [] [Note Translator (lit "x")] [] []
  /\ keywords None false sourceless_keys None (MSimple [] None) None (MSimple [] (Some (lit "c")))
  /\ ends_at None ([PComment 3 32 (lit "x")] ++ sourceless_keys) [] None.
Proof. exact sourceless_example. Qed.

(** C21 *)
Theorem C21_obsolete : forall lib pf evs ls e pl tl c k u, file evs ls e pl tl -> read_catalogue lib pf evs = Ok c -> nth_error (c_items c) k = Some (UOk u) ->
  exists forms b, unit_at lib pf pl tl c k forms b u
    /\ (exists n p t s, In (PMessage n p t s) b)
    /\ forall l, In l b -> match l with
         | PMessage _ p _ _ | PCont _ p _ => if u_obsolete u then p = lit "~" \/ p = lit "~|" else p = [] \/ p = lit "|"
         | PComment _ _ _ => True
         | PBlank => False
         end.
Proof. exact unit_obsolete. Qed.
Print Assumptions C21_obsolete.
(** Also if the stream goes on after a report of its end. *)
Theorem C21_obsolete_any : forall lib pf evs bs f rs c k u, pieces evs bs f -> answers 1 bs f rs -> read_catalogue lib pf evs = Ok c -> nth_error (c_items c) k = Some (UOk u) ->
  exists forms b, stream_unit lib pf (kept rs) c k forms b u
    /\ (exists n p t s, In (PMessage n p t s) b)
    /\ forall l, In l b -> match l with
         | PMessage _ p _ _ | PCont _ p _ => if u_obsolete u then p = lit "~" \/ p = lit "~|" else p = [] \/ p = lit "|"
         | PComment _ _ _ => True
         | PBlank => False
         end.
Proof. exact any_obsolete. Qed.
Print Assumptions C21_obsolete_any.
Example C21_example :
  match demo_read ("#~| msgid ""p""" ++ LFs ++ "#~ msgid ""a""" ++ LFs ++ "#~ msgstr ""b""" ++ LFs ++ "#~ ""c""" ++ LFs ++ "msgid ""d""" ++ LFs ++ "msgstr ""e""") with
  | Ok c => map u_obsolete (units (c_items c)) = [true; false]
  | _ => False end
  /\ demo_ids (demo_read ("#~ msgid ""a""" ++ LFs ++ "msgstr ""b""")) = [inr (Some 2)].
Proof. split; vm_compute; reflexivity. Qed.

(** C22, C47: comment lines, then keyword lines; what they give. *)
Theorem C22_comments : forall lib pf evs ls e pl tl c k u, file evs ls e pl tl -> read_catalogue lib pf evs = Ok c -> nth_error (c_items c) k = Some (UOk u) ->
  exists forms cs ks F, unit_at lib pf pl tl c k forms (cs ++ ks) u /\ block_comments cs F (u_notes u) (u_locations u) (u_comments u) /\ u_flags u = distinct F
    /\ (forall f, In f (u_flags u) <-> In f F) /\ NoDup (u_flags u)
    /\ ks <> [] /\ (forall l, In l ks -> match l with PMessage _ _ _ _ | PCont _ _ _ => True | _ => False end)
    /\ keywords forms (u_obsolete u) ks (u_prev_context u) (u_prev_message u) (u_context u) (u_message u).
Proof. exact unit_comments. Qed.
Print Assumptions C22_comments.
(** Also if the stream goes on after a report of its end. *)
Theorem C22_comments_any : forall lib pf evs bs f rs c k u, pieces evs bs f -> answers 1 bs f rs -> read_catalogue lib pf evs = Ok c -> nth_error (c_items c) k = Some (UOk u) ->
  exists forms cs ks F, stream_unit lib pf (kept rs) c k forms (cs ++ ks) u /\ block_comments cs F (u_notes u) (u_locations u) (u_comments u) /\ u_flags u = distinct F
    /\ (forall f, In f (u_flags u) <-> In f F) /\ NoDup (u_flags u)
    /\ ks <> [] /\ (forall l, In l ks -> match l with PMessage _ _ _ _ | PCont _ _ _ => True | _ => False end)
    /\ keywords forms (u_obsolete u) ks (u_prev_context u) (u_prev_message u) (u_context u) (u_message u).
Proof. exact any_comments. Qed.
Print Assumptions C22_comments_any.
Example C22_example :
  match demo_read ("#. dev" ++ LFs ++ "# tr" ++ LFs ++ "#: a.c:1  b.c:2" ++ LFs ++ "#, x, y ,x" ++ LFs ++ "#! z" ++ LFs ++ "#: c.c" ++ LFs ++ "msgid ""a""" ++ LFs ++ "msgstr ""b""") with
  | Ok c => match units (c_items c) with
            | [u] => u_notes u = [Note Developer (lit "dev"); Note Translator (lit "tr")] /\ u_locations u = [lit "a.c:1"; lit "b.c:2"; lit "c.c"]
                     /\ u_flags u = [lit "x"; lit "y"] /\ u_comments u = [Comment 33 (lit "z")]
            | _ => False end
  | _ => False end.
Proof. vm_compute. auto. Qed.

(** C24 *)
Theorem C24_no_header : forall lib pf evs ls e pl tl b r u, file evs ls e pl tl -> pl = b ++ r -> unit_entry None b u -> ends_at None b r tl ->
  exists c rest, read_catalogue lib pf evs = Ok c /\ no_header lib c /\ c_items c = UOk u :: rest.
Proof. exact first_unit. Qed.
Print Assumptions C24_no_header.
Example C24_example :
  file (lf_stream cut_lines) (map lit cut_lines) None (simple_block 1 2 (lit "a") (lit "b") ++ [PMessage 3 [] (lit "msgid") (lit "c")]) None
  /\ unit_entry None (simple_block 1 2 (lit "a") (lit "b")) (simple_unit (lit "a") (lit "b"))
  /\ ends_at None (simple_block 1 2 (lit "a") (lit "b")) [PMessage 3 [] (lit "msgid") (lit "c")] None
  /\ demo_ids (read_catalogue demo_lib demo_pf (lf_stream cut_lines)) = [inl (lit "a")].
Proof. exact first_unit_example. Qed.

(** C39: false of the code: with a gap in the indices the values are shifted. *)
Theorem C39_value_is_form_refuted : exists evs ls pl forms c u p, file evs ls None pl None /\ unit_entry forms pl u
  /\ read_catalogue demo_lib demo_pf evs = Ok c /\ c_items c = [UOk u] /\ u_message u = MPlural p
  /\ exists s, nth_error (pl_values p) 0 = Some s /\ form_at pl 1 s /\ forall t, ~ form_at pl 0 t.
Proof. exact gap_refuted. Qed.
Print Assumptions C39_value_is_form_refuted.
(** The values are the texts of the forms in the order of their indices, which increase and
    are below the number of forms ... *)
Theorem C39_values_in_order_partial : forall lib pf evs ls e pl tl c k u p, file evs ls e pl tl -> read_catalogue lib pf evs = Ok c -> nth_error (c_items c) k = Some (UOk u) ->
  u_message u = MPlural p ->
  exists b ks, unit_at lib pf pl tl c k (pl_forms p) b u
    /\ StronglySorted N.lt ks /\ Forall (fun k => k < nforms (pl_forms p)) ks /\ length ks = length (pl_values p)
    /\ (forall i s, form_at b i s <-> exists j, nth_error ks j = Some i /\ nth_error (pl_values p) j = Some s)
(** ... and value i is form i when no index is missing. *)
    /\ ((forall i j s, form_at b i s -> j < i -> exists t, form_at b j t) ->
        forall i s, form_at b (N.of_nat i) s <-> nth_error (pl_values p) i = Some s).
Proof. exact unit_values. Qed.
Print Assumptions C39_values_in_order_partial.
(** Also if the stream goes on after a report of its end. *)
Theorem C39_values_in_order_any_partial : forall lib pf evs bs f rs c k u p, pieces evs bs f -> answers 1 bs f rs -> read_catalogue lib pf evs = Ok c -> nth_error (c_items c) k = Some (UOk u) ->
  u_message u = MPlural p ->
  exists b ks, stream_unit lib pf (kept rs) c k (pl_forms p) b u
    /\ StronglySorted N.lt ks /\ Forall (fun k => k < nforms (pl_forms p)) ks /\ length ks = length (pl_values p)
    /\ (forall i s, form_at b i s <-> exists j, nth_error ks j = Some i /\ nth_error (pl_values p) j = Some s)
    /\ ((forall i j s, form_at b i s -> j < i -> exists t, form_at b j t) ->
        forall i s, form_at b (N.of_nat i) s <-> nth_error (pl_values p) i = Some s).
Proof. exact any_values. Qed.
Print Assumptions C39_values_in_order_any_partial.
Example C39_example :
  match demo_read ("msgid ""a""" ++ LFs ++ "msgid_plural ""b""" ++ LFs ++ "msgstr[0] ""c""" ++ LFs ++ "msgstr[1] ""d""" ++ LFs ++ """e""") with
  | Ok c => match units (c_items c) with [u] => match u_message u with MPlural p => pl_values p = [lit "c"; lit "de"] | _ => False end | _ => False end
  | _ => False end.
Proof. vm_compute. reflexivity. Qed.

(** C40 *)
Theorem C40_surplus_line_reported : forall lib pf evs ls e pl tl h bls l r forms us, file evs ls e pl tl -> pl = h ++ concat bls ++ l :: r ->
  heading pf h (concat bls ++ l :: r) tl forms us -> Forall2 (unit_entry forms) bls us -> inner_line l ->
  (bls <> [] -> ~ viable forms (last bls [] ++ [l])) ->
  exists c, read_catalogue lib pf evs = Ok c /\ c_items c = map UOk us ++ [UErr (EParse (po_line_no l) (shown l) (lit "msgid"))].
Proof. exact surplus_line. Qed.
Print Assumptions C40_surplus_line_reported.
Theorem C40_surplus_forms : forall forms b n p t s k, msgstr_kw k t ->
  nforms forms <= k \/ (exists n' p' t' s' j, In (PMessage n' p' t' s') b /\ msgstr_kw j t' /\ k <= j) ->
  ~ viable forms (b ++ [PMessage n p t s]).
Proof. exact surplus_form_not_viable. Qed.
Print Assumptions C40_surplus_forms.
Example C40_example :
  demo_ids (demo_read ("msgid ""a""" ++ LFs ++ "msgid_plural ""b""" ++ LFs ++ "msgstr[0] ""c""" ++ LFs ++ "msgstr[1] ""d""" ++ LFs ++ "msgstr[2] ""e""")) = [inl (lit "a"); inr (Some 5)]
  /\ demo_ids (demo_read ("msgid ""a""" ++ LFs ++ "msgid_plural ""b""" ++ LFs ++ "msgstr[1] ""c""" ++ LFs ++ "msgstr[0] ""d""")) = [inl (lit "a"); inr (Some 4)].
Proof. split; vm_compute; reflexivity. Qed.
Example C40_hypotheses : exists pl r, file (lf_stream surplus_lines) (map lit surplus_lines) None pl None
  /\ pl = [] ++ concat [simple_block 1 2 (lit "a") (lit "b")] ++ PMessage 3 [] (lit "msgstr") (lit "c") :: r
  /\ heading demo_pf [] (concat [simple_block 1 2 (lit "a") (lit "b")] ++ PMessage 3 [] (lit "msgstr") (lit "c") :: r) None None [simple_unit (lit "a") (lit "b")]
  /\ Forall2 (unit_entry None) [simple_block 1 2 (lit "a") (lit "b")] [simple_unit (lit "a") (lit "b")]
  /\ inner_line (PMessage 3 [] (lit "msgstr") (lit "c"))
  /\ ~ viable None (last [simple_block 1 2 (lit "a") (lit "b")] [] ++ [PMessage 3 [] (lit "msgstr") (lit "c")]).
Proof. exact surplus_example. Qed.

(** C41: false of the code: the lines of an unfinished last entry are lost ... *)
Theorem C41_no_line_lost_refuted : exists evs ls pl, file evs ls None pl None /\ forall lib pf, exists c, read_catalogue lib pf evs = Ok c
  /\ (forall x, ~ In (UErr x) (c_items c)) /\ forall forms bls, Forall2 (entry forms) bls (units (c_items c)) -> pl <> concat bls.
Proof. exact lost_refuted. Qed.
Print Assumptions C41_no_line_lost_refuted.
(** ... but these, and those of a first entry without id, are the only ones. *)
Theorem C41_entries_partial : forall lib pf evs ls e pl tl c, file evs ls e pl tl -> read_catalogue lib pf evs = Ok c ->
  (forall x, ~ In (UErr x) (c_items c)) ->
  e = None /\ tl = None /\ exists h forms r us, pl = h ++ r /\ preamble lib pf h r None forms c /\ c_items c = map UOk us /\ entries forms r us.
Proof. exact catalogue_entries. Qed.
Print Assumptions C41_entries_partial.
(** Also when the iteration ends with an error the units are the contents of consecutive blocks. *)
Theorem C41_units_are_blocks_partial : forall lib pf evs ls e pl tl c, file evs ls e pl tl -> read_catalogue lib pf evs = Ok c ->
  exists h forms bls rest, pl = h ++ concat bls ++ rest /\ preamble lib pf h (concat bls ++ rest) tl forms c /\ Forall2 (unit_entry forms) bls (units (c_items c)).
Proof. exact catalogue_blocks. Qed.
Print Assumptions C41_units_are_blocks_partial.
(** Every unit has its place in the file, and only one. *)
Theorem C41_place : forall lib pf evs ls e pl tl c k u, file evs ls e pl tl -> read_catalogue lib pf evs = Ok c -> nth_error (c_items c) k = Some (UOk u) ->
  exists forms b, unit_at lib pf pl tl c k forms b u.
Proof. exact unit_placed. Qed.
Print Assumptions C41_place.
(** Also if the stream goes on after a report of its end. *)
Theorem C41_place_any : forall lib pf evs bs f rs c k u, pieces evs bs f -> answers 1 bs f rs -> read_catalogue lib pf evs = Ok c -> nth_error (c_items c) k = Some (UOk u) ->
  exists forms b, stream_unit lib pf (kept rs) c k forms b u.
Proof. exact any_unit. Qed.
Print Assumptions C41_place_any.
Theorem C41_only_place : forall lib pf evs ls e pl tl c k forms b u forms' b' u', file evs ls e pl tl ->
  unit_at lib pf pl tl c k forms b u -> unit_at lib pf pl tl c k forms' b' u' -> forms = forms' /\ b = b' /\ u = u'.
Proof. exact file_places. Qed.
Print Assumptions C41_only_place.
Example C41_place_example : exists c, read_catalogue demo_lib demo_pf (lf_stream cut_lines) = Ok c
  /\ unit_at demo_lib demo_pf cut_parsed None c 0 None (simple_block 1 2 (lit "a") (lit "b")) (simple_unit (lit "a") (lit "b")).
Proof. exact place_example. Qed.
(** Conversely, a file of entries is read completely. *)
Theorem C41_entries_are_read : forall lib pf evs ls e pl h r forms us, file evs ls e pl None -> pl = h ++ r ->
  heading pf h r None forms us -> entries forms r us -> exists c, read_catalogue lib pf evs = Ok c /\ c_items c = map UOk us.
Proof. exact unfinished_silent. Qed.
Print Assumptions C41_entries_are_read.
Example C41_example : file (lf_stream cut_lines) (map lit cut_lines) None cut_parsed None
  /\ heading demo_pf [] cut_parsed None None [simple_unit (lit "a") (lit "b")] /\ entries None cut_parsed [simple_unit (lit "a") (lit "b")].
Proof. exact entries_example. Qed.

(** C42: false of the code: an unacceptable line is reported by the number of the next line,
    which need not exist. *)
Theorem C42_error_line_refuted : exists evs ls e pl tl x n, file evs ls e pl tl /\ read_catalogue demo_lib demo_pf evs = Err x
  /\ x = EParse n (lit "oops") [] /\ line_at ls 2 (lit "oops") /\ forall s, ~ line_at ls n s.
Proof. exact line_number_refuted. Qed.
Print Assumptions C42_error_line_refuted.
(** What every error points to. *)
Theorem C42_errors_located_partial : forall lib pf evs ls e pl tl x, file evs ls e pl tl -> ends_with_error (read_catalogue lib pf evs) x -> located pf ls e pl x.
Proof. exact errors_located. Qed.
Print Assumptions C42_errors_located_partial.
Example C42_example : file (lf_stream surplus_lines) (map lit surplus_lines) None (fst (parse_lines 1 (map lit surplus_lines))) None
  /\ demo_ids (read_catalogue demo_lib demo_pf (lf_stream surplus_lines)) = [inl (lit "a"); inr (Some 3)].
Proof. exact located_example. Qed.
Example C42_blank_lines_count : (demo_ids (read_catalogue demo_lib demo_pf (lf_stream [""; "msgid ""a"""; ""; "  "; "oops"])) = [inr (Some 6%N)]
  /\ demo_ids (read_catalogue demo_lib demo_pf (lf_stream [""; "msgid ""a"""; ""; "  "; "msgid ""b"""])) = [inr (Some 5%N)])%string.
Proof. split; vm_compute; reflexivity. Qed.

(** C47 *)
Theorem C47_previous : forall lib pf evs ls e pl tl c k u, file evs ls e pl tl -> read_catalogue lib pf evs = Ok c -> nth_error (c_items c) k = Some (UOk u) ->
  exists forms cs l1 l2 own_lines, unit_at lib pf pl tl c k forms (cs ++ l1 ++ l2 ++ own_lines) u
    /\ Forall (fun l => exists n k s, l = PComment n k s) cs
    /\ opt_field (prev (u_obsolete u)) (lit "msgctxt") l1 (u_prev_context u)
    /\ previous forms (u_obsolete u) l2 (u_prev_message u)
    /\ (exists l3 l4, own_lines = l3 ++ l4 /\ opt_field (own (u_obsolete u)) (lit "msgctxt") l3 (u_context u) /\ body forms (u_obsolete u) l4 (u_message u))
    /\ translations (u_prev_message u) = [].
Proof. exact unit_previous. Qed.
Print Assumptions C47_previous.
(** Also if the stream goes on after a report of its end. *)
Theorem C47_previous_any : forall lib pf evs bs f rs c k u, pieces evs bs f -> answers 1 bs f rs -> read_catalogue lib pf evs = Ok c -> nth_error (c_items c) k = Some (UOk u) ->
  exists forms cs l1 l2 own_lines, stream_unit lib pf (kept rs) c k forms (cs ++ l1 ++ l2 ++ own_lines) u
    /\ Forall (fun l => exists n k s, l = PComment n k s) cs
    /\ opt_field (prev (u_obsolete u)) (lit "msgctxt") l1 (u_prev_context u)
    /\ previous forms (u_obsolete u) l2 (u_prev_message u)
    /\ (exists l3 l4, own_lines = l3 ++ l4 /\ opt_field (own (u_obsolete u)) (lit "msgctxt") l3 (u_context u) /\ body forms (u_obsolete u) l4 (u_message u))
    /\ translations (u_prev_message u) = [].
Proof. exact any_previous. Qed.
Print Assumptions C47_previous_any.
Example C47_example :
  match demo_read ("#| msgctxt ""x""" ++ LFs ++ "#| msgid ""p""" ++ LFs ++ "#| ""q""" ++ LFs ++ "#| msgid_plural ""r""" ++ LFs ++ "msgctxt ""y""" ++ LFs ++ "msgid ""a""" ++ LFs ++ "msgstr ""b""") with
  | Ok c => match units (c_items c) with
            | [u] => u_prev_context u = Some (lit "x") /\ u_prev_message u = MPlural (Plural None (lit "pq") (lit "r") []) /\ u_context u = Some (lit "y")
            | _ => False end
  | _ => False end.
Proof. vm_compute. auto. Qed.

(** C50: false of the code. *)
Theorem C50_missing_id_reported_refuted : exists evs ls pl n s r, file evs ls None pl None /\ pl = PMessage n [] (lit "msgid_plural") s :: r
  /\ forall lib pf, exists c, read_catalogue lib pf evs = Ok c /\ forall x, ~ In (UErr x) (c_items c).
Proof. exact headless_refuted. Qed.
Print Assumptions C50_missing_id_reported_refuted.
(** In later entries a missing keyword (the id, or what must follow it) is reported with the
    line found instead. *)
Theorem C50_later_missing_keyword_reported_partial : forall lib pf evs ls e pl tl h bls l r forms us inc w, file evs ls e pl tl -> pl = h ++ concat bls ++ inc ++ l :: r ->
  heading pf h (concat bls ++ inc ++ l :: r) tl forms us -> Forall2 (unit_entry forms) bls us ->
  awaited forms inc w -> ~ begun forms (inc ++ [l]) -> (bls <> [] -> inc = [] -> ~ viable forms (last bls [] ++ [l])) ->
  exists c, read_catalogue lib pf evs = Ok c /\ c_items c = map UOk us ++ [UErr (EParse (po_line_no l) (shown l) w)].
Proof. exact unfit_line. Qed.
Print Assumptions C50_later_missing_keyword_reported_partial.
Example C50_example :
  demo_ids (demo_read ("msgid_plural ""lost""" ++ LFs ++ "msgid ""a""" ++ LFs ++ "msgstr ""b""")) = [inl (lit "a")]
  /\ demo_ids (demo_read ("msgid ""a""" ++ LFs ++ "msgstr ""b""" ++ LFs ++ "msgctxt ""c""" ++ LFs ++ "msgstr ""d""")) = [inl (lit "a"); inr (Some 4)].
Proof. split; vm_compute; reflexivity. Qed.
Example C50_hypotheses : let inc := [PMessage 3 [] (lit "msgctxt") (lit "c")] in let l := PMessage 4 [] (lit "msgstr") (lit "d") in
  file (lf_stream context_lines) (map lit context_lines) None ([] ++ concat [ab_block] ++ inc ++ l :: []) None
  /\ heading demo_pf [] (concat [ab_block] ++ inc ++ l :: []) None None [ab_unit] /\ Forall2 (unit_entry None) [ab_block] [ab_unit]
  /\ awaited None inc (lit "msgid") /\ ~ begun None (inc ++ [l]).
Proof. exact unfit_example. Qed.
