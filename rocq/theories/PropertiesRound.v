(** Writing and reading, strings cut into pieces, selection of forms (C14, C15, C51, C52). *)
From Coq Require Import String Arith NArith ZArith Bool List Lia.
From Verif Require Import ModelBase ModelUtf8 ModelLine ModelFormula ModelData ModelSource ModelReader
  SpecLine SpecFormula SpecSource SpecReader SpecBlock SpecHeader SpecFile SpecWriter FileIntro ReaderFacts EvalFacts FormulaThms
  SplitFacts WriterFacts WritableFacts SelectFacts FormulaWitness RoundWitness BlockFacts AnyFacts.
Import ListNotations.
Local Open Scope N_scope.

(** C14 *)
(** A catalogue written with a header: its units are read back, in order, without error, and
    so are the header's comments and properties. *)
Theorem C14_catalogue_read_back : forall lib pf N C props forms us hls uls bs evs,
  writes_header N C props hls -> NoDup (map fst props) -> header_forms_of pf props forms -> writes_units forms us uls ->
  contents bs None (hls ++ uls) None -> delivers evs bs None ->
  exists c, read_catalogue lib pf evs = Ok c /\ c_items c = map UOk us /\ c_notes c = N /\ c_comments c = C
    /\ (forall k, sm_get k (c_properties c) = lookup k props) /\ language_of lib props (c_language c).
Proof. exact written_catalogue_read. Qed.
Print Assumptions C14_catalogue_read_back.
Theorem C14_units_read_back : forall lib pf u us uls bs evs, writes_units None (u :: us) uls -> contents bs None uls None -> delivers evs bs None ->
  read_catalogue lib pf evs = Ok (Catalogue [] [] [] (lang_invariant lib) (map UOk (u :: us))).
Proof. exact written_units_read. Qed.
Print Assumptions C14_units_read_back.
(** Every well-formed catalogue can be written. *)
Theorem C14_catalogues_can_be_written : forall N C ps forms us,
  (forall n, In n N -> comment_text (note_kind (note_origin n)) (note_value n)) ->
  (forall c, In c C -> ~ In (com_kind c) [44; 58; 46; 32] /\ comment_text (com_kind c) (com_content c)) ->
  Forall property_text ps -> (forall k v, In (k, v) ps -> scalars k /\ scalars v) -> Forall (well_formed forms) us ->
  exists hls uls bs, writes_header N C ps hls /\ writes_units forms us uls /\ contents bs None (hls ++ uls) None.
Proof. exact catalogue_has_file. Qed.
Print Assumptions C14_catalogues_can_be_written.
Example C14_example : writes_units None [round_unit1; round_unit2] (map lit round_lines)
  /\ read_catalogue demo_lib demo_pf (lf_stream round_lines) = Ok (Catalogue [] [] [] [] [UOk round_unit1; UOk round_unit2]).
Proof. split; [exact round_written|vm_compute; reflexivity]. Qed.

(** C15 *)
Theorem C15_field_is_its_pieces : forall n p t s cs x rest tl, strings p cs x -> not_continued p rest -> (rest = [] -> tl = None) ->
  parse_msg (starts_with 126 p) t (listing (PMessage n p t s :: cs ++ rest) tl) = (Ok (Some (s ++ x)), listing rest tl).
Proof. exact field_pieces. Qed.
Print Assumptions C15_field_is_its_pieces.
(** Everything shown is the same; line numbers of errors correspond. *)
Theorem C15_cuts_irrelevant : forall lib pf Rn evs evs' ls ls' e e' pl pl' tl tl', file evs ls e pl tl -> file evs' ls' e' pl' tl' ->
  resplit Rn pl pl' -> same_end Rn tl tl' -> catalogue_sim Rn eq (read_catalogue lib pf evs) (read_catalogue lib pf evs').
Proof. exact split_irrelevant. Qed.
Print Assumptions C15_cuts_irrelevant.
Theorem C15_same_units : forall lib pf evs evs' ls ls' e e' pl pl', file evs ls e pl None -> file evs' ls' e' pl' None ->
  resplit (fun _ _ => True) pl pl' -> forall c, read_catalogue lib pf evs = Ok c ->
  exists c', read_catalogue lib pf evs' = Ok c' /\ same_header c c' /\ units (c_items c') = units (c_items c).
Proof. exact split_units. Qed.
Print Assumptions C15_same_units.
Example C15_example : exists pl pl', file (lf_stream whole_lines) (map lit whole_lines) None pl None
  /\ file (lf_stream pieces_lines) (map lit pieces_lines) None pl' None /\ resplit (fun _ _ => True) pl pl'
  /\ demo_ids (read_catalogue demo_lib demo_pf (lf_stream pieces_lines)) = [inl (lit "ab")].
Proof. exact split_example. Qed.

(** C51: on 64 bits, for counts below 2^63 where the value is defined. *)
Theorem C51_plural_selection_partial : forall lib pf evs ls er pl tl h u ps r c count kd src ts e k v p n x,
  file evs ls er pl tl -> pl = h ++ r -> first_entry h r tl u -> header u ps ->
  property ps (lit "Plural-Forms") = Some (forms_definition kd src) ->
  decimal count kd -> count < 2 ^ usize_bits pf -> one_line src -> ~ In 59 src -> not_white_first src -> not_white_last src -> ~ blanks src ->
  tokens_of src ts -> derives GExpr ts e ->
  read_catalogue lib pf evs = Ok c -> nth_error (c_items c) k = Some (UOk v) -> u_message v = MPlural p -> N.of_nat (length (pl_values p)) = count ->
  word64 pf -> n < 2 ^ 63 -> value e (Z.of_N n) = Some x ->
  exists b, unit_at lib pf pl tl c k (pl_forms p) b v /\
    ((0 <= x < Z.of_N count)%Z -> exists s, form_at b (Z.to_N x) s /\ msg_get_plural_text pf (u_message v) n = Some (Some s))
    /\ ((x < 0 \/ Z.of_N count <= x)%Z -> msg_get_plural_text pf (u_message v) n = Some None).
Proof. exact plural_selection. Qed.
Print Assumptions C51_plural_selection_partial.
(** For every count and every formula, in the machine arithmetic of C35. *)
Theorem C51_plural_selection_any_count_partial : forall lib pf evs ls er pl tl h u ps r c count kd src ts e k v p n w x,
  file evs ls er pl tl -> pl = h ++ r -> first_entry h r tl u -> header u ps ->
  property ps (lit "Plural-Forms") = Some (forms_definition kd src) ->
  decimal count kd -> count < 2 ^ usize_bits pf -> one_line src -> ~ In 59 src -> not_white_first src -> not_white_last src -> ~ blanks src ->
  tokens_of src ts -> derives GExpr ts e ->
  read_catalogue lib pf evs = Ok c -> nth_error (c_items c) k = Some (UOk v) -> u_message v = MPlural p -> N.of_nat (length (pl_values p)) = count ->
  word64 pf -> overflow_checks pf = false \/ no_neg e -> congruent w (Z.of_N n) -> runs w e x ->
  exists b, unit_at lib pf pl tl c k (pl_forms p) b v /\
    ((0 <= x < Z.of_N count)%Z -> exists s, form_at b (Z.to_N x) s /\ msg_get_plural_text pf (u_message v) n = Some (Some s))
    /\ ((x < 0 \/ Z.of_N count <= x)%Z -> msg_get_plural_text pf (u_message v) n = Some None).
Proof. exact plural_selection_machine. Qed.
Print Assumptions C51_plural_selection_any_count_partial.
(** With 32-bit words a form is selected although the value is not an index. *)
Theorem C51_on_32_bits_refuted : exists evs c v p f, read_catalogue demo_lib release32 evs = Ok c /\ c_items c = [UOk v] /\ u_message v = MPlural p
  /\ pl_forms p = Some f /\ pf_count f = 2 /\ length (pl_values p) = 2%nat /\ value (pf_formula f) 5 = Some 4294967297%Z
  /\ exists s, msg_get_plural_text release32 (u_message v) 5 = Some (Some s).
Proof. exact selection_truncated. Qed.
Print Assumptions C51_on_32_bits_refuted.
Example C51_example :
  let f n := selected demo_pf "nplurals=2; plural=n != 1;" n in let g n := selected demo_pf "nplurals=2; plural=n;" n in
  lit "nplurals=2; plural=n != 1;" = forms_definition (lit "2") (lit "n != 1")
  /\ f 1 = Some (Some (lit "x")) /\ f 0 = Some (Some (lit "y")) /\ f 7 = Some (Some (lit "y"))
  /\ g 0 = Some (Some (lit "x")) /\ g 1 = Some (Some (lit "y")) /\ g 2 = Some None.
Proof. vm_compute. repeat split. Qed.

(** C52 *)
(** Every unit delivered, of any stream, is well-formed ... *)
Theorem C52_units_well_formed : forall lib pf evs c, read_catalogue lib pf evs = Ok c ->
  exists ps forms, header_forms_of pf ps forms /\ (forall k, property ps k = sm_get k (c_properties c)) /\ Forall (well_formed forms) (units (c_items c)).
Proof. exact any_well_formed. Qed.
Print Assumptions C52_units_well_formed.
(** ... and can be written and read back, together with all the rest of the catalogue. *)
Theorem C52_read_write_read : forall lib pf evs c, read_catalogue lib pf evs = Ok c ->
  exists evs' bs' c', delivers evs' bs' None /\ read_catalogue lib pf evs' = Ok c' /\ same_catalogue c c' /\ c_items c' = map UOk (units (c_items c)).
Proof. exact any_read_write_read. Qed.
Print Assumptions C52_read_write_read.
Example C52_example : delivers (lf_stream round_lines) (utf8 (flat_map (fun l => lit l ++ [10]) round_lines)) None
  /\ exists c, read_catalogue demo_lib demo_pf (lf_stream round_lines) = Ok c /\ length (units (c_items c)) = 2%nat.
Proof. split; [unfold lf_stream; rewrite <- (app_nil_r (utf8 _)) at 2; apply (dl_data _ [] [] None); [discriminate|constructor]|eexists; split; vm_compute; reflexivity]. Qed.
