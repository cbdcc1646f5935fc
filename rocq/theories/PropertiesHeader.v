(** Properties of the header (C23, C25-C29). *)
From Coq Require Import String Arith NArith ZArith Bool List Lia.
From Verif Require Import ModelBase ModelUtf8 ModelLine ModelFormula ModelData ModelSource ModelReader
  SpecLine SpecFormula SpecSource SpecReader SpecBlock SpecHeader SpecFile HeaderFacts BlockThms EntryThms HeaderThms FileIntro HeaderWitness.
Import ListNotations.
Local Open Scope N_scope.

(** A file with a header, used in the examples: its hypotheses hold. *)
Example header_example : exists h u ps r, file (lf_stream head_lines) (map lit head_lines) None (h ++ r) None
  /\ entry None h u /\ ends_at None h r None /\ header u ps
  /\ property ps (lit "Plural-Forms") = Some (lit "nplurals=1; plural=0;") /\ property ps (lit "X") = Some (lit "a:b c") /\ r <> [].
Proof. exact head_example. Qed.

(** C23 *)
Theorem C23_properties : forall lib pf evs ls e pl tl h u ps r c, file evs ls e pl tl -> pl = h ++ r ->
  first_entry h r tl u -> header u ps -> read_catalogue lib pf evs = Ok c ->
  (forall k, sm_get k (c_properties c) = property ps k) /\ c_notes c = u_notes u /\ c_comments c = u_comments u.
Proof. exact header_properties_read. Qed.
Print Assumptions C23_properties.
Theorem C23_absent : forall ps k, property ps k = None <-> forall v, ~ In (k, v) ps.
Proof. exact property_absent. Qed.
Print Assumptions C23_absent.
(** The lines of a text and their pairs are unique. *)
Theorem C23_pairs_unique : forall t ps ps', header_pairs t ps -> header_pairs t ps' -> ps = ps'.
Proof. exact header_pairs_det. Qed.
Print Assumptions C23_pairs_unique.
Example C23_example :
  match read_catalogue demo_lib demo_pf (lf_stream head_lines) with
  | Ok c => sm_get (lit "X") (c_properties c) = Some (lit "a:b c") /\ sm_get (lit "Y") (c_properties c) = None
  | _ => False end.
Proof. vm_compute. auto. Qed.

(** C25 *)
Theorem C25_language : forall lib pf evs ls e pl tl h u ps r c, file evs ls e pl tl -> pl = h ++ r ->
  first_entry h r tl u -> header u ps -> read_catalogue lib pf evs = Ok c -> language_of lib ps (c_language c).
Proof. exact header_language_read. Qed.
Print Assumptions C25_language.
(** Nothing but the language shown depends on how languages are recognised. *)
Theorem C25_language_never_fails : forall lib lib' pf evs, same_but_language (read_catalogue lib pf evs) (read_catalogue lib' pf evs).
Proof. exact language_library. Qed.
Print Assumptions C25_language_never_fails.
Example C25_example :
  let lang l := match read_catalogue (LangLib (lit "none") (fun t => if str_eqb t (lit "fr-FR") then Some (lit "tag") else None)
                                              (fun t => if str_eqb t (lit "fr_FR") then Some (lit "unix") else None)) demo_pf
                        (lf_stream ["msgid """""; l]%string) with Ok c => c_language c | _ => [] end in
  (lang "msgstr ""Language: fr-FR\n""" = lit "tag" /\ lang "msgstr ""Language: fr_FR\n""" = lit "unix"
   /\ lang "msgstr ""Language: ?\n""" = lit "none" /\ lang "msgstr ""X: y\n""" = lit "none")%string.
Proof. vm_compute. auto. Qed.

(** C26 *)
Theorem C26_bad_plural_forms : forall lib pf evs ls e pl tl h u ps r, file evs ls e pl tl -> pl = h ++ r ->
  first_entry h r tl u -> header u ps ->
  ((exists x, read_catalogue lib pf evs = Err x) <->
   exists def, property ps (lit "Plural-Forms") = Some def /\ def <> [] /\ forall f, ~ forms_of pf def f).
Proof. exact bad_plural_forms. Qed.
Print Assumptions C26_bad_plural_forms.
Theorem C26_no_plural_forms : forall lib pf evs ls e pl tl h u ps r c, file evs ls e pl tl -> pl = h ++ r ->
  first_entry h r tl u -> header u ps -> property ps (lit "Plural-Forms") = None \/ property ps (lit "Plural-Forms") = Some [] ->
  read_catalogue lib pf evs = Ok c ->
  forall v m, In (UOk v) (c_items c) -> u_message v = MPlural m -> pl_forms m = None /\ (length (pl_values m) <= 2)%nat.
Proof. exact no_plural_forms. Qed.
Print Assumptions C26_no_plural_forms.
Example C26_example :
  let r l := match read_catalogue demo_lib demo_pf (lf_stream ["msgid """""; l; "msgid ""a"""; "msgid_plural ""b"""; "msgstr[0] ""c"""; "msgstr[1] ""d"""]%string) with
             | Ok c => Some (map (fun u => match u_message u with MPlural p => option_map pf_count (pl_forms p) | _ => Some 0 end) (units (c_items c)))
             | _ => None end in
  (r "msgstr ""Plural-Forms: nplurals=2; plural=n""" = None /\ r "msgstr ""Plural-Forms: nplurals=2; plural=n+;""" = None
   /\ r "msgstr ""Plural-Forms:""" = Some [None] /\ r "msgstr ""X:""" = Some [None] /\ r "msgstr ""Plural-Forms: nplurals=2; plural=n;""" = Some [Some 2])%string.
Proof. vm_compute. repeat split. Qed.
Example C26_lookups :
  let r l n := match read_catalogue demo_lib demo_pf (lf_stream ["msgid """""; l; "msgid ""a"""; "msgid_plural ""b"""; "msgstr[0] ""c"""; "msgstr[1] ""d"""]%string) with
             | Ok c => map (fun u => msg_get_plural_text demo_pf (u_message u) n) (units (c_items c))
             | _ => [] end in
  (r "msgstr ""Plural-Forms: nplurals=2; plural=;""" 1%N = [Some (Some (lit "d"))] /\ r "msgstr ""Plural-Forms: nplurals=2; plural=;""" 2%N = [Some None]
   /\ r "msgstr ""Plural-Forms: nplurals=2; plural=n!=1;""" 1%N = [Some (Some (lit "c"))] /\ r "msgstr ""Plural-Forms:""" 0%N = [Some None])%string.
Proof. vm_compute. repeat split. Qed.

(** C27 *)
Theorem C27_definitions_read : forall s ds, one_line s -> definitions s ds -> exists m, parse_map s = Some m /\ forall k, sm_get k m = last_value k ds.
Proof. exact definitions_read. Qed.
Print Assumptions C27_definitions_read.
Example C27_example : definitions (lit " a = b c ;a=d; ") [(lit "a", lit "b c"); (lit "a", lit "d")]
  /\ match parse_map (lit " a = b c ;a=d; ") with Some m => sm_get (lit "a") m = Some (lit "d") | None => False end.
Proof. exact definitions_example. Qed.
Example C27_values : let g k s := match parse_map (lit s) with Some m => sm_get (lit k) m | None => None end in
  (g "a" "a = b  ;c=d=;" = Some (lit "b") /\ g "c" "a = b  ;c=d=;" = Some (lit "d=") /\ g "a" "a=1;a=2;b=;" = Some (lit "2")
   /\ g "b" "a=1;a=2;b=;" = Some [] /\ g "c" "a=1;" = None)%string.
Proof. vm_compute. repeat split. Qed.

(** C28 *)
Theorem C28_accepted : forall s, one_line s -> ((exists m, parse_map s = Some m) <-> definition_list s).
Proof. exact definition_list_accepted. Qed.
Print Assumptions C28_accepted.
Theorem C28_final_semicolon : forall s, one_line s -> (exists m, parse_map s = Some m) -> blanks s \/ exists p w, s = p ++ 59 :: w /\ blanks w.
Proof. exact final_semicolon. Qed.
Print Assumptions C28_final_semicolon.
Example C28_example : parse_map (lit "a=b") = None /\ parse_map (lit "a b;") = None /\ parse_map (lit "a=b; junk;") <> None.
Proof. repeat split; vm_compute; discriminate || reflexivity. Qed.

(** C29 *)
Theorem C29_count : forall pf def f bs, one_line def -> bindings def bs -> plural_forms_parse pf def = Ok f ->
  count_of pf (last_value (lit "nplurals") bs) (pf_count f).
Proof. exact count_read. Qed.
Print Assumptions C29_count.
Theorem C29_bad_count : forall pf def bs s, one_line def -> bindings def bs -> last_value (lit "nplurals") bs = Some s -> (forall v, ~ unsigned pf s v) ->
  exists x, plural_forms_parse pf def = Err x.
Proof. exact count_rejected. Qed.
Print Assumptions C29_bad_count.
Theorem C29_count_unique : forall pf s v v', unsigned pf s v -> unsigned pf s v' -> v = v'.
Proof. exact unsigned_det. Qed.
Print Assumptions C29_count_unique.
Example C29_example :
  let n s := match plural_forms_parse demo_pf (lit s) with Ok f => Some (pf_count f) | _ => None end in
  (n "plural=n;" = Some 2 /\ n "nplurals=+03;" = Some 3 /\ n "nplurals=-1;" = None /\ n "nplurals=;" = None
   /\ n "nplurals=18446744073709551615;" = Some 18446744073709551615 /\ n "nplurals=18446744073709551616;" = None)%string.
Proof. vm_compute. repeat split. Qed.
