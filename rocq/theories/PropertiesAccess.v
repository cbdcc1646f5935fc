(** What the accessors of a catalogue show (C63, C64). *)
From Coq Require Import String Arith NArith ZArith Bool List Lia.
From Verif Require Import ModelBase ModelUtf8 ModelLine ModelFormula ModelData ModelSource ModelReader
  SpecLine SpecFormula SpecSource SpecReader SpecBlock SpecHeader FileIntro AccessFacts.
Import ListNotations.
Local Open Scope N_scope.

(** C63 *)
(** All plural messages refer to the same plural forms: those that the property shown defines
    (its text is the definition, see [forms_of]). *)
Theorem C63_forms_of_the_header : forall lib pf evs c, read_catalogue lib pf evs = Ok c ->
  exists forms, forms_shown pf (c_properties c) forms /\ forall u p, In (UOk u) (c_items c) -> plural_in u p -> pl_forms p = forms.
Proof. exact plural_forms_shown. Qed.
Print Assumptions C63_forms_of_the_header.
Theorem C63_definition_parsed_again : forall pf def f, plural_forms_parse pf def = Ok f ->
  pf_definition f = def /\ plural_forms_parse pf (pf_definition f) = Ok f.
Proof. exact definition_reparsed. Qed.
Print Assumptions C63_definition_parsed_again.
Example C63_example :
  match read_catalogue demo_lib demo_pf
          (lf_stream ["msgid """""; "msgstr ""Plural-Forms:  nplurals=1;\n"""; """plural-forms: x\nPlural-Forms: plural = 0 ; \n""";
                      "#| msgid ""a"""; "#| msgid_plural ""b"""; "msgid ""c"""; "msgid_plural ""d"""; "msgstr[0] ""e"""]%string) with
  | Ok c => sm_get (lit "Plural-Forms") (c_properties c) = Some (lit "nplurals=1; plural = 0 ;")
      /\ match c_items c with
         | [UOk u] => exists f, u_message u = MPlural (Plural (Some f) (lit "c") (lit "d") [lit "e"])
             /\ u_prev_message u = MPlural (Plural (Some f) (lit "a") (lit "b") [])
             /\ pf_definition f = lit "nplurals=1; plural = 0 ;" /\ pf_source f = lit "0" /\ pf_count f = 1
         | _ => False
         end
  | _ => False
  end.
Proof. vm_compute. split; [reflexivity|]. eexists. repeat split. Qed.

(** C64 *)
Theorem C64_properties_shape : forall lib pf evs c, read_catalogue lib pf evs = Ok c ->
  NoDup (map fst (c_properties c)) /\ forall k v, In (k, v) (c_properties c) -> property_shape k v.
Proof. exact properties_shape. Qed.
Print Assumptions C64_properties_shape.
(** Empty keys and values occur; a repeated key can give a value that begins with a space. *)
Example C64_example :
  match read_catalogue demo_lib demo_pf (lf_stream ["msgid """""; "msgstr "" A b :\n"""; """no property\n: x\nA b: y : z \n"""]%string) with
  | Ok c => c_properties c = [(lit "A b", lit " y : z"); ([], lit "x")]
  | _ => False
  end.
Proof. vm_compute. reflexivity. Qed.
