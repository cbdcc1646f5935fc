(** Property C77: the plural forms of the gettext manual. *)
From Coq Require Import String Arith NArith ZArith Bool List.
From Verif Require Import ModelBase ModelUtf8 ModelLine ModelFormula ModelData ModelSource ModelReader
  SpecLine SpecFormula SpecSource SpecReader SpecBlock SpecHeader SpecFile SpecManual FileIntro ManualFacts ManualHuge.
Import ListNotations.
Local Open Scope N_scope.

(** C77 *)
(** With one of these definitions in the header, a file is accepted, and the text for a count below 2^63 of a plural
    entry with all its forms is the form that the rule of the language names, on every platform. *)
Theorem C77_manual_rules_partial : forall lib pf evs ls er pl tl h u ps r rule,
  In rule rules -> file evs ls er pl tl -> pl = h ++ r -> first_entry h r tl u -> header u ps ->
  property ps (lit "Plural-Forms") = Some (rule_definition rule) -> 8 <= usize_bits pf ->
  exists c, read_catalogue lib pf evs = Ok c /\
    forall k v p n, nth_error (c_items c) k = Some (UOk v) -> u_message v = MPlural p -> N.of_nat (length (pl_values p)) = lr_count rule -> n < 2 ^ 63 ->
      exists b s, unit_at lib pf pl tl c k (pl_forms p) b v /\ form_at b (lr_form rule n) s /\ msg_get_plural_text pf (u_message v) n = Some (Some s).
Proof. exact manual_rules. Qed.
Print Assumptions C77_manual_rules_partial.
(** From 2^63 on it is always the same form, whatever the count. *)
Theorem C77_huge_counts_partial : forall lib pf evs ls er pl tl h u ps r rule i,
  In (rule, i) (combine rules huge_forms) -> file evs ls er pl tl -> pl = h ++ r -> first_entry h r tl u -> header u ps ->
  property ps (lit "Plural-Forms") = Some (rule_definition rule) -> usize_bits pf = 64 ->
  exists c, read_catalogue lib pf evs = Ok c /\
    forall k v p n, nth_error (c_items c) k = Some (UOk v) -> u_message v = MPlural p -> N.of_nat (length (pl_values p)) = lr_count rule -> 2 ^ 63 <= n < 2 ^ 64 ->
      exists b s, unit_at lib pf pl tl c k (pl_forms p) b v /\ form_at b i s /\ msg_get_plural_text pf (u_message v) n = Some (Some s).
Proof. exact huge_counts. Qed.
Print Assumptions C77_huge_counts_partial.
(** Which may be the wrong one for all of them. *)
Theorem C77_huge_counts_refuted : exists rule ls, In rule rules /\ forall lib pf, usize_bits pf = 64 -> exists c v p, read_catalogue lib pf (lf_stream ls) = Ok c
  /\ sm_get (lit "Plural-Forms") (c_properties c) = Some (rule_definition rule) /\ c_items c = [UOk v] /\ u_message v = MPlural p /\ N.of_nat (length (pl_values p)) = lr_count rule
  /\ forall n, 2 ^ 63 <= n < 2 ^ 64 -> msg_get_plural_text pf (u_message v) n = Some (Some (lit "x")) /\ nth_error (pl_values p) (N.to_nat (lr_form rule n)) = Some (lit "y").
Proof. exact french_refuted. Qed.
Print Assumptions C77_huge_counts_refuted.
Example C77_huge_example : length huge_forms = length rules /\ length (combine rules huge_forms) = 18%nat.
Proof. split; reflexivity. Qed.
Example C77_example :
  let text n := match read_catalogue demo_lib demo_pf (lf_stream ["msgid """"";
      "msgstr ""Plural-Forms: nplurals=3; plural=n==1 ? 0 : n%10>=2 && n%10<=4 && (n%100<10 || n%100>=20) ? 1 : 2;""";
      "msgid ""file"""; "msgid_plural ""files"""; "msgstr[0] ""plik"""; "msgstr[1] ""pliki"""; "msgstr[2] ""plikow"""]%string) with
    | Ok c => map (fun u => msg_get_plural_text demo_pf (u_message u) n) (units (c_items c)) | _ => [] end in
  let polish := nth 11 rules (Rule "" 0 [] (fun _ => 0)) in
  rule_definition polish = lit "nplurals=3; plural=n==1 ? 0 : n%10>=2 && n%10<=4 && (n%100<10 || n%100>=20) ? 1 : 2;"
  /\ map (lr_form polish) [0; 1; 2; 5; 11; 12; 22; 25; 101; 104; 112] = [2; 0; 1; 2; 2; 2; 1; 2; 2; 1; 2]
  /\ text 1 = [Some (Some (lit "plik"))] /\ text 22 = [Some (Some (lit "pliki"))] /\ text 112 = [Some (Some (lit "plikow"))].
Proof. vm_compute. repeat split. Qed.
