(** C100: the error for every definition of plural forms that cannot be used. *)
From Coq Require Import String Arith NArith ZArith Bool List.
From Verif Require Import ModelBase ModelFormula ModelData ModelSource ModelReader SpecLine SpecFormula SpecSource SpecReader SpecBlock SpecHeader SpecFile SpecFault
  FileIntro FormulaWitness PlatformFacts FaultFacts.
Import ListNotations.
Local Open Scope N_scope.

(** The error of a definition, *)
Theorem C100_error : forall pf def x, one_line def -> (plural_forms_parse pf def = Err x <-> forms_fault pf def x).
Proof. exact forms_fault_iff. Qed.
Print Assumptions C100_error.
(** one at most, *)
Theorem C100_unique : forall pf def x y, one_line def -> forms_fault pf def x -> forms_fault pf def y -> x = y.
Proof. exact forms_fault_unique. Qed.
Print Assumptions C100_unique.
(** and one exactly if the definition gives no plural forms. *)
Theorem C100_or_forms : forall pf def, one_line def -> (exists f, forms_of pf def f) \/ (exists x, forms_fault pf def x).
Proof. exact forms_or_fault. Qed.
Print Assumptions C100_or_forms.
Theorem C100_not_both : forall pf def f x, one_line def -> forms_of pf def f -> ~ forms_fault pf def x.
Proof. exact forms_not_both. Qed.
Print Assumptions C100_not_both.
(** It is the error for the file, if its first entry is a header with that definition; and a
    file with a header has no other. *)
Theorem C100_file : forall lib pf evs ls e pl tl h u ps r x, file evs ls e pl tl -> pl = h ++ r -> first_entry h r tl u -> header u ps ->
  (read_catalogue lib pf evs = Err x <->
   exists def, property ps (lit "Plural-Forms") = Some def /\ def <> [] /\ forms_fault pf def x).
Proof. exact header_fault. Qed.
Print Assumptions C100_file.
Example C100_example :
  let r pf l := match read_catalogue demo_lib pf (lf_stream ["msgid """""; l; "msgid ""a"""; "msgstr ""b"""]%string) with Err x => Some x | _ => None end in
  (r demo_pf "msgstr ""Plural-Forms: nplurals=2; plural=n""" = Some (EUnexpected 0 (lit "Bad value list definition: `nplurals=2; plural=n`"))
   /\ r demo_pf "msgstr ""Plural-Forms: nplurals=x; plural=n+;""" = Some (EPluralForms formula_error_text)
   /\ r demo_pf "msgstr ""Plural-Forms: nplurals=; plural=n;""" = Some (EPluralForms (lit "cannot parse integer from empty string"))
   /\ r demo_pf "msgstr ""Plural-Forms: nplurals=+; plural=n;""" = Some (EPluralForms (lit "invalid digit found in string"))
   /\ r demo_pf "msgstr ""Plural-Forms: nplurals=-2; plural=n;""" = Some (EPluralForms (lit "invalid digit found in string"))
   /\ r demo_pf "msgstr ""Plural-Forms: nplurals=2x; plural=n;""" = Some (EPluralForms (lit "invalid digit found in string"))
   /\ r release32 "msgstr ""Plural-Forms: nplurals=4294967296x; plural=n;""" = Some (EPluralForms (lit "number too large to fit in target type"))
   /\ r release32 "msgstr ""Plural-Forms: nplurals=4294967295x; plural=n;""" = Some (EPluralForms (lit "invalid digit found in string"))
   /\ r release32 "msgstr ""Plural-Forms: nplurals=+4294967295; plural=n;""" = None)%string.
Proof. vm_compute. repeat split. Qed.
