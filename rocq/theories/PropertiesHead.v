(** Which entry is the header, compared with GNU gettext (C85). *)
From Coq Require Import String Arith NArith ZArith Bool List Lia.
From Verif Require Import ModelBase ModelUtf8 ModelLine ModelFormula ModelData ModelSource ModelReader
  SpecLine SpecFormula SpecSource SpecReader SpecBlock SpecHeader SpecFile SpecHead FileIntro BlockWitness HeadFacts.
Import ListNotations.
Local Open Scope N_scope.

(** C85: false of the code that the header is an entry without context, not obsolete, with an
    empty id.  True of the first entry: a simple one with an empty id is the header, whatever
    else it has; any other one is a unit. *)
Theorem C85_first_entry_partial : forall lib pf evs ls e pl tl b r u c, file evs ls e pl tl -> pl = b ++ r -> entry None b u -> ends_at None b r tl ->
  read_catalogue lib pf evs = Ok c ->
  ((exists t, u_message u = MSimple [] t) -> exists ps, header u ps /\ header_shown lib u ps c)
  /\ ((forall t, u_message u <> MSimple [] t) -> no_header lib c /\ exists items, c_items c = UOk u :: items).
Proof. exact first_is_header. Qed.
Print Assumptions C85_first_entry_partial.
(** A message with a context is taken for the header. *)
Theorem C85_context_refuted : exists ls pl u, file (lf_stream ls) (map lit ls) None pl None /\ entry None pl u /\ ~ gettext_header u
  /\ forall lib pf, exists c, read_catalogue lib pf (lf_stream ls) = Ok c /\ c_items c = [] /\ sm_get (lit "K") (c_properties c) = Some (lit "v").
Proof. exact context_refuted. Qed.
Print Assumptions C85_context_refuted.
(** So is an obsolete one. *)
Theorem C85_obsolete_refuted : exists ls pl u, file (lf_stream ls) (map lit ls) None pl None /\ entry None pl u /\ ~ gettext_header u /\ u_context u = None
  /\ forall lib pf, exists c, read_catalogue lib pf (lf_stream ls) = Ok c /\ c_items c = [] /\ sm_get (lit "K") (c_properties c) = Some (lit "v").
Proof. exact obsolete_refuted. Qed.
Print Assumptions C85_obsolete_refuted.
(** A header with a plural is taken for a message. *)
Theorem C85_plural_refuted : exists ls pl u, file (lf_stream ls) (map lit ls) None pl None /\ entry None pl u /\ gettext_header u
  /\ forall lib pf, exists c, read_catalogue lib pf (lf_stream ls) = Ok c /\ c_items c = [UOk u] /\ sm_get (lit "K") (c_properties c) = None.
Proof. exact plural_refuted. Qed.
Print Assumptions C85_plural_refuted.
(** A message with a context and an empty id that is not the first one is refused, and with it
    all messages that follow. *)
Theorem C85_later_refuted : exists ls a b c u v w, file (lf_stream ls) (map lit ls) None (a ++ b ++ c) None /\ entry None a u /\ entry None b v /\ entry None c w
  /\ ~ gettext_header u /\ ~ gettext_header v /\ ~ gettext_header w
  /\ forall lib pf, exists c, read_catalogue lib pf (lf_stream ls) = Ok c /\ c_items c = [UOk u; UErr (EUnexpected 3 (lit "Source should not be empty"))].
Proof. exact later_refuted. Qed.
Print Assumptions C85_later_refuted.
Example C85_example : match read_catalogue demo_lib demo_pf (lf_stream ["# n"; "msgctxt ""x"""; "msgid """""; "msgstr ""K: v\n"""]%string) with
    | Ok c => (sm_get (lit "K") (c_properties c), length (c_notes c), length (c_items c)) | _ => (None, 9%nat, 9%nat) end = (Some (lit "v"), 1%nat, 0%nat)
  /\ match read_catalogue demo_lib demo_pf (lf_stream ["# n"; "msgctxt ""x"""; "msgid ""a"""; "msgstr ""K: v\n"""]%string) with
    | Ok c => (sm_get (lit "K") (c_properties c), length (c_notes c), length (c_items c)) | _ => (None, 9%nat, 9%nat) end = (None, 0%nat, 1%nat).
Proof. split; vm_compute; reflexivity. Qed.
