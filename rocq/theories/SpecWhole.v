(** What a file means as a whole: everything the reader gives out for it. *)
From Coq Require Import String Arith NArith ZArith Bool List.
From Verif Require Import ModelBase ModelUtf8 ModelLine ModelFormula ModelData ModelSource ModelReader
  SpecLine SpecFormula SpecSource SpecReader SpecBlock SpecHeader SpecFile.
Import ListNotations.
Local Open Scope N_scope.

(** [whole lib pf pl tl o]: the outcome for a file with the non-blank lines [pl], which end as
    [tl] says. *)
Inductive whole (lib : lang_lib) (pf : platform) (pl : list po_line) (tl : option error) : outcome catalogue -> Prop :=
(** nothing but comments, or one entry that lacks its last keywords *)
| wh_nothing c : tl = None -> Forall comment_line pl \/ (exists w, awaited None pl w /\ w <> lit "msgid") ->
    no_header lib c -> c_items c = [] -> whole lib pf pl tl (Ok c)
(** a failure within the first entry *)
| wh_failure e : tl = Some e -> begun None pl \/ (exists u, headless None pl u) -> whole lib pf pl tl (Err e)
(** a line that does not fit into the first entry *)
| wh_line inc w l r : pl = inc ++ l :: r -> awaited None inc w -> w <> lit "msgid" -> ~ begun None (inc ++ [l]) ->
    whole lib pf pl tl (Err (EParse (po_line_no l) (shown l) w))
(** the first entry has an id: there is no header *)
| wh_units u us o c : blocks None pl tl (u :: us) o -> no_header lib c -> c_items c = map UOk (u :: us) ++ error_item o ->
    whole lib pf pl tl (Ok c)
(** the first entry has none (it is empty, or missing): it is the header, good or bad *)
| wh_header h u ps r forms us o c : pl = h ++ r -> first_entry h r tl u -> header u ps -> header_forms_of pf ps forms ->
    blocks forms r tl us o -> header_shown lib u ps c -> c_items c = map UOk us ++ error_item o -> whole lib pf pl tl (Ok c)
| wh_bad_header h u ps r x : pl = h ++ r -> first_entry h r tl u -> header u ps -> header_error pf ps x ->
    whole lib pf pl tl (Err x).

(** The same outcome, but for the order of the properties of the header (a hash map in the
    code) and the text of errors about plural forms. *)
Inductive alike : outcome catalogue -> outcome catalogue -> Prop :=
| al_ok c c' : c_notes c = c_notes c' -> c_comments c = c_comments c' -> (forall k, sm_get k (c_properties c) = sm_get k (c_properties c')) ->
    c_language c = c_language c' -> c_items c = c_items c' -> alike (Ok c) (Ok c')
| al_err e : alike (Err e) (Err e)
| al_forms m m' : alike (Err (EPluralForms m)) (Err (EPluralForms m')).
