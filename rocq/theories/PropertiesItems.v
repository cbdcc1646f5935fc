(** The number of items of any stream (C12); truncated files without an error (C17); the places of plural forms (C39). *)
From Coq Require Import String Arith NArith Bool List.
From Verif Require Import ModelBase ModelUtf8 ModelLine ModelFormula ModelData ModelSource ModelReader
  SpecLine SpecSource SpecReader SpecBlock SpecHeader SpecFile SpecAny FileIntro AnyItems CutUnits ValuesExact.
Import ListNotations.
Local Open Scope N_scope.

(** C12, also if the stream goes on after a report of its end: there are no more items than
    non-blank lines. *)
Theorem C12_any : forall lib pf evs bs f rs c, pieces evs bs f -> answers 1 bs f rs -> read_catalogue lib pf evs = Ok c ->
  (length (c_items c) <= length (kept rs))%nat.
Proof. exact any_items_bounded. Qed.
Print Assumptions C12_any.
(** A header, a report of the end, a failure; and the same without the header. *)
Example C12_any_example :
  let items evs := match read_catalogue demo_lib demo_pf evs with Ok c => c_items c | _ => [] end in
  items [RdData (utf8 (lit "msgid """"") ++ [10] ++ utf8 (lit "msgstr """"") ++ [10]); RdData []; RdError 5] = [UErr (EIo 3 (IoRead 5))]
  /\ items [RdData []; RdError 5] = [].
Proof. vm_compute. split; reflexivity. Qed.

(** C17: false of the code (C17_cut_anywhere_refuted); wherever a file is cut, it is true if the last item of what is left is a unit. *)
Theorem C17_cut_unit_partial : forall lib pf evs evs' bs1 bs2 f f' l0 u, delivers evs bs1 f -> delivers evs' (bs1 ++ bs2) f' ->
  delivered (read_catalogue lib pf evs) = l0 ++ [UOk u] -> exists rest, delivered (read_catalogue lib pf evs') = l0 ++ rest.
Proof. exact stream_cut_unit. Qed.
Print Assumptions C17_cut_unit_partial.
(** Cut inside the last line, which is not acceptable. *)
Example C17_cut_unit_example :
  let ids x := map (fun i => match i with UOk u => msg_get_id (u_message u) | _ => lit "error" end) (delivered (read_catalogue demo_lib demo_pf [RdData (utf8 x)])) in
  let cut := flat_map (fun s => lit s ++ [10]) ["msgid ""a"""; "msgstr ""b"""; "msgid ""c"""]%string ++ lit "msgstr ""d""" in
  ids cut = [lit "a"; lit "c"] /\ ids (cut ++ lit " junk") = [lit "a"; lit "error"].
Proof. vm_compute. split; reflexivity. Qed.

(** C39: false of the code (C39_value_is_form_refuted); of a unit it is true exactly if no index is missing. *)
Theorem C39_exact_partial : forall lib pf evs ls e pl tl c k u p, file evs ls e pl tl -> read_catalogue lib pf evs = Ok c -> nth_error (c_items c) k = Some (UOk u) ->
  u_message u = MPlural p -> exists b, unit_at lib pf pl tl c k (pl_forms p) b u
    /\ ((forall i s, nth_error (pl_values p) i = Some s -> form_at b (N.of_nat i) s) <-> (forall i j s, form_at b i s -> j < i -> exists t, form_at b j t)).
Proof. exact unit_values_exact. Qed.
Print Assumptions C39_exact_partial.
Theorem C39_exact_any_partial : forall lib pf evs bs f rs c k u p, pieces evs bs f -> answers 1 bs f rs -> read_catalogue lib pf evs = Ok c -> nth_error (c_items c) k = Some (UOk u) ->
  u_message u = MPlural p -> exists b, stream_unit lib pf (kept rs) c k (pl_forms p) b u
    /\ ((forall i s, nth_error (pl_values p) i = Some s -> form_at b (N.of_nat i) s) <-> (forall i j s, form_at b i s -> j < i -> exists t, form_at b j t)).
Proof. exact any_values_exact. Qed.
Print Assumptions C39_exact_any_partial.
(** The indices 0 and 2: the second value is the text of msgstr[2]. *)
Example C39_exact_example :
  match read_catalogue demo_lib demo_pf (lf_stream ["msgid """""; "msgstr ""Plural-Forms: nplurals=3; plural=n;\n"""; "msgid ""a"""; "msgid_plural ""b"""; "msgstr[0] ""c"""; "msgstr[2] ""d"""]%string) with
  | Ok c => map (fun i => match i with UOk u => translations (u_message u) | _ => [] end) (c_items c)
  | _ => []
  end = [[lit "c"; lit "d"]].
Proof. vm_compute. reflexivity. Qed.
