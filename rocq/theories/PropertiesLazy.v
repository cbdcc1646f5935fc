(** Reading on demand (C66). *)
From Coq Require Import String Arith NArith ZArith Bool List Lia.
From Verif Require Import ModelBase ModelUtf8 ModelLine ModelFormula ModelData ModelSource ModelReader ModelLazy
  SpecLine SpecSource SpecReader SpecBlock SpecHeader SpecFile SpecLazy FileIntro FutureFacts LazyThms PlaceThms.
Import ListNotations.
Local Open Scope nat_scope.

(** C66: false of the code that a unit is delivered as soon as the line after it is known. *)
(** The reader that is advanced on demand gives the results of the reader of ModelReader.v. *)
Theorem C66_same_results : forall lib pf evs,
  match lz_parse lib pf evs, po_parse lib pf evs with
  | Ok l, Ok r => lr_header_notes l = rd_header_notes r /\ lr_header_comments l = rd_header_comments r
      /\ lr_header_properties l = rd_header_properties r /\ lr_target_language l = rd_target_language r
      /\ forall k, fst (lz_calls k l) = fst (calls k r)
  | Err e, Err e' => e = e'
  | _, _ => False
  end.
Proof. exact lazy_results. Qed.
Print Assumptions C66_same_results.
(** The unit [k - 1] (the catalogue itself for [k = 0]) is delivered when the text has been read up to the line [l] that
    follows the unit [k], and no further: one entry too late. *)
Theorem C66_read_ahead_partial : forall lib pf evs ls e pl tl c k l r, file evs ls e pl tl -> read_catalogue lib pf evs = Ok c -> unit_ends lib pf pl tl c k (l :: r) ->
  exists rd, lz_parse lib pf evs = Ok rd /\ fst (lz_calls k rd) = map (fun x => Val (Some x)) (firstn k (c_items c))
    /\ lines_read (snd (lz_calls k rd)) = po_line_no l
    /\ pk_iter (lr_lines (snd (lz_calls k rd))) = after (length pl - length r) (li_new evs).
Proof. exact read_ahead. Qed.
Print Assumptions C66_read_ahead_partial.
(** Before the last unit but one is delivered everything has been read. *)
Theorem C66_read_to_end : forall lib pf evs ls e pl tl c k, file evs ls e pl tl -> read_catalogue lib pf evs = Ok c -> unit_ends lib pf pl tl c k [] ->
  exists rd, lz_parse lib pf evs = Ok rd /\ fst (lz_calls k rd) = map (fun x => Val (Some x)) (firstn k (c_items c))
    /\ lines_read (snd (lz_calls k rd)) = N.of_nat (length ls).
Proof. exact read_to_end. Qed.
Print Assumptions C66_read_to_end.
(** These are all units. *)
Theorem C66_units_end : forall lib pf evs ls e pl tl c k u, file evs ls e pl tl -> read_catalogue lib pf evs = Ok c -> nth_error (c_items c) k = Some (UOk u) ->
  exists r, unit_ends lib pf pl tl c k r.
Proof. exact unit_has_end. Qed.
Print Assumptions C66_units_end.
(** How far the reader is when an error is delivered, for any stream; nothing more has been read than before the call. *)
Theorem C66_error_place : forall lib pf evs rd k xs e, lz_parse lib pf evs = Ok rd -> fst (lz_calls (S k) rd) = xs ++ [Val (Some (UErr e))] ->
  error_read e (lines_read (snd (lz_calls k rd))) /\ lines_read (snd (lz_calls (S k) rd)) = lines_read (snd (lz_calls k rd)).
Proof. exact error_place. Qed.
Print Assumptions C66_error_place.
(** After an entry without source: up to the line after it, or to the end. *)
Theorem C66_sourceless_place : forall lib pf evs ls e pl tl rd k xs n s, file evs ls e pl tl -> lz_parse lib pf evs = Ok rd ->
  fst (lz_calls (S k) rd) = xs ++ [Val (Some (UErr (EUnexpected n s)))] ->
  exists r, sourceless_at pl tl n r /\ lines_read (snd (lz_calls k rd)) = match r with l :: _ => po_line_no l | [] => N.of_nat (length ls) end.
Proof. exact sourceless_place. Qed.
Print Assumptions C66_sourceless_place.
Theorem C66_prompt_refuted : exists evs ls pl k l r, file evs ls None pl None /\ forall lib pf, exists c rd, read_catalogue lib pf evs = Ok c /\ unit_ends lib pf pl None c k (l :: r)
  /\ lz_parse lib pf evs = Ok rd /\ (po_line_no l < lines_read (snd (lz_calls (S k) rd)))%N.
Proof. exact prompt_refuted. Qed.
Print Assumptions C66_prompt_refuted.
(** What has been delivered does not depend on what has not been read: any other continuation
    of the stream, of any length, gives the same results so far. *)
Theorem C66_future : forall lib pf evs l k rest, lz_parse lib pf evs = Ok l -> unread (snd (lz_calls k l)) = Some rest -> rest <> [] ->
  exists used, evs = used ++ rest /\ forall rest', exists m, lz_parse lib pf (used ++ rest') = Ok m
    /\ fst (lz_calls k m) = fst (lz_calls k l) /\ unread (snd (lz_calls k m)) = Some rest'.
Proof. exact future. Qed.
Print Assumptions C66_future.
(** Three entries in the lines 1-2, 4-5, 7-8, one read per line. *)
Example C66_example : file (by_lines three_lines) (map lit three_lines) None three_parsed None
  /\ read_catalogue demo_lib demo_pf (by_lines three_lines) = Ok three_catalogue
  /\ unit_ends demo_lib demo_pf three_parsed None three_catalogue 0 (simple_block 4 5 (lit "c") (lit "d") ++ simple_block 7 8 (lit "e") (lit "f")).
Proof. split; [exact three_file|]. split; [vm_compute; reflexivity|exact three_ends]. Qed.
Example C66_lines_example : exists rd, lz_parse demo_lib demo_pf (by_lines three_lines) = Ok rd
  /\ map (fun k => lines_read (snd (lz_calls k rd))) [0; 1; 2; 3; 4] = [4; 7; 8; 8; 8]%N
  /\ fst (lz_calls 1 rd) = [Val (Some (UOk (simple_unit (lit "a") (lit "b"))))]
  /\ unread (snd (lz_calls 1 rd)) = Some (by_lines ["msgstr ""f"""]%string).
Proof. eexists. split; [vm_compute; reflexivity|]. split; [vm_compute; reflexivity|]. split; vm_compute; reflexivity. Qed.
(** An error in line 4 of 7. *)
Example C66_error_example : exists rd, lz_parse demo_lib demo_pf (by_lines ["msgid ""a"""; "msgstr ""b"""; "msgid ""c"""; "msgid ""d"""; "msgstr ""e"""; "msgid ""f"""; "msgstr ""g"""]%string) = Ok rd
  /\ map (fun k => lines_read (snd (lz_calls k rd))) [0; 1; 2; 3] = [3; 4; 4; 4]%N
  /\ fst (lz_calls 3 rd) = [Val (Some (UOk (simple_unit (lit "a") (lit "b")))); Val (Some (UErr (EParse 4 [] (lit "msgstr")))); Val None].
Proof. eexists. split; [vm_compute; reflexivity|]. split; vm_compute; reflexivity. Qed.
Example C66_sourceless_example : exists rd, lz_parse demo_lib demo_pf (by_lines ["msgid ""a"""; "msgstr ""b"""; "msgid """""; "msgstr ""e"""; ""; "msgid ""f"""; "msgstr ""g"""]%string) = Ok rd
  /\ lines_read (snd (lz_calls 1 rd)) = 6%N /\ fst (lz_calls 2 rd) = [Val (Some (UOk (simple_unit (lit "a") (lit "b")))); Val (Some (UErr (EUnexpected 3 (lit "Source should not be empty"))))].
Proof. eexists. split; [vm_compute; reflexivity|]. split; vm_compute; reflexivity. Qed.
