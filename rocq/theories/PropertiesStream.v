(** Properties of whole streams (C07-C13, C16, C17, C48, C60, C61). *)
From Coq Require Import String Arith NArith Bool List Lia.
From Verif Require Import ModelBase ModelUtf8 ModelLine ModelFormula ModelData ModelSource ModelReader
  SpecLine SpecSource SpecReader SpecBlock SpecHeader SpecFile SpecAny SourceFacts IterFacts CatalogueFacts StreamFacts StreamThms CallFacts PieceFacts ItemFacts AnyFacts AnyErrors.
Import ListNotations.
Local Open Scope N_scope.

(** C07 *)
Theorem C07_chunking_irrelevant : forall lib pf evs evs' bs f, delivers evs bs f -> delivers evs' bs f ->
  read_catalogue lib pf evs = read_catalogue lib pf evs'.
Proof. exact chunking. Qed.
Print Assumptions C07_chunking_irrelevant.

Example C07_example :
  read_catalogue demo_lib demo_pf
    [RdInterrupted; RdData (utf8 (lit "msg")); RdData (utf8 (lit "id ""a""")); RdInterrupted; RdData [10; 109];
     RdData (utf8 (lit "sgstr ""b"""))] = demo_read ("msgid ""a""" ++ LFs ++ "msgstr ""b""")
  /\ demo_ids (demo_read ("msgid ""a""" ++ LFs ++ "msgstr ""b""")) = [inl (lit "a")].
Proof. split; vm_compute; reflexivity. Qed.

(** C08 *)
Theorem C08_line_ends_irrelevant : forall lib pf ls bs bs' evs evs', (forall s, In s ls -> text_line s) ->
  text_file ls bs -> text_file ls bs' -> delivers evs bs None -> delivers evs' bs' None ->
  read_catalogue lib pf evs = read_catalogue lib pf evs'.
Proof. exact line_ends. Qed.
Print Assumptions C08_line_ends_irrelevant.

Example C08_example :
  let l1 := lit "msgid ""a""" in let l2 := lit "msgstr ""b""" in
  text_file [l1; l2] (utf8 l1 ++ [10] ++ utf8 l2) /\ text_file [l1; l2] (utf8 l1 ++ [13; 10] ++ utf8 l2 ++ [10] ++ [])
  /\ demo_ids (read_catalogue demo_lib demo_pf [RdData (utf8 l1 ++ [13; 10] ++ utf8 l2 ++ [10] ++ [])]) = [inl (lit "a")].
Proof. repeat split; repeat constructor. Qed.
Example C08_no_return_left : let r s := read_catalogue demo_lib demo_pf [RdData (utf8 (lit "oops") ++ s)] in
  r [10] = Err (EParse 2 (lit "oops") []) /\ r [13; 10] = r [10] /\ r [] = r [10]
  /\ r [13; 13; 10] = Err (EParse 2 (lit "oops" ++ [13]) []) /\ r [13] = Err (EParse 2 (lit "oops" ++ [13]) []).
Proof. repeat split; vm_compute; reflexivity. Qed.

(** C09 *)
Theorem C09_utf8_exact : forall bs s, utf8_decode bs = Some s <-> scalars s /\ bs = utf8 s.
Proof. exact utf8_decode_iff. Qed.
Print Assumptions C09_utf8_exact.

(** Every stream has contents, and the catalogue is a function of them. *)
Theorem C09_contents_exist_once : forall bs f, (exists ls e, contents bs f ls e) /\
  forall ls e ls' e', contents bs f ls e -> contents bs f ls' e' -> ls = ls' /\ e = e'.
Proof. exact (fun bs f => conj (contents_total bs f) (fun ls e ls' e' H H' => contents_det bs f ls e H ls' e' H')). Qed.
Print Assumptions C09_contents_exist_once.

(** The first line that is not UTF-8 is reported by its number, unless the reading ended
    with an error before this line mattered. *)
Theorem C09_invalid_line_reported : forall lib pf evs bs f ls, delivers evs bs f -> contents bs f ls (Some IoInvalidUtf8) ->
  let o := read_catalogue lib pf evs in
  ends_with_error o (EIo (1 + N.of_nat (length ls)) IoInvalidUtf8)
  \/ ((exists e, ends_with_error o e) /\
      forall evs' bs' f' more e', delivers evs' bs' f' -> contents bs' f' (ls ++ more) e' -> read_catalogue lib pf evs' = o).
Proof. exact invalid_line. Qed.
Print Assumptions C09_invalid_line_reported.

Example C09_example :
  utf8_decode (utf8 [233; 8364; 128512]) = Some [233; 8364; 128512] /\ utf8_decode [195] = None
  /\ demo_ids (read_catalogue demo_lib demo_pf
       [RdData (utf8 (lit "msgid ""a""") ++ [10] ++ utf8 (lit "msgstr ""b""") ++ [10] ++ utf8 (lit "msgid ""c""") ++ [10; 195; 40; 10])]) = [inl (lit "a"); inr (Some 4)]
  /\ demo_ids (read_catalogue demo_lib demo_pf [RdData [10; 32; 10; 195; 40; 10]]) = [inr (Some 3)].
Proof. repeat split; vm_compute; reflexivity. Qed.
(** The borders: no overlong forms, no surrogates, nothing above 10FFFF. *)
Example C09_borders :
  map utf8_decode [[127]; [194; 128]; [223; 191]; [224; 160; 128]; [237; 159; 191]; [238; 128; 128]; [239; 191; 191]; [240; 144; 128; 128]; [244; 143; 191; 191]]
  = map (fun c => Some [c]) [127; 128; 2047; 2048; 55295; 57344; 65535; 65536; 1114111]
  /\ Forall (fun b => utf8_decode b = None)
       [[128]; [192; 128]; [193; 191]; [194]; [194; 65]; [224; 159; 191]; [237; 160; 128]; [237; 191; 191]; [240; 143; 191; 191]; [244; 144; 128; 128]; [245; 128; 128; 128]; [255]].
Proof. vm_compute. split; [reflexivity|]. repeat constructor. Qed.

(** C10, whole files: the catalogues are equal up to the numbers of corresponding lines in
    errors and the indentation of the line shown in an error. *)
Theorem C10_spacing_irrelevant : forall lib pf evs evs' bs bs' f f' ls ls' e c, delivers evs bs f -> delivers evs' bs' f' ->
  contents bs f ls e -> contents bs' f' ls' e -> respaced 1 1 c ls ls' ->
  catalogue_sim (corresponding c) indented (read_catalogue lib pf evs) (read_catalogue lib pf evs').
Proof. exact spacing. Qed.
Print Assumptions C10_spacing_irrelevant.

Example C10_example :
  demo_read ("msgid ""a""" ++ LFs ++ "msgstr ""b""" ++ LFs)
  = demo_read (LFs ++ "  msgid ""a""" ++ LFs ++ LFs ++ "   " ++ LFs ++ " msgstr ""b""" ++ LFs ++ LFs)
  /\ demo_ids (demo_read ("msgid ""a""" ++ LFs ++ "oops")) = [inr (Some 3)]
  /\ demo_ids (demo_read (LFs ++ LFs ++ "msgid ""a""" ++ LFs ++ "oops")) = [inr (Some 5)].
Proof. repeat split; vm_compute; reflexivity. Qed.

(** C11: for every state of a reader, reachable or not *)
Theorem C11_fused : forall k r, nth_call k r = Val None -> forall j, (k <= j)%nat -> nth_call j r = Val None.
Proof. exact fused. Qed.
Print Assumptions C11_fused.

Theorem C11_nothing_after_an_error : forall k r e, nth_call k r = Val (Some (UErr e)) ->
  forall j, (k < j)%nat -> nth_call j r = Val None.
Proof. exact error_last. Qed.
Print Assumptions C11_nothing_after_an_error.

(** The items of [read_catalogue] are the results of the calls. *)
Theorem C11_items_are_the_calls : forall lib pf evs c, read_catalogue lib pf evs = Ok c ->
  exists r, po_parse lib pf evs = Ok r /\ forall k, nth_call k r = Val (nth_error (c_items c) k).
Proof. exact catalogue_calls. Qed.
Print Assumptions C11_items_are_the_calls.

Example C11_example : match po_parse demo_lib demo_pf [RdData (utf8 (lit "msgid ""a""") ++ [10] ++ utf8 (lit "msgstr ""b""") ++ [10; 35; 10; 255])] with
  | Ok r => match nth_call 0 r, nth_call 1 r, nth_call 2 r, nth_call 3 r with
            | Val (Some (UOk _)), Val (Some (UErr _)), Val None, Val None => True | _, _, _, _ => False end
  | _ => False end.
Proof. vm_compute. exact I. Qed.

(** C60: the line iterator *)
(** Call k returns the k-th non-blank line, with its number; then the failure, if there is
    one, is returned once; after that there is nothing. *)
Theorem C60_line_calls : forall evs ls e pl tl k, file evs ls e pl tl ->
  (forall l, nth_error pl k = Some l -> poll k (li_new evs) = Some (ILine l))
  /\ (k = length pl -> poll k (li_new evs) = option_map IFail tl)
  /\ ((length pl < k)%nat -> poll k (li_new evs) = None).
Proof. exact line_calls. Qed.
Print Assumptions C60_line_calls.
(** In every state, also of streams that would deliver more. *)
Theorem C60_nothing_after_a_failure : forall k it e, poll k it = Some (IFail e) -> forall j, (k < j)%nat -> poll j it = None.
Proof. exact failure_last. Qed.
Print Assumptions C60_nothing_after_a_failure.
Example C60_example : let it := li_new [RdData (utf8 (lit "# a") ++ [10; 10] ++ utf8 (lit "# b") ++ [10; 255; 10] ++ utf8 (lit "# c")); RdError 5; RdData (utf8 (lit "# d"))] in
  map (fun k => poll k it) [0; 1; 2; 3; 4]%nat = [Some (ILine (PComment 1 32 (lit "a"))); Some (ILine (PComment 3 32 (lit "b"))); Some (IFail (EIo 4 IoInvalidUtf8)); None; None]
  /\ map (fun k => poll k (li_new [RdData (utf8 (lit "# a") ++ [10]); RdError 5; RdData (utf8 (lit "# d"))])) [0; 1; 2; 3]%nat
     = [Some (ILine (PComment 1 32 (lit "a"))); Some (IFail (EIo 2 (IoRead 5))); None; None]
  /\ map (fun k => poll k (li_new [RdData (utf8 (lit "oops") ++ [10] ++ utf8 (lit "# d"))])) [0; 1; 2]%nat = [Some (IFail (EParse 2 (lit "oops") [])); None; None].
Proof. repeat split; vm_compute; reflexivity. Qed.

(** C61: streams that go on after a report of their end (a read of 0 bytes) *)
(** What follows the first report is not always ignored: *)
Theorem C61_end_is_final_refuted : exists b1 b2 x y,
  delivered (read_catalogue demo_lib demo_pf [RdData b1]) = [UOk x]
  /\ delivered (read_catalogue demo_lib demo_pf [RdData b1; RdData []; RdData b2]) = [UOk x; UOk y].
Proof. exact end_passed. Qed.
Print Assumptions C61_end_is_final_refuted.
(** A single entry may even lie on both sides of it: *)
Theorem C61_entry_across_the_end_refuted : exists b1 b2 x,
  delivered (read_catalogue demo_lib demo_pf [RdData b1]) = []
  /\ read_catalogue demo_lib demo_pf [RdData b1; RdData []; RdData b2] = read_catalogue demo_lib demo_pf [RdData (b1 ++ b2)]
  /\ delivered (read_catalogue demo_lib demo_pf [RdData b1; RdData []; RdData b2]) = [UOk x].
Proof. exact end_inside_entry. Qed.
Print Assumptions C61_entry_across_the_end_refuted.
(** It is ignored if a comment, or no line at all, or a failure comes before the report: *)
Theorem C61_end_after_comment_partial : forall lib pf evs evs0 b b1 bs f ls e pl tl, pieces evs (b :: b1 :: bs) f -> delivers evs0 b None ->
  contents b None ls e -> parsed 1 ls e pl tl ->
  tl <> None \/ (terminated b /\ (pl = [] \/ exists pl' n k s, pl = pl' ++ [PComment n k s])) ->
  read_catalogue lib pf evs = read_catalogue lib pf evs0.
Proof. exact end_after_comment. Qed.
Print Assumptions C61_end_after_comment_partial.
(** And in any case it changes nothing but the last item: *)
Theorem C61_items_before_the_end_partial : forall lib pf evs evs0 b b1 bs f l0 z, pieces evs (b :: b1 :: bs) f -> delivers evs0 b None ->
  delivered (read_catalogue lib pf evs0) = l0 ++ [z] -> exists rest, delivered (read_catalogue lib pf evs) = l0 ++ rest.
Proof. exact end_cut. Qed.
Print Assumptions C61_items_before_the_end_partial.
(** What the calls of the line iterator return, for every stream: *)
Theorem C61_line_calls : forall evs, exists bs f rs, pieces evs bs f /\ answers 1 bs f rs /\ forall k, poll k (li_new evs) = nth k rs None.
Proof. exact all_calls. Qed.
Print Assumptions C61_line_calls.
(** Whatever is reported where, the units are the contents of lines of the stream, in order, after those of the header if there is one. *)
Theorem C61_units_are_lines : forall lib pf evs bs f rs c, pieces evs bs f -> answers 1 bs f rs -> read_catalogue lib pf evs = Ok c ->
  stream_catalogue lib pf (kept rs) c.
Proof. exact any_stream. Qed.
Print Assumptions C61_units_are_lines.
(** And its errors are about lines of the stream. *)
Theorem C61_errors_are_of_lines : forall lib pf evs bs f rs c x, pieces evs bs f -> answers 1 bs f rs -> read_catalogue lib pf evs = Ok c -> In (UErr x) (c_items c) ->
  stream_error rs x.
Proof. exact any_error. Qed.
Print Assumptions C61_errors_are_of_lines.
Theorem C61_parse_errors_are_of_lines : forall lib pf evs bs f rs x, pieces evs bs f -> answers 1 bs f rs -> read_catalogue lib pf evs = Err x ->
  stream_error rs x \/ exists h r u ps, kept rs = h ++ r /\ entry None h u /\ header u ps /\ header_error pf ps x.
Proof. exact any_parse_error. Qed.
Print Assumptions C61_parse_errors_are_of_lines.
Example C61_error_example :
  demo_ids (read_catalogue demo_lib demo_pf [RdData (utf8 (lit "msgid ""a""") ++ [10] ++ utf8 (lit "msgstr ""b""")); RdData []; RdData (utf8 (lit "msgid ""c""") ++ [10] ++ utf8 (lit "#, fuzzy"))])
  = [inl (lit "a"); inr (Some 4)].
Proof. vm_compute. reflexivity. Qed.
Example C61_example : let evs := [RdData (utf8 (lit "# a") ++ [10; 10] ++ utf8 (lit "# b")); RdData []; RdData (utf8 (lit "# c") ++ [10]); RdData []; RdData []; RdData (utf8 (lit "# d"))] in
  pieces evs [utf8 (lit "# a") ++ [10; 10] ++ utf8 (lit "# b"); utf8 (lit "# c") ++ [10]; []; utf8 (lit "# d")] None
  /\ map (fun k => poll k (li_new evs)) [0; 1; 2; 3; 4; 5; 6]%nat
     = [Some (ILine (PComment 1 32 (lit "a"))); Some (ILine (PComment 3 32 (lit "b"))); Some (ILine (PComment 4 32 (lit "c"))); None; None; Some (ILine (PComment 5 32 (lit "d"))); None]
  /\ demo_ids (read_catalogue demo_lib demo_pf [RdData (utf8 (lit "msgid ""a""") ++ [10] ++ utf8 (lit "msgstr ""b""") ++ [10]); RdData []; RdData (utf8 (lit "msgid ""c""") ++ [10] ++ utf8 (lit "msgstr ""d"""))])
     = [inl (lit "a"); inl (lit "c")]
  /\ demo_ids (read_catalogue demo_lib demo_pf [RdData (utf8 (lit "msgid ""a""") ++ [10] ++ utf8 (lit "msgstr ""b""") ++ [10]); RdData []; RdData []; RdData (utf8 (lit "msgid ""c""") ++ [10] ++ utf8 (lit "msgstr ""d"""))])
     = [inl (lit "a")]
  /\ demo_ids (read_catalogue demo_lib demo_pf [RdData (utf8 (lit "msgid ""a""") ++ [10] ++ utf8 (lit "msgstr ""b""") ++ [10] ++ utf8 (lit "# x") ++ [10]); RdData []; RdData (utf8 (lit "msgid ""c""") ++ [10] ++ utf8 (lit "msgstr ""d"""))])
     = [inl (lit "a")].
Proof. split; [exact end_example|]. repeat split; vm_compute; reflexivity. Qed.

(** C12 *)
Theorem C12_at_most_one_item_per_line : forall lib pf evs bs f ls e c, delivers evs bs f -> contents bs f ls e ->
  read_catalogue lib pf evs = Ok c ->
  (length (c_items c) <= nonblank_lines ls)%nat.
Proof. exact items_bounded. Qed.
Print Assumptions C12_at_most_one_item_per_line.

(** Also for streams that deliver data after an end of file. *)
Theorem C12_iteration_ends : forall lib pf evs c, read_catalogue lib pf evs = Ok c ->
  (length (c_items c) <= S (events_size evs))%nat.
Proof. exact iteration_bounded_any. Qed.
Print Assumptions C12_iteration_ends.

Example C12_example : length (delivered (demo_read ("msgid ""a""" ++ LFs ++ "msgstr ""b""" ++ LFs ++ "msgid ""c""" ++ LFs ++ "msgstr ""d"""))) = 2%nat.
Proof. vm_compute; reflexivity. Qed.

(** The bound is reached: a single line, a single item (an error). *)
Example C12_reached : (let c := demo_read """x""" in
  match c with Ok c => length (c_items c) = 1%nat | _ => False end) /\ nonblank_lines [lit """x"""] = 1%nat.
Proof. vm_compute; split; reflexivity. Qed.

(** C13 *)
Theorem C13_parse_never_panics : forall lib pf evs, po_parse lib pf evs <> Panic.
Proof. exact (fun lib pf evs => ReaderFacts.reader_new_no_panic lib pf _). Qed.
Print Assumptions C13_parse_never_panics.

Theorem C13_next_never_panics : forall k r, nth_call k r <> Crash.
Proof. exact nth_call_no_panic. Qed.
Print Assumptions C13_next_never_panics.

Theorem C13_reading_never_panics : forall lib pf evs, read_catalogue lib pf evs <> Panic.
Proof. exact read_catalogue_no_panic. Qed.
Print Assumptions C13_reading_never_panics.

Example C13_example : demo_read "#" <> Panic /\ demo_ids (read_catalogue demo_lib demo_pf [RdError 5]) = [inr (Some 1)]
  /\ demo_ids (read_catalogue demo_lib demo_pf [RdData []; RdData [10]; RdError 5]) = [].
Proof. repeat split; vm_compute; congruence. Qed.

(** C16: either the failure is reported and everything delivered before is genuine, or the
    reading had already ended with an error, the same as for the complete file. *)
Theorem C16_stream_failure : forall lib pf evs evs' bs1 bs2 code f, delivers evs bs1 (Some code) -> delivers evs' (bs1 ++ bs2) f ->
  let o := read_catalogue lib pf evs in let o' := read_catalogue lib pf evs' in
  (exists n e, ends_with_error o (EIo n e) /\ begins o o') \/ ((exists e, ends_with_error o e) /\ o = o').
Proof. exact stream_failure. Qed.
Print Assumptions C16_stream_failure.

Example C16_example :
  demo_ids (read_catalogue demo_lib demo_pf [RdData (utf8 (lit "msgid ""a""") ++ [10] ++ utf8 (lit "msgstr ""b""") ++ [10] ++ utf8 (lit "#x") ++ [10; 109]); RdError 7])
  = [inl (lit "a"); inr (Some 4)].
Proof. vm_compute; reflexivity. Qed.

(** C17 is false in general: a cut may turn a line that is rejected into one that is read,
    and then even the last but one item is not genuine. *)
Theorem C17_cut_anywhere_refuted : exists bs1 bs2 x y,
  delivered (read_catalogue demo_lib demo_pf [RdData bs1]) = [x; y]
  /\ forall rest, delivered (read_catalogue demo_lib demo_pf [RdData (bs1 ++ bs2)]) <> x :: rest.
Proof. exact cut_inside_line. Qed.
Print Assumptions C17_cut_anywhere_refuted.

(** True after a line end, and everywhere in a file all of whose lines can be parsed: *)
Theorem C17_cut_partial : forall lib pf evs evs' bs1 bs2 f f' ls' e' l0 z, delivers evs bs1 f -> delivers evs' (bs1 ++ bs2) f' ->
  contents (bs1 ++ bs2) f' ls' e' ->
  (bs1 = [] \/ (exists b, bs1 = b ++ [10]) \/ (e' = None /\ forall s, In s ls' -> acceptable s)) ->
  delivered (read_catalogue lib pf evs) = l0 ++ [z] -> exists rest, delivered (read_catalogue lib pf evs') = l0 ++ rest.
Proof. exact stream_cut. Qed.
Print Assumptions C17_cut_partial.

(** and everywhere in every file for all items but the last two: *)
Theorem C17_cut_all_but_two_partial : forall lib pf evs evs' bs1 bs2 f f' l0 y z, delivers evs bs1 f -> delivers evs' (bs1 ++ bs2) f' ->
  delivered (read_catalogue lib pf evs) = l0 ++ [y; z] -> exists rest, delivered (read_catalogue lib pf evs') = l0 ++ rest.
Proof. exact stream_cut_two. Qed.
Print Assumptions C17_cut_all_but_two_partial.

Example C17_example :
  demo_ids (demo_read ("msgid ""a""" ++ LFs ++ "msgstr ""b""" ++ LFs ++ "msgid ""c""" ++ LFs ++ "msgstr ""d""" ++ LFs ++ """e"""))
  = [inl (lit "a"); inl (lit "c")]
  /\ demo_ids (demo_read ("msgid ""a""" ++ LFs ++ "msgstr ""b""" ++ LFs ++ "msgid ""c""" ++ LFs ++ "msgstr ""d""" ++ LFs))
  = [inl (lit "a"); inl (lit "c")]
  /\ acceptable (lit "msgid ""a""").
Proof. repeat split; vm_compute; congruence. Qed.

(** C48 *)
Theorem C48_byte_order_mark_rejected : forall lib pf evs bs f, delivers evs (utf8 [65279] ++ bs) f ->
  (exists s, read_catalogue lib pf evs = Err (EParse 2 (65279 :: s) [])) \/ (exists e, read_catalogue lib pf evs = Err (EIo 1 e)).
Proof. exact byte_order_mark. Qed.
Print Assumptions C48_byte_order_mark_rejected.

Example C48_example : read_catalogue demo_lib demo_pf [RdData (utf8 (65279 :: lit "msgid ""a"""))] = Err (EParse 2 (65279 :: lit "msgid ""a""") []).
Proof. vm_compute; reflexivity. Qed.
