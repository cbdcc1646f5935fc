(** C101: what the reader keeps between two calls. *)
From Coq Require Import String Arith NArith ZArith Bool List.
From Verif Require Import ModelBase ModelFormula ModelData ModelLine ModelSource ModelReader ModelLazy SpecLine SpecFormula SpecSource SpecReader SpecBlock SpecHeader SpecFile
  SpecSize SpecLazy SpecMemory FileIntro LazyThms MemoryFacts.
Import ListNotations.
Local Open Scope nat_scope.

(** For any stream, after any number of calls: the item delivered next, the last line delivered
    by the line iterator, the end of one chunk of data, and what is known from the header; there
    is no more in the record. *)
Theorem C101_state : forall lib pf evs l k c, lz_parse lib pf evs = Ok l -> read_catalogue lib pf evs = Ok c ->
  let r := snd (lz_calls k l) in
  lr_next_unit r = nth_error (c_items c) k
  /\ (forall x, pk_peeked (lr_lines r) = Some (Some x) -> exists j, poll j (li_new evs) = Some x /\ pk_iter (lr_lines r) = after (S j) (li_new evs))
  /\ (forall s, li_inner (pk_iter (lr_lines r)) = Some s -> s_buf s = [] \/ exists used a, evs = used ++ RdData (a ++ s_buf s) :: s_events s)
  /\ lr_header_notes r = c_notes c /\ lr_header_comments r = c_comments c /\ lr_header_properties r = c_properties c
  /\ lr_target_language r = c_language c /\ lr_plural_forms r = lr_plural_forms l.
Proof. exact state_held. Qed.
Print Assumptions C101_state.
(** So the size is bounded by those of the largest item, the longest line and the largest chunk,
    whatever the size of the file is. *)
Theorem C101_memory : forall lib pf evs ls e pl tl l c U L B k, file evs ls e pl tl -> lz_parse lib pf evs = Ok l -> read_catalogue lib pf evs = Ok c ->
  (forall x, In x (c_items c) -> uitem_size x <= U) -> (forall s, In s ls -> length s <= L) -> (forall d, In (RdData d) evs -> length d <= B) ->
  held_size (snd (lz_calls k l)) <= U + L + B.
Proof. exact memory_bounded. Qed.
Print Assumptions C101_memory.
(** Three units, one read per line; then all in one chunk. *)
Example C101_example :
  let sizes evs := match lz_parse demo_lib demo_pf evs with Ok l => map (fun k => held_size (snd (lz_calls k l))) (seq 0 5) | _ => [] end in
  sizes (by_lines ["msgid ""a"""; "msgstr ""b"""; "msgid ""c"""; "msgstr ""d"""; "msgid ""e"""; "msgstr ""f"""]%string) = [10; 10; 4; 0; 0]
  /\ sizes (lf_stream ["msgid ""a"""; "msgstr ""b"""; "msgid ""c"""; "msgstr ""d"""; "msgid ""e"""; "msgstr ""f"""]%string) = [42; 21; 4; 0; 0].
Proof. vm_compute. repeat split. Qed.
