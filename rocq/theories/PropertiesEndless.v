(** Properties C78 to C80: the header while units are read; streams that never end. *)
From Coq Require Import String Arith NArith ZArith Bool List.
From Verif Require Import ModelBase ModelUtf8 ModelLine ModelFormula ModelData ModelSource ModelReader ModelLazy
  SpecLine SpecSource SpecReader SpecBlock SpecHeader SpecFile SpecLazy SpecEndless FileFacts FileIntro LazyThms EndlessFacts ProgressFacts ForeverFacts.
Import ListNotations.
Local Open Scope N_scope.

(** C78 *)
Theorem C78_header_stays : forall k r, let r' := snd (calls k r) in rd_header_notes r' = rd_header_notes r /\ rd_header_comments r' = rd_header_comments r
  /\ rd_header_properties r' = rd_header_properties r /\ rd_target_language r' = rd_target_language r.
Proof. exact header_stays. Qed.
Print Assumptions C78_header_stays.
(** An entry without an id in the middle, which is reported as an error, does not replace the header. *)
Example C78_example :
  let r := po_parse demo_lib demo_pf (lf_stream ["#. first"; "msgid """""; "msgstr ""A: 1"""; "msgid ""a"""; "msgstr ""b"""; "# second"; "msgid """""; "msgstr ""A: 2"""; "# end"]%string) in
  match r with
  | Ok r => map note_value (rd_header_notes r) = [lit "first"] /\ rd_header_properties r = [(lit "A", lit "1")]
      /\ map (fun x => match x with Val (Some (UOk _)) => 1 | Val (Some (UErr _)) => 2 | Val None => 3 | Crash => 4 end) (fst (calls 3 r)) = [1; 2; 3]
      /\ rd_header_properties (snd (calls 3 r)) = [(lit "A", lit "1")]
  | _ => False end.
Proof. vm_compute. repeat split. Qed.

(** C79 *)
(** As soon as the reads so far contain the line at which the unit [k] ends (counted from 0), the [k] units before it are
    returned, with these reads only, whatever follows. *)
Theorem C79_units_of_endless : forall lib pf src m bs ls e pl tl c k l r,
  flowing (first_reads src m) bs -> file (first_reads src m) ls e pl tl -> read_catalogue lib pf (first_reads src m) = Ok c ->
  unit_ends lib pf pl tl c k (l :: r) -> (N.to_nat (po_line_no l) <= full_lines bs)%nat ->
  obtained lib pf src k (map (fun x => Val (Some x)) (firstn k (c_items c))).
Proof. exact endless_units. Qed.
Print Assumptions C79_units_of_endless.
Theorem C79_determined : forall lib pf src k j xs ys, obtained lib pf src k xs -> obtained lib pf src (k + j) ys -> xs = firstn k ys.
Proof. exact obtained_unique. Qed.
Print Assumptions C79_determined.
(** [for_ever]: a stream that repeats an entry of two lines for ever. *)
Example C79_example : obtained demo_lib demo_pf for_ever 1 [Val (Some (UOk (simple_unit (lit "a") (lit "b"))))].
Proof.
  pose (ab := ["msgid ""a"""; "msgstr ""b"""; "msgid ""a"""; "msgstr ""b"""; "msgid ""a"""; "msgstr ""b"""]%string).
  eapply (C79_units_of_endless demo_lib demo_pf for_ever 6 _ (map lit ab) None (flat_map (fun i => [PMessage (2 * i + 1) [] (lit "msgid") (lit "a"); PMessage (2 * i + 2) [] (lit "msgstr") (lit "b")]) [0; 1; 2]) None
    (Catalogue [] [] [] (lang_invariant demo_lib) [UOk (simple_unit (lit "a") (lit "b")); UOk (simple_unit (lit "a") (lit "b")); UOk (simple_unit (lit "a") (lit "b"))]) 1).
  - do 6 (apply fl_data; [discriminate|]). apply fl_none.
  - change (first_reads for_ever 6) with (by_lines ab). apply by_lines_file; [discriminate|reflexivity|vm_compute; reflexivity].
  - vm_compute. reflexivity.
  - eapply (ue_intro _ _ _ _ _ _ _ [] [simple_block 1 2 (lit "a") (lit "b")] (simple_block 3 4 (lit "a") (lit "b")) None [simple_unit (lit "a") (lit "b")]).
    + reflexivity.
    + apply pa_none. repeat split.
    + constructor; [apply simple_unit_entry; discriminate|constructor].
    + reflexivity.
    + reflexivity.
    + apply simple_unit_entry. discriminate.
    + eapply starter_ends; [apply simple_entry|]. right. do 4 eexists. split; [reflexivity|]. cbn; auto.
  - vm_compute. repeat constructor.
Qed.

(** C80 *)
(** If keyword lines keep coming, every call returns: the file is refused, or every call of [next] returns after finitely many reads. *)
Theorem C80_progress : forall lib pf src, keeps_coming src -> (exists e, refused lib pf src e) \/ (forall k, exists xs, obtained lib pf src k xs).
Proof. exact progress. Qed.
Print Assumptions C80_progress.
(** If nothing but comments comes, opening the file never returns. *)
Theorem C80_comments_wait : forall lib pf src, only_comments src -> (forall e, ~ refused lib pf src e) /\ (forall k xs, ~ obtained lib pf src k xs).
Proof. exact waits. Qed.
Print Assumptions C80_comments_wait.
Example C80_example_comments : only_comments hashes.
Proof. exact hashes_comments. Qed.
Example C80_example : keeps_coming for_ever.
Proof. exact for_ever_keeps. Qed.
Example C80_example_refused : keeps_coming ids_only /\ refused demo_lib demo_pf ids_only (EParse 2 [] (lit "msgstr")).
Proof. exact ids_only_refused. Qed.
