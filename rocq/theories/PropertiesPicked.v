(** C116: selections of the entries of a file. *)
From Coq Require Import String Arith NArith ZArith Bool List.
From Verif Require Import ModelBase ModelUtf8 ModelLine ModelFormula ModelData ModelSource ModelReader
  SpecLine SpecFormula SpecSource SpecReader SpecBlock SpecHeader SpecFile SpecPicked FileIntro FlagFacts PickedFacts PickedMore.
Import ListNotations.

(** C116 *)
(** False of the code that the lines of every file can be cut into those of the header, those of
    each unit and a rest, such that the header with any selection of the others (in any order,
    perhaps repeated) is a file with the same header data and exactly the selected units.
    True if the first entry of the file has a msgid, even if the file ends with an error. *)
Theorem C116_selection_partial : forall lib pf evs ls e pl tl c, file evs ls e pl tl -> read_catalogue lib pf evs = Ok c -> ~ idless_start pl tl ->
  exists hls blks rest, ls = hls ++ concat blks ++ rest /\ separable lib pf c hls blks.
Proof. exact file_separable. Qed.
Print Assumptions C116_selection_partial.
(** Files that begin with an entry are of this kind. *)
Theorem C116_first_entry : forall h r u tl, entry None h u -> ~ idless_start (h ++ r) tl.
Proof. exact entry_start. Qed.
Print Assumptions C116_first_entry.
(** A first entry that has a context only: it gets the msgid of the next entry, unless a comment
    line comes first.  There is no such cut. *)
Theorem C116_idless_refuted : exists ls pl, file (str_stream ls) ls None pl None /\ forall lib pf, exists c, read_catalogue lib pf (str_stream ls) = Ok c /\
  forall hls blks rest, ls = hls ++ concat blks ++ rest -> ~ separable lib pf c hls blks.
Proof. exact idless_refuted. Qed.
Print Assumptions C116_idless_refuted.
(** A file that ends with an error, and its second and first entry. *)
Definition spoilt_lines : list string := ["msgid """""; "msgstr ""X: y"""; "# one"; "msgid ""a"""; "msgstr ""b"""; ""; "msgid ""c"""; "msgstr ""d"""; "msgid ""e"""; "oops"]%string.
Example C116_example : exists pl tl u v c,
  file (lf_stream spoilt_lines) (map lit spoilt_lines) None pl tl /\ ~ idless_start pl tl
  /\ read_catalogue demo_lib demo_pf (lf_stream spoilt_lines) = Ok c /\ units (c_items c) = [u; v] /\ length (c_items c) = 3
  /\ exists c', read_catalogue demo_lib demo_pf (lf_stream ["msgid """""; "msgstr ""X: y"""; "msgid ""c"""; "msgstr ""d"""; "# one"; "msgid ""a"""; "msgstr ""b"""; ""]%string) = Ok c'
     /\ c_items c' = [UOk v; UOk u] /\ c_properties c' = c_properties c.
Proof.
  do 5 eexists. split; [apply lf_file; [discriminate|vm_compute; reflexivity|vm_compute; reflexivity]|]. split.
  - exact (entry_start _ _ _ _ (simple_entry None 1 2 [] (lit "X: y"))).
  - split; [vm_compute; reflexivity|]. split; [reflexivity|]. split; [reflexivity|]. eexists. split; [vm_compute; reflexivity|]. split; reflexivity.
Qed.
(** Files whose first entry has no msgid: what the claim needs is that no entry can be read as
    the rest of the first one (and that this has a line other than comments). *)
Theorem C116_idless_partial : forall lib pf evs ls e pl tl c, file evs ls e pl tl -> read_catalogue lib pf evs = Ok c -> idless_start pl tl ->
  exists h u hls blks rest, ls = hls ++ concat blks ++ rest /\ parsed 1 hls None h None /\ headless None h u /\ Forall2 (entry_text None) blks (units (c_items c))
  /\ (~ Forall comment_line h -> (forall blk m b, In blk blks -> parsed m blk None b None -> headless_ends h b None) -> separable lib pf c hls blks).
Proof. exact idless_separable. Qed.
Print Assumptions C116_idless_partial.
(** Entries that begin with a comment line are such entries. *)
Theorem C116_comment_ends : forall h l b, ~ Forall comment_line h -> comment_line l -> headless_ends h (l :: b) None.
Proof. exact comment_ends. Qed.
Print Assumptions C116_comment_ends.
(** A first entry without msgid, and entries that begin with comments. *)
Definition remarked_lines : list string := ["msgctxt ""x"""; "# one"; "msgid ""a"""; "msgstr ""b"""; "# two"; "msgid ""c"""; "msgstr ""d"""]%string.
Example C116_idless_example : exists pl u v c,
  file (lf_stream remarked_lines) (map lit remarked_lines) None pl None /\ idless_start pl None
  /\ read_catalogue demo_lib demo_pf (lf_stream remarked_lines) = Ok c /\ c_items c = [UOk u; UOk v]
  /\ exists c', read_catalogue demo_lib demo_pf (lf_stream ["msgctxt ""x"""; "# two"; "msgid ""c"""; "msgstr ""d"""; "# one"; "msgid ""a"""; "msgstr ""b"""]%string) = Ok c' /\ c_items c' = [UOk v; UOk u].
Proof.
  do 4 eexists. split; [apply lf_file; [discriminate|vm_compute; reflexivity|vm_compute; reflexivity]|]. split.
  - eexists [_], _, _. split; [reflexivity|]. split.
    + apply (hl_intro None [] [] [] [] [] false [] None [] (MSimple [] None) [_] (Some (lit "x")) [] None StEmpty); try constructor.
      * exact (fl_intro (own false) (lit "msgctxt") 1 (lit "x") [] [] (st_nil _)).
      * intros [].
      * intros t [].
    + apply comment_ends; [|exact Logic.I]. intros F. inversion F as [|? ? H _]. exact H.
  - split; [vm_compute; reflexivity|]. split; [reflexivity|]. eexists. split; [vm_compute; reflexivity|]. reflexivity.
Qed.
