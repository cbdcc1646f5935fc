(** Flags, locations and notes, compared with GNU gettext (C86-C88). *)
From Coq Require Import String Arith NArith ZArith Bool List Lia.
From Verif Require Import ModelBase ModelUtf8 ModelLine ModelFormula ModelData ModelSource ModelReader
  SpecLine SpecFormula SpecSource SpecReader SpecBlock SpecHeader SpecFile SpecFlags FileIntro FlagFacts NoteFacts.
Import ListNotations.
Local Open Scope N_scope.

(** C86: false of the code that the flags are those of gettext.  True of a unit whose flags
    have no white space inside, if the white space of its flag comments is that of C; a fuzzy unit
    is fuzzy in gettext already under the second condition. *)
Theorem C86_flags_partial : forall lib pf evs ls e pl tl c k u, file evs ls e pl tl -> read_catalogue lib pf evs = Ok c -> nth_error (c_items c) k = Some (UOk u) ->
  exists forms cs ks, unit_at lib pf pl tl c k forms (cs ++ ks) u /\ Forall comment_line cs /\ ~ Exists comment_line ks
    /\ (comments_white c_white 44 cs ->
        (u_state u = StNeedsWork -> gettext_flag cs (lit "fuzzy"))
        /\ ((forall f x, In f (u_flags u) -> In x f -> ~ white x) ->
            (u_state u = StNeedsWork <-> gettext_flag cs (lit "fuzzy")) /\ forall f, In f (u_flags u) /\ f <> [] <-> gettext_flag cs f)).
Proof. exact flags_partial. Qed.
Print Assumptions C86_flags_partial.
(** [#, fuzzy x]: fuzzy in gettext, translated here. *)
Theorem C86_space_refuted : exists ls cs ks u, file (str_stream ls) ls None (cs ++ ks) None /\ entry None (cs ++ ks) u /\ Forall comment_line cs
  /\ comments_white c_white 44 cs /\ gettext_flag cs (lit "fuzzy") /\ u_state u = StFinal
  /\ forall lib pf, exists c, read_catalogue lib pf (str_stream ls) = Ok c /\ c_items c = [UOk u].
Proof. exact space_refuted. Qed.
Print Assumptions C86_space_refuted.
(** With a no-break space it is the other way round. *)
Theorem C86_nbsp_refuted : exists ls cs ks u, file (str_stream ls) ls None (cs ++ ks) None /\ entry None (cs ++ ks) u /\ Forall comment_line cs
  /\ ~ gettext_flag cs (lit "fuzzy") /\ u_state u = StNeedsWork
  /\ forall lib pf, exists c, read_catalogue lib pf (str_stream ls) = Ok c /\ c_items c = [UOk u].
Proof. exact nbsp_refuted. Qed.
Print Assumptions C86_nbsp_refuted.
(** A comment without flags gives an empty flag. *)
Theorem C86_empty_refuted : exists ls cs ks u, file (str_stream ls) ls None (cs ++ ks) None /\ entry None (cs ++ ks) u /\ Forall comment_line cs
  /\ (forall f, ~ gettext_flag cs f) /\ u_flags u = [[]]
  /\ forall lib pf, exists c, read_catalogue lib pf (str_stream ls) = Ok c /\ c_items c = [UOk u].
Proof. exact empty_flag_refuted. Qed.
Print Assumptions C86_empty_refuted.
Example C86_example : match read_catalogue demo_lib demo_pf (str_stream (commented 44 (lit "c-format , fuzzy"))) with
    | Ok c => map (fun i => match i with UOk u => (u_flags u, u_state u) | UErr _ => ([], StEmpty) end) (c_items c) | _ => [] end
  = [([lit "c-format"; lit "fuzzy"], StNeedsWork)]
  /\ tokens flag_separator (lit "x , y z") [lit "x"; lit "y"; lit "z"].
Proof.
  split; [vm_compute; reflexivity|].
  apply (tk_word _ [] (lit "x") (lit " , y z")); [intros c []|discriminate|apply letters_plain; reflexivity|intros c r [= <- _]; left; vm_compute; auto 10|].
  apply (tk_word _ (lit " , ") (lit "y") (lit " z")); [|discriminate|apply letters_plain; reflexivity|intros c r [= <- _]; left; vm_compute; auto 10|].
  - intros c I. cbn in I. destruct I as [<-|[<-|[<-|[]]]]; [left; vm_compute; auto 10|right; reflexivity|left; vm_compute; auto 10].
  - apply (tk_word _ (lit " ") (lit "z") []); [|discriminate|apply letters_plain; reflexivity|discriminate|constructor; intros c []].
    intros c I. cbn in I. destruct I as [<-|[]]. left. vm_compute. auto 10.
Qed.

(** C87: false of the code that the locations are those of gettext.  True of a unit whose locations
    have no start of an isolate and are separated by spaces and tabs only. *)
Theorem C87_locations_partial : forall lib pf evs ls e pl tl c k u, file evs ls e pl tl -> read_catalogue lib pf evs = Ok c -> nth_error (c_items c) k = Some (UOk u) ->
  exists forms cs ks, unit_at lib pf pl tl c k forms (cs ++ ks) u /\ Forall comment_line cs /\ ~ Exists comment_line ks
    /\ (comments_white blank 58 cs -> (forall n s, In (PComment n 58 s) cs -> ~ In 8296 s) -> forall L, gettext_locations cs L <-> L = u_locations u).
Proof. exact locations_partial. Qed.
Print Assumptions C87_locations_partial.
(** A file name with a space, as gettext writes it, is torn apart. *)
Theorem C87_isolated_refuted : exists ls cs ks u x, file (str_stream ls) ls None (cs ++ ks) None /\ entry None (cs ++ ks) u /\ Forall comment_line cs
  /\ comments_white blank 58 cs /\ gettext_locations cs [x] /\ length (u_locations u) = 2%nat /\ ~ In x (u_locations u)
  /\ forall lib pf, exists c, read_catalogue lib pf (str_stream ls) = Ok c /\ c_items c = [UOk u].
Proof. exact isolated_refuted. Qed.
Print Assumptions C87_isolated_refuted.
Example C87_example : match read_catalogue demo_lib demo_pf (str_stream (commented 58 (lit "a.c:1 b.c:2"))) with
    | Ok c => map (fun i => match i with UOk u => u_locations u | UErr _ => [] end) (c_items c) | _ => [] end
  = [[lit "a.c:1"; lit "b.c:2"]].
Proof. vm_compute. reflexivity. Qed.

(** C88: false of the code that the notes of translators are the comments of gettext.  True of the lines that are
    nothing but [#], or have a space after it; the white space that follows is lost.  With another
    character after it, this character becomes the kind of a comment that is not a note. *)
Theorem C88_notes_partial : forall s t n, one_line s -> translator_comment s t -> (forall flags kw body, ~ quoted_line s flags kw body) ->
  (forall x, parse_line s n = Some (PComment n 32 x) <-> (t = [] /\ x = []) \/ exists w, t = 32 :: w ++ x /\ blanks w /\ not_white_first x)
  /\ (forall c t', t = c :: t' -> c <> 32 -> exists w x, t' = w ++ x /\ blanks w /\ not_white_first x /\ parse_line s n = Some (PComment n c x)
        /\ block_comments [PComment n c x] [] [] [] [Comment c x]).
Proof. exact translator_line. Qed.
Print Assumptions C88_notes_partial.
(** The notes of a unit are those of its comment lines, and no others. *)
Theorem C88_unit_notes : forall lib pf evs ls e pl tl c k u, file evs ls e pl tl -> read_catalogue lib pf evs = Ok c -> nth_error (c_items c) k = Some (UOk u) ->
  exists forms cs ks, unit_at lib pf pl tl c k forms (cs ++ ks) u /\ Forall comment_line cs /\ ~ Exists comment_line ks /\ u_notes u = flat_map line_notes cs.
Proof. exact unit_notes. Qed.
Print Assumptions C88_unit_notes.
(** [#foo] gives no note, and a comment with the text [oo]. *)
Theorem C88_glued_refuted : exists s t ls cs ks u, file (str_stream (s :: ls)) (s :: ls) None (cs ++ ks) None /\ translator_comment s t /\ t <> [] /\ line_of s 1 (PComment 1 102 (lit "oo")) /\ cs = [PComment 1 102 (lit "oo")]
  /\ entry None (cs ++ ks) u /\ u_notes u = []
  /\ forall lib pf, exists c, read_catalogue lib pf (str_stream (s :: ls)) = Ok c /\ c_items c = [UOk u].
Proof. exact glued_refuted. Qed.
Print Assumptions C88_glued_refuted.
(** Comments that differ in their indentation give the same note. *)
Theorem C88_indent_refuted : exists s t s' t' ls u, translator_comment s t /\ translator_comment s' t' /\ t <> t' /\ length (u_notes u) = 1%nat
  /\ forall lib pf, exists c, read_catalogue lib pf (str_stream (s :: ls)) = Ok c /\ read_catalogue lib pf (str_stream (s' :: ls)) = Ok c /\ c_items c = [UOk u].
Proof. exact indent_refuted. Qed.
Print Assumptions C88_indent_refuted.
Example C88_example : parse_line (lit "#  a b") 1 = Some (PComment 1 32 (lit "a b")) /\ parse_line (lit "#") 1 = Some (PComment 1 32 [])
  /\ parse_line (lit "#a  b") 1 = Some (PComment 1 97 (lit "b")) /\ translator_comment (lit "#a") (lit "a").
Proof.
  repeat split; try (vm_compute; reflexivity). exists []. split; [reflexivity|]. split; [intros c []|]. intros c t' [= <- _]. vm_compute. intuition discriminate.
Qed.
