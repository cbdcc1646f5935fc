(** C103: the texts have no influence on the shape of the catalogue. *)
From Coq Require Import String Arith NArith ZArith Bool List.
From Verif Require Import ModelBase ModelUtf8 ModelLine ModelFormula ModelData ModelSource ModelReader
  SpecLine SpecSource SpecReader SpecBlock SpecHeader SpecFile SpecShape FileIntro ShapeFacts.
Import ListNotations.
Local Open Scope N_scope.

(** Two files whose lines have the same shape: with the same plural forms the items have the same
    shape, and errors are the same.  (The second file may also be refused because of its plural forms.) *)
Theorem C103_shape : forall lib pf evs ls e pl evs' ls' e' pl' tl c, file evs ls e pl tl -> file evs' ls' e' pl' tl -> Forall2 like_line pl pl' -> read_catalogue lib pf evs = Ok c ->
  (exists d, read_catalogue lib pf evs' = Ok d /\ like_catalogue c d) \/ (exists x, read_catalogue lib pf evs' = Err x /\ ~ iteration_error x).
Proof. exact shape_file. Qed.
Print Assumptions C103_shape.
(** The same if the streams go on after a report of their end, at the same places. *)
Theorem C103_shape_any : forall lib pf evs bs f rs evs' bs' f' rs' c, pieces evs bs f -> answers 1 bs f rs -> pieces evs' bs' f' -> answers 1 bs' f' rs' -> Forall2 like_answer rs rs' ->
  read_catalogue lib pf evs = Ok c ->
  (exists d, read_catalogue lib pf evs' = Ok d /\ like_catalogue c d) \/ (exists x, read_catalogue lib pf evs' = Err x /\ ~ iteration_error x).
Proof. exact shape_ok. Qed.
Print Assumptions C103_shape_any.
(** Errors of the constructor that are not about plural forms are the same. *)
Theorem C103_error_any : forall lib pf evs bs f rs evs' bs' f' rs' x, pieces evs bs f -> answers 1 bs f rs -> pieces evs' bs' f' -> answers 1 bs' f' rs' -> Forall2 like_answer rs rs' ->
  iteration_error x -> (read_catalogue lib pf evs = Err x <-> read_catalogue lib pf evs' = Err x).
Proof. exact shape_error. Qed.
Print Assumptions C103_error_any.
(** Units of the same shape are both translated or both not, and have texts for the same counts. *)
Theorem C103_translated : forall u v, like_unit u v -> unit_is_translated u = unit_is_translated v.
Proof. exact like_translated. Qed.
Print Assumptions C103_translated.
Theorem C103_lookup : forall pf u v n, like_unit u v ->
  match msg_get_plural_text pf (u_message u) n, msg_get_plural_text pf (u_message v) n with
  | None, None => True
  | Some x, Some y => like_option x y
  | _, _ => False
  end.
Proof. exact like_lookup. Qed.
Print Assumptions C103_lookup.
(** A text may look like a keyword, a comment or a header. *)
Example C103_example :
  let a := ["# x"; "#, fuzzy"; "msgid ""a"""; "msgstr ""b"""; "msgid ""c"""; "msgstr """""; """d"""]%string in
  let b := ["# msgid"; "#, fuzzy"; "msgid ""msgid"""; "msgstr ""Plural-Forms: x"""; "msgid ""# fuzzy"""; "msgstr """""; """msgstr"""]%string in
  exists pl pl' c d, file (lf_stream a) (map lit a) None pl None /\ file (lf_stream b) (map lit b) None pl' None /\ Forall2 like_line pl pl'
  /\ read_catalogue demo_lib demo_pf (lf_stream a) = Ok c /\ read_catalogue demo_lib demo_pf (lf_stream b) = Ok d /\ length (c_items c) = 2%nat /\ length (c_items d) = 2%nat.
Proof.
  intros a b. do 4 eexists. split; [apply lf_file; [discriminate|reflexivity|vm_compute; reflexivity]|]. split; [apply lf_file; [discriminate|reflexivity|vm_compute; reflexivity]|].
  split; [repeat constructor; try discriminate|]. split; [vm_compute; reflexivity|]. split; [vm_compute; reflexivity|]. split; reflexivity.
Qed.
