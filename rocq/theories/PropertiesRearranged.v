(** The order of the lines of a header (C113). *)
From Coq Require Import String Arith NArith Bool List.
From Verif Require Import ModelBase ModelUtf8 ModelLine ModelFormula ModelData ModelSource ModelReader
  SpecLine SpecSource SpecReader SpecBlock SpecHeader SpecFile SpecRearranged FileIntro LineFacts AccessFacts RearrangedFacts.
Import ListNotations.
Local Open Scope N_scope.

(** C113 *)
(** Two files whose headers have the same lines in another order (see [rearranged]) and the same
    lines after them, up to line numbers and cuts of strings: the same properties, language and
    items, or the same error. *)
Theorem C113_header_order : forall lib pf Rn evs ls e h r tl u t hls evs' ls' e' h' r' tl' u' t' hls',
  file evs ls e (h ++ r) tl -> first_entry h r tl u -> u_message u = MSimple [] t -> text_lines (opt_str t) hls ->
  file evs' ls' e' (h' ++ r') tl' -> first_entry h' r' tl' u' -> u_message u' = MSimple [] t' -> text_lines (opt_str t') hls' ->
  rearranged hls hls' -> resplit Rn r r' -> same_end Rn tl tl' ->
  match read_catalogue lib pf evs, read_catalogue lib pf evs' with
  | Ok c, Ok c' => (forall k, sm_get k (c_properties c) = sm_get k (c_properties c')) /\ c_language c = c_language c' /\ Forall2 (uitem_sim Rn eq) (c_items c) (c_items c')
  | Err x, Err x' => x = x'
  | _, _ => False
  end.
Proof. exact header_rearranged. Qed.
Print Assumptions C113_header_order.
(** Another order, a line without colon, other blanks; and lines with the same name, whose order does matter. *)
Definition rearranged_sample (t : string) : list string :=
  ["msgid """""; "msgstr """ ++ t ++ """"; "msgid ""a"""; "msgid_plural ""as"""; "msgstr[0] ""b"""]%string.
Example C113_example :
  let cat t := match read_catalogue demo_lib demo_pf (lf_stream (rearranged_sample t)) with Ok c => Some c | _ => None end in
  let data t := match cat t with Some c => Some (c_language c, map (fun k => sm_get (lit k) (c_properties c)) ["Language"; "Plural-Forms"; "X"]%string, c_items c) | None => None end in
  data "Language: fr\nX: a\nPlural-Forms: nplurals=1; plural=0;\nX: b\n"%string = data "X: a\n  Plural-Forms :nplurals=1; plural=0;\nnothing\nX: b\nLanguage:fr\n"%string
  /\ data "Language: fr\nX: a\nPlural-Forms: nplurals=1; plural=0;\nX: b\n"%string <> None
  /\ data "Language: fr\nX: a\nPlural-Forms: nplurals=1; plural=0;\nX: b\n"%string <> data "Language: fr\nX: b\nPlural-Forms: nplurals=1; plural=0;\nX: a\n"%string.
Proof. vm_compute. split; [reflexivity|]. split; discriminate. Qed.
(** The relation of the lines. *)
Example C113_lines : rearranged [lit "X: a"; lit "Y: b"; lit "Z"; []] [lit "Y :b"; lit "X: a"; []]
  /\ text_lines (lit "X: a" ++ [10] ++ lit "Y: b" ++ [10] ++ lit "Z" ++ [10]) [lit "X: a"; lit "Y: b"; lit "Z"; []].
Proof.
  assert (forall s k v, valued s k v -> forall k', named s k' -> k' = k) as U.
  { intros s k v V k' (v' & V'). apply valued_pair in V, V'. congruence. }
  assert (valued (lit "X: a") (lit "X") (lit "a")) as X by (apply valued_pair; vm_compute; reflexivity).
  assert (valued (lit "Y: b") (lit "Y") (lit "b")) as Y by (apply valued_pair; vm_compute; reflexivity).
  assert (valued (lit "Y :b") (lit "Y") (lit "b")) as Y' by (apply valued_pair; vm_compute; reflexivity).
  split.
  - apply (ra_steps _ [lit "X: a"; lit "Y: b"; []]); [apply (ra_nameless [lit "X: a"; lit "Y: b"]); cbn; intuition discriminate|].
    apply (ra_steps _ [lit "Y: b"; lit "X: a"; []]); [apply (ra_swap []); intros k K K'; apply (U _ _ _ X) in K; apply (U _ _ _ Y) in K'; subst; discriminate|].
    apply (ra_blanks [] _ _ (lit "Y") (lit "b")); assumption.
  - split; [discriminate|]. split; [reflexivity|]. intros l I. assert (forallb line_okb [lit "X: a"; lit "Y: b"; lit "Z"; []] = true) as O by reflexivity.
    apply line_okb_text. rewrite forallb_forall in O. apply O, I.
Qed.
