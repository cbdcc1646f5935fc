(** Properties C74 to C76: order of hash maps, strings compared with GNU gettext. *)
From Coq Require Import String Arith NArith ZArith Bool List Permutation.
From Verif Require Import ModelBase ModelUtf8 ModelLine ModelFormula ModelData ModelSource ModelReader ModelOrder
  SpecLine SpecFormula SpecSource SpecReader SpecOrder SpecGettext OrderThms GettextFacts.
Import ListNotations.
Local Open Scope N_scope.

(** C74 *)
Theorem C74_hash_order : forall order lib pf evs, (forall m, Permutation m (order m)) ->
  match read_catalogue lib pf evs with
  | Ok c => exists ps, (forall k, sm_get k ps = sm_get k (c_properties c))
      /\ read_catalogue_o order lib pf evs = Ok (Catalogue (c_notes c) (c_comments c) ps (c_language c) (c_items c))
  | Err e => read_catalogue_o order lib pf evs = Err e
  | Panic => False
  end.
Proof. exact order_irrelevant. Qed.
Print Assumptions C74_hash_order.
(** The order matters for the list of properties, so the theorem is about different runs. *)
Example C74_example :
  let file := demo_stream ("msgid """"" ++ LFs ++ "msgstr ""A: 1\nB: 2\nA: 3""") in
  (forall m : smap (list str), Permutation m (rev m))
  /\ option_map c_properties (match read_catalogue demo_lib demo_pf file with Ok c => Some c | _ => None end)
     = Some [(lit "A", lit "1 3"); (lit "B", lit "2")]
  /\ option_map c_properties (match read_catalogue_o (fun m => rev m) demo_lib demo_pf file with Ok c => Some c | _ => None end)
     = Some [(lit "B", lit "2"); (lit "A", lit "1 3")].
Proof. split; [intros m; apply Permutation_rev|]. split; vm_compute; reflexivity. Qed.

(** C75 *)
(** The value of a string is that of gettext exactly if only the escapes n, t, r, quote, backslash are used. *)
Theorem C75_escapes : forall s t, gettext_means s t -> (unescape s = t <-> common_escapes s).
Proof. exact escapes_agree. Qed.
Print Assumptions C75_escapes.
Theorem C75_escapes_refuted : ~ (forall s t, gettext_means s t -> unescape s = t).
Proof. exact escapes_refuted. Qed.
Print Assumptions C75_escapes_refuted.
Example C75_example : gettext_means (lit "a\tb\""\\n\101") (lit "a" ++ [9] ++ lit "b""\nA") /\ ~ common_escapes (lit "\101")
  /\ unescape (lit "a\tb\""\\n\101") = lit "a" ++ [9] ++ lit "b""\n\101".
Proof.
  split; [|split; [|vm_compute; reflexivity]].
  - apply gm_char; [discriminate|discriminate|]. apply gm_named; [cbn; auto 10|]. apply gm_char; [discriminate|discriminate|].
    apply gm_named; [cbn; auto 10|]. apply gm_named; [cbn; auto 10|]. apply gm_char; [discriminate|discriminate|].
    apply (gm_octal (lit "101") [] []); [cbn; auto|repeat constructor; discriminate|left; reflexivity|reflexivity|constructor].
  - intros H. inversion H as [|c s N|c s I]; subst; [congruence|]. cbn in I. intuition discriminate.
Qed.

(** C76 *)
(** A keyword line with one or more strings is accepted; its text is the concatenation of their values exactly if there is one. *)
Theorem C76_strings_on_a_line : forall kw s bs n, keyword kw -> one_line (kw ++ s) -> bs <> [] -> strings_of s bs ->
  exists text, parse_line (kw ++ s) n = Some (PMessage n [] kw text) /\ (text = concat (map unescape bs) <-> length bs = 1%nat).
Proof. exact strings_on_a_line. Qed.
Print Assumptions C76_strings_on_a_line.
Theorem C76_concatenation_refuted : ~ (forall kw s bs n, keyword kw -> one_line (kw ++ s) -> bs <> [] -> strings_of s bs ->
  parse_line (kw ++ s) n = Some (PMessage n [] kw (concat (map unescape bs)))).
Proof. exact concatenation_refuted. Qed.
Print Assumptions C76_concatenation_refuted.
(** Lines are accepted although what follows the keyword is no sequence of strings: with a quote inside, *)
Theorem C76_only_strings_refuted :
  ~ (forall kw s n text, one_line (kw ++ s) -> parse_line (kw ++ s) n = Some (PMessage n [] kw text) -> exists bs, strings_of s bs).
Proof. exact only_strings_refuted. Qed.
Print Assumptions C76_only_strings_refuted.
(** or with a closing quote that is escaped. *)
Theorem C76_escaped_end_refuted :
  ~ (forall kw b n text, one_line (kw ++ b) -> parse_line (kw ++ lit " """ ++ b ++ [92; 34]) n = Some (PMessage n [] kw text) -> False).
Proof. exact escaped_end_refuted. Qed.
Print Assumptions C76_escaped_end_refuted.
Example C76_example : parse_line (lit "msgid ""a"" ""b""") 1 = Some (PMessage 1 [] (lit "msgid") (lit "a"" ""b"))
  /\ strings_of (lit " ""a"" ""b""") [lit "a"; lit "b"] /\ parse_line (lit "msgid ""a""b""") 1 = Some (PMessage 1 [] (lit "msgid") (lit "a""b"))
  /\ parse_line (lit "msgid ""a\""") 1 = Some (PMessage 1 [] (lit "msgid") (lit "a\")).
Proof. split; [vm_compute; reflexivity|]. split; [exact two_strings|]. split; vm_compute; reflexivity. Qed.
