(** What debug texts are, exactly: escapes, and the fields under their names (C106, C109). *)
From Coq Require Import String Arith NArith ZArith Bool List.
From Verif Require Import ModelBase ModelUtf8 ModelLine ModelFormula ModelData ModelDebug ModelPretty SpecBlock SpecPretty SpecEscape SpecFields EscapeFacts FieldsFacts.
Import ListNotations.
Local Open Scope N_scope.

(** C106: the texts of strings and of characters are those of the documentation of [escape_debug], and no others. *)
Theorem C106_strings : forall shown s t, debug_str shown s = t <-> quoted_text shown s t.
Proof. exact strings_exact. Qed.
Print Assumptions C106_strings.
Theorem C106_chars : forall shown c t, debug_char shown c = t <-> exists x, escape_text shown 39 c x /\ t = [39] ++ x ++ [39].
Proof. exact char_exact. Qed.
Print Assumptions C106_chars.
Example C106_strings_example : quoted_text (fun c => c <? 127) [7; 9; 34; 39; 233; 65534] (lit """" ++ [7] ++ lit "\t\""'\u{e9}\u{fffe}""")
  /\ hexadecimal 1114111 (lit "10ffff") /\ ~ hexadecimal 233 (lit "E9") /\ ~ hexadecimal 9 (lit "09").
Proof.
  split; [|split; [|split]].
  - apply strings_exact. reflexivity.
  - exact (hexadecimal_hex 1114111).
  - intros H. discriminate (hexadecimal_det _ _ H _ (hexadecimal_hex 233)).
  - intros H. discriminate (hexadecimal_det _ _ H _ (hexadecimal_hex 9)).
Qed.
(** C106, C109: the texts of a unit on one line and on several lines show its fields, in order and under their names. *)
Theorem C106_fields : forall shown text letter number, notation_ok shown text letter number -> forall fs u,
  debug_unit shown fs u = flat_text (unit_data text letter number fs u) /\ pretty_unit shown fs u = lined_text 0 (unit_data text letter number fs u).
Proof. exact fields_shown. Qed.
Print Assumptions C106_fields.
Theorem C106_fields_parts : forall shown text letter number, notation_ok shown text letter number ->
  (forall m, debug_message shown m = flat_text (message_data text number m) /\ pretty_message shown m = lined_text 0 (message_data text number m))
  /\ (forall p, debug_plural shown p = flat_text (plural_data text number p) /\ pretty_plural shown p = lined_text 0 (plural_data text number p))
  /\ (forall p, debug_forms shown p = flat_text (forms_data text number p) /\ pretty_forms shown p = lined_text 0 (forms_data text number p))
  /\ (forall e, debug_node e = flat_text (node_data number e) /\ pretty_node e = lined_text 0 (node_data number e))
  /\ (forall n, debug_note shown n = flat_text (note_data text n) /\ pretty_note shown n = lined_text 0 (note_data text n))
  /\ (forall c, debug_comment shown c = flat_text (comment_data text letter c) /\ pretty_comment shown c = lined_text 0 (comment_data text letter c))
  /\ (forall l, debug_line shown l = flat_text (line_data text letter number l) /\ pretty_line shown l = lined_text 0 (line_data text letter number l)).
Proof. exact parts_shown. Qed.
Print Assumptions C106_fields_parts.
(** There is such a notation. *)
Example C106_fields_example : let shown c := (32 <=? c) && (c <? 127) in
  (exists text letter number, notation_ok shown text letter number /\ text (lit "a""b") = lit """a\""b""" /\ letter 39 = lit "'\''" /\ number 120 = lit "120")
  /\ flat_text (node_data (fun _ => lit "7") (NUn UNot (NNum (-7)))) = lit "UnOp { op: Not, rhs: Num(-7) }".
Proof.
  split; [|reflexivity]. exists (debug_str (fun c => (32 <=? c) && (c <? 127))), (debug_char (fun c => (32 <=? c) && (c <? 127))), dec_str.
  split; [apply notation_model|]. split; [reflexivity|]. split; reflexivity.
Qed.
