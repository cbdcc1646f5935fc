(** Debug texts on several lines (C109). *)
From Coq Require Import String Arith NArith ZArith Bool List Lia Permutation.
From Verif Require Import ModelBase ModelUtf8 ModelLine ModelFormula ModelData ModelSource ModelReader ModelDebug ModelPretty SpecLine SpecReader SpecPretty FileIntro PrettyThms.
Import ListNotations.
Local Open Scope N_scope.

(** C109: the text of a unit on several lines is that on one line (C106) with another layout. *)
Theorem C109_layout : forall shown fs u, two_texts (debug_unit shown fs u) (pretty_unit shown fs u).
Proof. exact two_unit. Qed.
Print Assumptions C109_layout.
(** The same for the types of its parts (and of the lines of the parser). *)
Theorem C109_layout_parts : forall shown,
  (forall m, two_texts (debug_message shown m) (pretty_message shown m)) /\ (forall p, two_texts (debug_plural shown p) (pretty_plural shown p))
  /\ (forall f, two_texts (debug_forms shown f) (pretty_forms shown f)) /\ (forall e, two_texts (debug_node e) (pretty_node e))
  /\ (forall n, two_texts (debug_note shown n) (pretty_note shown n)) /\ (forall c, two_texts (debug_comment shown c) (pretty_comment shown c))
  /\ (forall l, two_texts (debug_line shown l) (pretty_line shown l)).
Proof. exact two_parts. Qed.
Print Assumptions C109_layout_parts.
(** The layout hides nothing: the text on one line can be found from that on several lines. *)
Theorem C109_unique : forall s s' t, two_texts s t -> two_texts s' t -> s = s'.
Proof. exact two_unique. Qed.
Print Assumptions C109_unique.
(** So units with the same text on several lines are the same, up to the order of their flags. *)
Theorem C109_units : forall shown fs gs u v, Permutation fs (u_flags u) -> Permutation gs (u_flags v) -> pretty_unit shown fs u = pretty_unit shown gs v ->
  Permutation (u_flags u) (u_flags v)
  /\ u = Unit (u_context v) (u_message v) (u_prev_context v) (u_prev_message v) (u_flags u) (u_notes v) (u_locations v) (u_comments v) (u_state v) (u_obsolete v).
Proof. exact units_told_apart_lined. Qed.
Print Assumptions C109_units.
Theorem C109_parts : forall shown,
  (forall m m', pretty_message shown m = pretty_message shown m' -> m = m') /\ (forall p p', pretty_plural shown p = pretty_plural shown p' -> p = p')
  /\ (forall f f', pretty_forms shown f = pretty_forms shown f' -> f = f') /\ (forall e e', pretty_node e = pretty_node e' -> e = e')
  /\ (forall n n', pretty_note shown n = pretty_note shown n' -> n = n') /\ (forall c c', pretty_comment shown c = pretty_comment shown c' -> c = c')
  /\ (forall l l', pretty_line shown l = pretty_line shown l' -> l = l').
Proof. exact parts_told_apart_lined. Qed.
Print Assumptions C109_parts.
(** The number of lines does not depend on the texts in the unit, even if these contain line feeds. *)
Theorem C109_lines : forall shown f fs u, feeds (pretty_unit shown (map f fs) (retext_unit f u)) = feeds (pretty_unit shown fs u).
Proof. exact texts_keep_lines. Qed.
Print Assumptions C109_lines.
Definition joined_lines (ls : list string) : str := match map lit ls with [] => [] | l :: r => l ++ flat_map (fun x => 10 :: x) r end.
Example C109_example : let plain c := (32 <=? c) && (c <? 127) in
  match read_catalogue demo_lib demo_pf (lf_stream ["#, fuzzy"; "#  a"; "msgctxt ""c"""; "msgid ""a\nb"""; "msgid_plural ""as"""; "msgstr[0] ""q"""; "msgstr[1] ""r"""]%string) with
  | Ok c => map (fun i => match i with UOk u => pretty_unit plain (u_flags u) u | _ => [] end) (c_items c) | _ => [] end
  = [joined_lines ["Unit {"; "    context: Some("; "        ""c"","; "    ),"; "    message: Plural("; "        Plural {"; "            forms: None,"; "            singular: ""a\nb"","; "            plural: ""as"",";
       "            values: ["; "                ""q"","; "                ""r"","; "            ],"; "        },"; "    ),"; "    prev_context: None,"; "    prev_message: Simple {"; "        id: """","; "        text: None,"; "    },";
       "    flags: {"; "        ""fuzzy"","; "    },"; "    notes: ["; "        Note {"; "            origin: Translator,"; "            value: ""a"","; "        },"; "    ],"; "    locations: [],"; "    comments: [],"; "    state: NeedsWork,"; "    obsolete: false,"; "}"]%string]
  /\ pretty_node (NBin BNe NVar (NNum (-1))) = joined_lines ["BinOp {"; "    op: Ne,"; "    lhs: Var,"; "    rhs: Num("; "        -1,"; "    ),"; "}"]%string.
Proof. vm_compute. split; reflexivity. Qed.
