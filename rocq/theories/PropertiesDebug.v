(** The debug texts of units, messages and their parts (C106, C65). *)
From Coq Require Import String Arith NArith ZArith Bool List Lia Permutation.
From Verif Require Import ModelBase ModelUtf8 ModelLine ModelFormula ModelData ModelSource ModelReader ModelMachine ModelDebug SpecMachine SpecLine SpecReader FileIntro DebugFacts DebugThms.
Import ListNotations.
Local Open Scope N_scope.

(** C106: units with the same debug text are the same, up to the order of their flags. *)
Theorem C106_units : forall shown fs gs u v, Permutation fs (u_flags u) -> Permutation gs (u_flags v) -> debug_unit shown fs u = debug_unit shown gs v ->
  Permutation (u_flags u) (u_flags v)
  /\ u = Unit (u_context v) (u_message v) (u_prev_context v) (u_prev_message v) (u_flags u) (u_notes v) (u_locations v) (u_comments v) (u_state v) (u_obsolete v).
Proof. exact units_told_apart. Qed.
Print Assumptions C106_units.
(** The same for the types of its parts (and of the lines of the parser). *)
Theorem C106_parts : forall shown,
  (forall m m', debug_message shown m = debug_message shown m' -> m = m')
  /\ (forall p p', debug_plural shown p = debug_plural shown p' -> p = p')
  /\ (forall f f', debug_forms shown f = debug_forms shown f' -> f = f')
  /\ (forall e e', debug_node e = debug_node e' -> e = e')
  /\ (forall n n', debug_note shown n = debug_note shown n' -> n = n')
  /\ (forall c c', debug_comment shown c = debug_comment shown c' -> c = c')
  /\ (forall s s', debug_state s = debug_state s' -> s = s')
  /\ (forall o o', debug_origin o = debug_origin o' -> o = o')
  /\ (forall l l', debug_line shown l = debug_line shown l' -> l = l').
Proof. exact parts_told_apart. Qed.
Print Assumptions C106_parts.
(** They are one line, whatever is in the strings. *)
Theorem C106_one_line : forall shown fs u, ~ In 10 (debug_unit shown fs u).
Proof. exact oneline_unit. Qed.
Print Assumptions C106_one_line.
Theorem C106_one_line_message : forall shown m, ~ In 10 (debug_message shown m).
Proof. exact oneline_message. Qed.
Print Assumptions C106_one_line_message.
(** Messages that are not equal are shown differently ... *)
Theorem C106_difference : forall shown m m', msg_eqb m m' = false -> debug_message shown m <> debug_message shown m'.
Proof. exact difference_shown. Qed.
Print Assumptions C106_difference.
(** ... but messages that are equal (C44) may be, too. *)
Theorem C106_equal_messages : exists m m', msg_eqb m m' = true /\ forall shown, debug_message shown m <> debug_message shown m'.
Proof. exact equal_shown_differently. Qed.
Print Assumptions C106_equal_messages.
(** C65, for debug texts: they need exactly as much room as the formula is high. *)
Theorem C65_show_exact : forall e room t, stack_debug room e = Some t <-> t = debug_node e /\ (height e <= room)%nat.
Proof. exact stack_debug_exact. Qed.
Print Assumptions C65_show_exact.
Definition ascii_shown (c : char) : bool := (32 <=? c) && (c <? 127).
Example C106_example :
  match read_catalogue demo_lib demo_pf (lf_stream ["#, fuzzy"; "#  a"; "#~x"; "msgctxt ""c"""; "msgid ""a\tb"""; "msgid_plural ""as"""; "msgstr[0] ""\""q'\"""""; "msgstr[1] ""\\"""]%string) with
  | Ok c => map (fun i => match i with UOk u => debug_unit ascii_shown (u_flags u) u | _ => [] end) (c_items c) | _ => [] end
  = [lit "Unit { context: Some(""c""), message: Plural(Plural { forms: None, singular: ""a\tb"", plural: ""as"", values: [""\""q'\"""", ""\\""] }), prev_context: None, prev_message: Simple { id: """", text: None }, flags: {""fuzzy""}, notes: [Note { origin: Translator, value: ""a"" }], locations: [], comments: [Comment { kind: '~', content: ""x"" }], state: NeedsWork, obsolete: false }"]
  /\ debug_node (NCond (NBin BEq NVar (NNum 1)) (NNum 0) (NUn UNeg (NNum (-7)))) = lit "Cond { test: BinOp { op: Eq, lhs: Var, rhs: Num(1) }, if_true: Num(0), if_false: UnOp { op: Neg, rhs: Num(-7) } }"
  /\ debug_str ascii_shown [0; 10; 228; 128512; 39] = lit """\0\n\u{e4}\u{1f600}'""" /\ debug_char ascii_shown 39 = lit "'\''"
  /\ debug_line ascii_shown PBlank = lit "Blank" /\ debug_line ascii_shown (PMessage 10 (lit "~|") (lit "|msgid") (lit "x")) = lit "Message(10, ""~|"", ""|msgid"", ""x"")".
Proof. vm_compute. repeat split. Qed.
