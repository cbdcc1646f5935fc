(** The influence of the platform: width of words, overflow checks (C96). *)
From Coq Require Import String Arith NArith ZArith Bool List Lia.
From Verif Require Import ModelBase ModelUtf8 ModelLine ModelFormula ModelData ModelSource ModelReader
  SpecLine SpecFormula SpecSource SpecReader SpecBlock SpecHeader FileIntro FormulaWitness PlatformFacts.
Import ListNotations.
Local Open Scope N_scope.

(** C96: false of the code that a file gives the same result on every platform.
    What is read with narrower words is read in the same way with wider ones; an error stays unless it is about a number too large. *)
Theorem C96_wider_partial : forall lib pf pf' evs, usize_bits pf <= usize_bits pf' ->
  match read_catalogue lib pf evs with
  | Ok c => read_catalogue lib pf' evs = Ok c
  | Err e => read_catalogue lib pf' evs = Err e \/ e = EPluralForms (lit "number too large to fit in target type")
  | Panic => False
  end.
Proof. exact reading_wider. Qed.
Print Assumptions C96_wider_partial.
(** What is read with wider words is read with narrower ones exactly if the number of plural forms fits. *)
Theorem C96_narrower_partial : forall lib pf pf' evs c forms, 8 <= usize_bits pf -> usize_bits pf <= usize_bits pf' ->
  read_catalogue lib pf' evs = Ok c -> forms_shown pf' (c_properties c) forms ->
  (read_catalogue lib pf evs = Ok c <-> forall f, forms = Some f -> pf_count f <= usize_max pf).
Proof. exact reading_exact. Qed.
Print Assumptions C96_narrower_partial.
(** Overflow checks have no influence on reading. *)
Theorem C96_same_width : forall lib pf pf' evs, usize_bits pf = usize_bits pf' -> read_catalogue lib pf evs = read_catalogue lib pf' evs.
Proof. exact reading_same_width. Qed.
Print Assumptions C96_same_width.
(** A text found with overflow checks (or its absence) is found without them. *)
Theorem C96_checks_partial : forall pf pf' m n r, usize_bits pf = usize_bits pf' -> overflow_checks pf' = false ->
  msg_get_plural_text pf m n = Some r -> msg_get_plural_text pf' m n = Some r.
Proof. exact lookup_checks. Qed.
Print Assumptions C96_checks_partial.
(** A text found with wider words is found with narrower ones, *)
Theorem C96_text_partial : forall lib pf pf' evs c u n t, 8 <= usize_bits pf -> usize_bits pf <= usize_bits pf' -> overflow_checks pf = overflow_checks pf' ->
  read_catalogue lib pf evs = Ok c -> In (UOk u) (c_items c) ->
  msg_get_plural_text pf' (u_message u) n = Some (Some t) -> msg_get_plural_text pf (u_message u) n = Some (Some t).
Proof. exact lookup_narrow. Qed.
Print Assumptions C96_text_partial.
(** and the answers are the same if the value of the formula is a word. *)
Theorem C96_same_answer_partial : forall lib pf pf' pf0 evs c u p f n w x, usize_bits pf <= usize_bits pf' -> overflow_checks pf = overflow_checks pf' ->
  read_catalogue lib pf0 evs = Ok c -> In (UOk u) (c_items c) -> u_message u = MPlural p -> pl_forms p = Some f ->
  congruent w (Z.of_N n) -> runs w (pf_formula f) x -> (x < 2 ^ Z.of_N (usize_bits pf))%Z ->
  msg_get_plural_text pf (u_message u) n = msg_get_plural_text pf' (u_message u) n.
Proof. exact lookup_fits. Qed.
Print Assumptions C96_same_answer_partial.
(** A file that is read on 64 bits and refused on 32, *)
Theorem C96_reading_refuted : exists evs, (exists c u, read_catalogue demo_lib release64 evs = Ok c /\ c_items c = [UOk u])
  /\ exists x, read_catalogue demo_lib release32 evs = Err x.
Proof. exact reading_refuted. Qed.
Print Assumptions C96_reading_refuted.
(** a text that is found on 32 bits only, *)
Theorem C96_text_refuted : exists evs c u t, read_catalogue demo_lib release32 evs = Ok c /\ read_catalogue demo_lib release64 evs = Ok c /\ c_items c = [UOk u]
  /\ msg_get_plural_text release32 (u_message u) 1 = Some (Some t) /\ msg_get_plural_text release64 (u_message u) 1 = Some None.
Proof. exact lookup_refuted. Qed.
Print Assumptions C96_text_refuted.
(** and a text that is found without overflow checks only: with them the program panics. *)
Theorem C96_checks_refuted : exists evs c u t, read_catalogue demo_lib debug64 evs = Ok c /\ read_catalogue demo_lib release64 evs = Ok c /\ c_items c = [UOk u]
  /\ msg_get_plural_text debug64 (u_message u) 1 = None /\ msg_get_plural_text release64 (u_message u) 1 = Some (Some t).
Proof. exact checks_refuted. Qed.
Print Assumptions C96_checks_refuted.
Example C96_example : match read_catalogue demo_lib release64 (lf_stream large_lines) with
  | Ok c => map (fun i => match i with UOk u => map (fun pf => msg_get_plural_text pf (u_message u) 0) [Platform 16 false; release32; release64; Platform 128 true] | UErr _ => [] end) (c_items c)
  | _ => [] end = [[Some (Some (lit "x")); Some (Some (lit "x")); Some None; Some None]].
Proof. vm_compute. reflexivity. Qed.
