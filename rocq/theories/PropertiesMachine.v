(** Limits of the machine (C57, C58, C65). *)
From Coq Require Import String Arith NArith ZArith Bool List Lia.
From Verif Require Import ModelBase ModelUtf8 ModelLine ModelFormula ModelData ModelSource ModelReader ModelMachine
  SpecLine SpecFormula SpecSource SpecReader SpecBlock SpecHeader SpecFile SpecMachine FormulaWitness MachineFacts.
Import ListNotations.
Local Open Scope N_scope.

(** C57 *)
(** With the counter of the machine the line iterator gives the same results as with an
    unbounded counter, call by call and without panic ... *)
Theorem C57_counter_exact : forall pf evs bs f ls e k, delivers evs bs f -> contents bs f ls e ->
  N.of_nat (length ls) + 1 < 2 ^ usize_bits pf ->
  machine_poll pf k (li_new evs) = Val (nth k (responses (li_new evs)) None).
Proof. exact counter_exact. Qed.
Print Assumptions C57_counter_exact.
(** ... and so for streams that deliver data after an end of file. *)
Theorem C57_counter_exact_any_stream : forall pf evs k, N.of_nat (events_size evs) + 1 < 2 ^ usize_bits pf ->
  machine_poll pf k (li_new evs) = Val (nth k (responses (li_new evs)) None).
Proof. exact counter_exact_any. Qed.
Print Assumptions C57_counter_exact_any_stream.
(** Without the bound: blank lines enough make the reading panic, or give the next line
    the number 0. *)
Theorem C57_unbounded_refuted : forall pf, 0 < usize_bits pf ->
  exists evs bs ls s, delivers evs bs None /\ contents bs None (ls ++ s) None /\ Forall blanks ls /\
    if overflow_checks pf then machine_poll pf 0 (li_new evs) = Crash
    else exists k x, machine_poll pf 0 (li_new evs) = Val (Some (ILine (PComment 0 k x))).
Proof. exact counter_unbounded. Qed.
Print Assumptions C57_unbounded_refuted.
Example C57_example :
  let p pf := map (fun k => machine_poll pf k (li_new (demo_stream (LFs ++ "#" ++ LFs ++ "#")))) [0; 1; 2]%nat in
  p (Platform 64 true) = [Val (Some (ILine (PComment 2 32 []))); Val (Some (ILine (PComment 3 32 []))); Val None]
  /\ p (Platform 2 true) = [Val (Some (ILine (PComment 2 32 []))); Crash; Crash]
  /\ p (Platform 2 false) = [Val (Some (ILine (PComment 2 32 []))); Val (Some (ILine (PComment 3 32 []))); Val None]
  /\ p (Platform 1 false) = [Val (Some (ILine (PComment 0 32 []))); Val (Some (ILine (PComment 1 32 []))); Val None].
Proof. vm_compute. repeat split; reflexivity. Qed.

(** C58 *)
(** A stack with room for as many nested calls as the formula has characters (and one more)
    is enough, whatever the count. *)
Theorem C58_room_of_text : forall s e checks n, formula_parse s = Some e ->
  stack_execute (S (length s)) checks e n = unlimited (execute checks e n).
Proof. exact room_of_text. Qed.
Print Assumptions C58_room_of_text.
Theorem C58_room_of_tree : forall checks e n room, (height e <= room)%nat -> stack_execute room checks e n = unlimited (execute checks e n).
Proof. exact stack_execute_enough. Qed.
Print Assumptions C58_room_of_tree.
(** No fixed room is enough: some catalogue is read without error, but every look-up of its
    only unit exhausts the stack. *)
Theorem C58_fixed_room_refuted : forall lib pf room, 2 < 2 ^ usize_bits pf ->
  exists evs bs c v p f, delivers evs bs None /\ read_catalogue lib pf evs = Ok c /\ c_items c = [UOk v] /\ u_message v = MPlural p /\ pl_forms p = Some f
    /\ length (pl_values p) = 2%nat /\ length (pf_source f) = (2 * room + 1)%nat
    /\ forall n, stack_execute room (overflow_checks pf) (pf_formula f) n = SOverflow.
Proof. exact stack_overflow. Qed.
Print Assumptions C58_fixed_room_refuted.
Example C58_example :
  let f s := match formula_parse (lit s) with Some e => map (fun room => stack_execute room false e 5) [1; 2; 3; 4]%nat | None => [] end in
  (f "n+n+n" = [SOverflow; SOverflow; SValue 15; SValue 15] /\ f "n*2+1" = [SOverflow; SOverflow; SValue 11; SValue 11]
   /\ f "0 && n+n+n" = [SOverflow; SValue 0; SValue 0; SValue 0] /\ f "n ? 1 : n+n" = [SOverflow; SValue 1; SValue 1; SValue 1])%string%Z.
Proof. vm_compute. repeat split; reflexivity. Qed.

(** C65 *)
(** The stack needed for discarding the formula that was read, and for copying it, is the
    height of its tree: more does not overflow, less does. *)
Theorem C65_discard_exact : forall e room, stack_drop room e = true <-> (height e <= room)%nat.
Proof. exact stack_drop_exact. Qed.
Print Assumptions C65_discard_exact.
Theorem C65_copy_exact : forall e room e', stack_clone room e = Some e' <-> e' = e /\ (height e <= room)%nat.
Proof. exact stack_clone_exact. Qed.
Print Assumptions C65_copy_exact.
(** So room for as many nested calls as the formula has characters, and one more, is enough. *)
Theorem C65_room_of_text : forall s e room, formula_parse s = Some e -> (length s < room)%nat ->
  stack_drop room e = true /\ stack_clone room e = Some e.
Proof. exact discard_room_of_text. Qed.
Print Assumptions C65_room_of_text.
(** No fixed room is enough: some catalogue is read without error, and then overflows the stack
    when it is discarded or when its plural forms are copied, though no text was ever looked up. *)
Theorem C65_fixed_room_refuted : forall lib pf room, 2 < 2 ^ usize_bits pf ->
  exists evs bs c v p f, delivers evs bs None /\ read_catalogue lib pf evs = Ok c /\ c_items c = [UOk v] /\ u_message v = MPlural p /\ pl_forms p = Some f
    /\ length (pf_source f) = (2 * room + 1)%nat /\ stack_drop room (pf_formula f) = false /\ stack_clone room (pf_formula f) = None.
Proof. exact discard_overflow. Qed.
Print Assumptions C65_fixed_room_refuted.
(** The refusal of a definition with a bad count discards the formula: that too overflows for
    some definition of each size ... *)
Theorem C65_refusal_refuted : forall pf room, exists def, length def = (2 * room + 20)%nat
  /\ plural_forms_parse pf def = Err (EPluralForms (lit "cannot parse integer from empty string")) /\ stack_forms_parse room pf def = None.
Proof. exact refusal_overflow. Qed.
Print Assumptions C65_refusal_refuted.
(** ... but a definition is lost in this way only if it is refused anyway, and its formula is
    higher than the room. *)
Theorem C65_refusal_only : forall room pf def, stack_forms_parse room pf def = None ->
  exists m e x, parse_map def = Some m /\ formula_parse (unwrap_or_default (sm_get (lit "plural") m)) = Some e /\ (room < height e)%nat
    /\ plural_forms_parse pf def = Err (EPluralForms x).
Proof. exact stack_parse_overflow. Qed.
Print Assumptions C65_refusal_only.
Theorem C65_same_answer : forall room pf def o, stack_forms_parse room pf def = Some o -> o = plural_forms_parse pf def.
Proof. exact stack_parse_sound. Qed.
Print Assumptions C65_same_answer.
Example C65_example :
  let f s := match formula_parse (lit s) with Some e => map (fun room => (stack_drop room e, stack_clone room e)) [1; 2; 3]%nat | None => [] end in
  (f "n" = [(true, Some NVar); (true, Some NVar); (true, Some NVar)]
   /\ f "!n" = [(false, None); (true, Some (NUn UNot NVar)); (true, Some (NUn UNot NVar))]
   /\ f "0 && n+n" = [(false, None); (false, None); (true, Some (NBin BAnd (NNum 0) (NBin BAdd NVar NVar)))]
   /\ f "n ? 1 : n+n" = [(false, None); (false, None); (true, Some (NCond NVar (NNum 1) (NBin BAdd NVar NVar)))]
   /\ map (fun room => stack_forms_parse room demo_pf (lit "nplurals=x; plural=n+1;")) [1; 2]%nat
      = [None; Some (Err (EPluralForms (lit "invalid digit found in string")))]
   /\ stack_forms_parse 0 demo_pf (lit "nplurals=2; plural=n+1;") <> None)%string.
Proof. vm_compute. repeat split; try reflexivity. discriminate. Qed.
