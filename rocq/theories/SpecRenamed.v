(** Renamings of the characters outside ASCII (C118). *)
From Coq Require Import String NArith List.
From Verif Require Import ModelBase ModelLine ModelFormula ModelData ModelReader SpecLine SpecReader.
Import ListNotations.
Local Open Scope N_scope.

(** ASCII characters stay the same, others become others, different ones different ones; white
    space becomes white space, and decimal digits become decimal digits, no others do. *)
Record renaming (f : char -> char) : Prop := {
  rn_ascii : forall c, c < 128 -> f c = c;
  rn_other : forall c, 128 <= c -> 128 <= f c;
  rn_inj : forall c d, f c = f d -> c = d;
  rn_white : forall c, white (f c) <-> white c;
  rn_digit : forall c, decimal_digit (f c) <-> decimal_digit c }.

(** The same data with all texts renamed. *)
Section Renamed.
  Variable f : char -> char.
  Definition ren (s : str) : str := map f s.
  Definition ren_error (e : error) : error :=
    match e with
    | EIo n x => EIo n x
    | EParse n got expected => EParse n (ren got) (ren expected)
    | EUnexpected n m => EUnexpected n (ren m)
    | EPluralForms m => EPluralForms (ren m)
    end.
  (** The formula itself is the same. *)
  Definition ren_forms (p : plural_forms) : plural_forms := PluralForms (pf_formula p) (pf_count p) (ren (pf_definition p)) (ren (pf_source p)).
  Definition ren_plural (p : plural) : plural :=
    Plural (option_map ren_forms (pl_forms p)) (ren (pl_singular p)) (ren (pl_plural p)) (map ren (pl_values p)).
  Definition ren_message (m : message) : message :=
    match m with MSimple id t => MSimple (ren id) (option_map ren t) | MPlural p => MPlural (ren_plural p) end.
  Definition ren_note (n : note) : note := Note (note_origin n) (ren (note_value n)).
  Definition ren_comment (c : comment) : comment := Comment (f (com_kind c)) (ren (com_content c)).
  (** State and obsolete mark are the same. *)
  Definition ren_unit (u : unit_) : unit_ :=
    Unit (option_map ren (u_context u)) (ren_message (u_message u)) (option_map ren (u_prev_context u)) (ren_message (u_prev_message u))
      (map ren (u_flags u)) (map ren_note (u_notes u)) (map ren (u_locations u)) (map ren_comment (u_comments u)) (u_state u) (u_obsolete u).
  Definition ren_uitem (x : uitem) : uitem := match x with UOk u => UOk (ren_unit u) | UErr e => UErr (ren_error e) end.
  (** The language is the same if its name is. *)
  Inductive renamed : outcome catalogue -> outcome catalogue -> Prop :=
  | rd_ok c c' : c_notes c' = map ren_note (c_notes c) -> c_comments c' = map ren_comment (c_comments c) ->
      c_properties c' = map (fun kv => (ren (fst kv), ren (snd kv))) (c_properties c) ->
      (option_map ren (sm_get (lit "Language") (c_properties c)) = sm_get (lit "Language") (c_properties c) -> c_language c' = c_language c) ->
      c_items c' = map ren_uitem (c_items c) -> renamed (Ok c) (Ok c')
  | rd_err e : renamed (Err e) (Err (ren_error e)).
End Renamed.
