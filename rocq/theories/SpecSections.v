(** The parts of an entry, as text. *)
From Coq Require Import String Arith NArith Bool List.
From Verif Require Import ModelBase ModelLine ModelData SpecLine SpecSource SpecBlock.
Import ListNotations.
Local Open Scope N_scope.

(** Comments (and blank lines): flags, notes, locations, other comments. *)
Definition comment_part (ls : list str) (F : list str) (N : list note) (L : list str) (C : list comment) : Prop :=
  exists b, parsed 1 ls None b None /\ block_comments b F N L C.
(** The previous context and message. *)
Definition previous_part (forms : option plural_forms) (obs : bool) (ls : list str) (pc : option str) (pm : message) : Prop :=
  exists b b', parsed 1 ls None (b ++ b') None /\ opt_field (prev obs) (lit "msgctxt") b pc /\ previous forms obs b' pm.
(** The context. *)
Definition context_part (obs : bool) (ls : list str) (c : option str) : Prop :=
  exists b, parsed 1 ls None b None /\ opt_field (own obs) (lit "msgctxt") b c.
(** The message: its identifiers and translations. *)
Definition message_part (forms : option plural_forms) (obs : bool) (ls : list str) (m : message) : Prop :=
  exists b, parsed 1 ls None b None /\ body forms obs b m.
(** One string, with its keyword. *)
Definition string_part (obs : bool) (kw : str) (ls : list str) (s : str) : Prop :=
  exists b, parsed 1 ls None b None /\ field (own obs) kw b s.

(** An entry is made of these four parts; each determines its own part of the unit, the state
    depends on the flags and the translations. *)
Inductive sections (forms : option plural_forms) : list str -> unit_ -> Prop :=
| sc_intro A P X M F N L C obs pc pm c m st : comment_part A F N L C -> previous_part forms obs P pc pm ->
    context_part obs X c -> message_part forms obs M m -> state_of F m st -> has_source (Unit c m pc pm (distinct F) N L C st obs) ->
    sections forms (A ++ P ++ X ++ M) (Unit c m pc pm (distinct F) N L C st obs).

(** A unit with further comments: after those in front of the place where they are added. *)
Definition commented_unit (u : unit_) (F : list str) (N : list note) (L : list str) (C : list comment) (u' : unit_) : Prop :=
  u_context u' = u_context u /\ u_message u' = u_message u /\ u_prev_context u' = u_prev_context u /\ u_prev_message u' = u_prev_message u
  /\ (forall f, In f (u_flags u') <-> In f (u_flags u) \/ In f F)
  /\ (exists a b, u_notes u = a ++ b /\ u_notes u' = a ++ N ++ b)
  /\ (exists a b, u_locations u = a ++ b /\ u_locations u' = a ++ L ++ b)
  /\ (exists a b, u_comments u = a ++ b /\ u_comments u' = a ++ C ++ b)
  /\ (In (lit "fuzzy") F -> u_state u' = StNeedsWork) /\ (~ In (lit "fuzzy") F -> u_state u' = u_state u)
  /\ u_obsolete u' = u_obsolete u.
(** A unit with another message. *)
Definition reworded (u : unit_) (m : message) (st : state) : unit_ :=
  Unit (u_context u) m (u_prev_context u) (u_prev_message u) (u_flags u) (u_notes u) (u_locations u) (u_comments u) st (u_obsolete u).
