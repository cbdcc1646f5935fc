(** Files without their comment lines. *)
From Coq Require Import String Arith NArith Bool List.
From Verif Require Import ModelBase ModelLine ModelFormula ModelData ModelSource ModelReader SpecLine SpecReader SpecBlock SpecHeader SpecFile.
Import ListNotations.

(** The same line, perhaps with another number. *)
Inductive same_text : po_line -> po_line -> Prop :=
| sx_message n n' p t s : same_text (PMessage n p t s) (PMessage n' p t s)
| sx_cont n n' p s : same_text (PCont n p s) (PCont n' p s).
Definition no_comment (l : po_line) : bool := match l with PComment _ _ _ => false | _ => true end.
(** [pl'] are the lines [pl] without the comments. *)
Definition bare (pl pl' : list po_line) : Prop := Forall2 same_text (filter no_comment pl) pl'.
(** The same unit but for what comments give. *)
Definition uncommented (u u' : unit_) : Prop :=
  u_context u' = u_context u /\ u_message u' = u_message u /\ u_prev_context u' = u_prev_context u /\ u_prev_message u' = u_prev_message u
  /\ u_obsolete u' = u_obsolete u /\ u_flags u' = [] /\ u_notes u' = [] /\ u_locations u' = [] /\ u_comments u' = []
  /\ u_state u' <> StNeedsWork /\ (u_state u <> StNeedsWork -> u_state u' = u_state u).
(** The first entry of the file has a msgid line, or there is none. *)
Definition first_has_id (pl : list po_line) : Prop := forall h r u, pl = h ++ r -> headless None h u -> ~ headless_ends h r None.
(** Units that differ at most in what comments give. *)
Definition same_but_comments (u v : unit_) : Prop :=
  u_context u = u_context v /\ u_message u = u_message v /\ u_prev_context u = u_prev_context v /\ u_prev_message u = u_prev_message v
  /\ u_obsolete u = u_obsolete v /\ (u_state u <> StNeedsWork -> u_state v <> StNeedsWork -> u_state u = u_state v).
