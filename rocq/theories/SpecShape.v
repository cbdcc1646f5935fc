(** Files whose lines have the same shape, and catalogues of the same shape. *)
From Coq Require Import String Arith NArith ZArith Bool List.
From Verif Require Import ModelBase ModelUtf8 ModelLine ModelFormula ModelData ModelSource ModelReader SpecReader.
Import ListNotations.
Local Open Scope N_scope.

(** Two texts, both empty or both not. *)
Definition like_text (s t : str) : Prop := s = [] <-> t = [].
(** Lines with the same number, markers and keyword.  Flags are the same; all other texts may
    differ, but are empty at the same places. *)
Inductive like_line : po_line -> po_line -> Prop :=
| ll_blank : like_line PBlank PBlank
| ll_flags n s : like_line (PComment n 44 s) (PComment n 44 s)
| ll_comment n k s t : k <> 44 -> like_line (PComment n k s) (PComment n k t)
| ll_message n p kw s t : like_text s t -> like_line (PMessage n p kw s) (PMessage n p kw t)
| ll_cont n p s t : like_text s t -> like_line (PCont n p s) (PCont n p t).
(** The same for what the line iterator returns: such lines, the same failures, and the ends
    of the stream at the same places. *)
Inductive like_answer : option item -> option item -> Prop :=
| la_line l m : like_line l m -> like_answer (Some (ILine l)) (Some (ILine m))
| la_fail e : like_answer (Some (IFail e)) (Some (IFail e))
| la_none : like_answer None None.

(** Units that differ in nothing but non-empty texts and in their locations. *)
Inductive like_option : option str -> option str -> Prop :=
| lo_none : like_option None None
| lo_some s t : like_text s t -> like_option (Some s) (Some t).
Inductive like_message : message -> message -> Prop :=
| lm_simple s t x y : like_text s t -> like_option x y -> like_message (MSimple s x) (MSimple t y)
| lm_plural f s t p q vs ws : like_text s t -> like_text p q -> Forall2 like_text vs ws ->
    like_message (MPlural (Plural f s p vs)) (MPlural (Plural f t q ws)).
Record like_unit (u v : unit_) : Prop := LikeUnit {
  lu_context : like_option (u_context u) (u_context v);
  lu_message : like_message (u_message u) (u_message v);
  lu_prev_context : like_option (u_prev_context u) (u_prev_context v);
  lu_prev_message : like_message (u_prev_message u) (u_prev_message v);
  lu_flags : u_flags u = u_flags v;
  lu_notes : map note_origin (u_notes u) = map note_origin (u_notes v);
  lu_comments : map com_kind (u_comments u) = map com_kind (u_comments v);
  lu_state : u_state u = u_state v;
  lu_obsolete : u_obsolete u = u_obsolete v }.
(** Errors are the same. *)
Inductive like_item : uitem -> uitem -> Prop :=
| li_unit u v : like_unit u v -> like_item (UOk u) (UOk v)
| li_error e : like_item (UErr e) (UErr e).
(** The items of two catalogues with the same plural forms; what is shown of their headers, but
    for the properties and the language. *)
Definition like_catalogue (c d : catalogue) : Prop :=
  map note_origin (c_notes c) = map note_origin (c_notes d) /\ map com_kind (c_comments c) = map com_kind (c_comments d)
  /\ (sm_get (lit "Plural-Forms") (c_properties c) = sm_get (lit "Plural-Forms") (c_properties d) -> Forall2 like_item (c_items c) (c_items d)).
