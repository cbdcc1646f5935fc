(** Streams that go on after a report of their end, read as one file. *)
From Coq Require Import String Arith NArith ZArith Bool List.
From Verif Require Import ModelBase ModelUtf8 ModelLine ModelData ModelSource SpecSource SpecReader SpecFile.
Import ListNotations.
Local Open Scope N_scope.

(** The pieces of a stream one after the other; a last line of a piece that has no line end
    gets one. *)
Inductive stitched : list (list byte) -> list byte -> Prop :=
| st_last b : stitched [b] b
| st_whole b bs t : terminated b -> stitched bs t -> stitched (b :: bs) (b ++ t)
| st_open b bs t : ~ terminated b -> stitched bs t -> stitched (b :: bs) (b ++ [13; 10] ++ t).

(** A line that does not continue a string. *)
Definition afresh (l : po_line) : Prop := match l with PComment _ _ _ | PMessage _ _ _ _ => True | _ => False end.
(** What comes after each report of the end: further reports only, or at once a comment or a
    keyword line. *)
Definition resumes_afresh (rs : lines) : Prop := forall a b, rs = a ++ None :: b ->
  (forall i, In i b -> i = None) \/ exists l r, b = Some (ILine l) :: r /\ afresh l.
(** No line at all, or a comment as the last one. *)
Definition ends_in_comment (pl : list po_line) : Prop := pl = [] \/ exists pl' n k s, pl = pl' ++ [PComment n k s].
