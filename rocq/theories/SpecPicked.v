(** Selections of the entries of a file. *)
From Coq Require Import String Arith NArith Bool List.
From Verif Require Import ModelBase ModelUtf8 ModelLine ModelFormula ModelData ModelSource ModelReader SpecLine SpecSource SpecReader SpecBlock SpecHeader SpecFile.
Import ListNotations.

(** The first entry has no msgid (see C50). *)
Definition idless_start (pl : list po_line) (tl : option error) : Prop :=
  exists h r u, pl = h ++ r /\ headless None h u /\ headless_ends h r tl.
(** [sel] are some of the texts [blks], in any order, perhaps repeated; [vs] are the units with the same numbers. *)
Definition picked (blks : list (list str)) (us : list unit_) (sel : list (list str)) (vs : list unit_) : Prop :=
  exists ks, Forall2 (fun k b => nth_error blks k = Some b) ks sel /\ Forall2 (fun k v => nth_error us k = Some v) ks vs.
(** The same header data. *)
Definition same_head (c c' : catalogue) : Prop :=
  c_notes c = c_notes c' /\ c_comments c = c_comments c' /\ (forall k, sm_get k (c_properties c) = sm_get k (c_properties c')) /\ c_language c = c_language c'.
(** The lines [hls] are those of the header, [blks] those of the units: every file made of [hls]
    and a selection of [blks] has exactly the selected units. *)
Definition separable (lib : lang_lib) (pf : platform) (c : catalogue) (hls : list str) (blks : list (list str)) : Prop :=
  length blks = length (units (c_items c))
  /\ forall sel vs evs bs, picked blks (units (c_items c)) sel vs -> contents bs None (hls ++ concat sel) None -> delivers evs bs None ->
     exists c', read_catalogue lib pf evs = Ok c' /\ same_head c c' /\ c_items c' = map UOk vs.
