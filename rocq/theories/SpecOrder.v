(** Reading with any order of iteration over hash maps. *)
From Coq Require Import String Arith NArith ZArith Bool List.
From Verif Require Import ModelBase ModelUtf8 ModelLine ModelFormula ModelData ModelSource ModelReader ModelOrder SpecReader.
Import ListNotations.

(** Parse, then iterate up to the first [None], as [read_catalogue]. *)
Definition read_catalogue_o (order : smap (list str) -> list (str * list str)) (lib : lang_lib) (pf : platform) (evs : list rd_event) : outcome catalogue :=
  match reader_new_o order lib pf (responses (li_new evs)) with
  | Ok r =>
      match po_collect (S (S (length (responses (li_new evs))))) r with
      | Some l => Ok (Catalogue (rd_header_notes r) (rd_header_comments r) (rd_header_properties r)
                                (rd_target_language r) l)
      | None => Panic
      end
  | Err e => Err e
  | Panic => Panic
  end.
