(** The meter after reading a whole stream (see ModelMeter.v for what moves it). *)
From Coq Require Import Arith NArith List.
From Verif Require Import ModelBase ModelLine ModelFormula ModelData ModelSource ModelReader ModelMeter SpecReader SpecBlock.
Import ListNotations.

(** Parse, then iterate up to the first [None], as [read_catalogue]. *)
Definition read_metered (w : po_line -> nat) (lib : lang_lib) (pf : platform) (evs : list rd_event) : outcome catalogue * nat :=
  match mt_parse w lib pf evs with
  | (Ok r, c) =>
      match mt_collect w (S (S (length (responses (li_new evs))))) (r, c) with
      | (Some l, c') => (Ok (Catalogue (rd_header_notes r) (rd_header_comments r) (rd_header_properties r)
                                       (rd_target_language r) l), c')
      | (None, c') => (Panic, c')
      end
  | (Err e, c) => (Err e, c)
  | (Panic, c) => (Panic, c)
  end.
