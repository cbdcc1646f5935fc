(** Streams that never end. *)
From Coq Require Import Arith NArith Bool List.
From Verif Require Import ModelBase ModelUtf8 ModelLine ModelFormula ModelData ModelSource ModelReader ModelLazy SpecLine SpecSource SpecReader SpecBlock SpecHeader SpecFile SpecLazy.
Import ListNotations.

(** The results of all reads that will ever be asked for, in order; the first [m] of them. *)
Definition endless : Type := nat -> rd_event.
Definition first_reads (src : endless) (m : nat) : list rd_event := map src (seq 0 m).
(** Reads that give the bytes [bs], with any chunks and interruptions, and neither the end nor a failure. *)
Inductive flowing : list rd_event -> list byte -> Prop :=
| fl_none : flowing [] []
| fl_interrupted evs bs : flowing evs bs -> flowing (RdInterrupted :: evs) bs
| fl_data d evs bs : d <> [] -> flowing evs bs -> flowing (RdData d :: evs) (d ++ bs).
(** The number of lines that are ended by a line feed. *)
Definition full_lines (bs : list byte) : nat := count_occ N.eq_dec bs 10%N.

(** After finitely many reads from [src] the file is accepted and [k] calls of [next] have returned
    [xs]: this is what happens, without a further read, whatever comes afterwards. *)
Definition obtained (lib : lang_lib) (pf : platform) (src : endless) (k : nat) (xs : list (safe (option uitem))) : Prop :=
  exists m, forall rest, exists rd x, lz_parse lib pf (first_reads src m ++ rest) = Ok rd /\ fst (lz_calls k rd) = xs
    /\ unread (snd (lz_calls k rd)) = Some (x ++ rest).

(** A complete keyword line: one with a keyword, ended by a line feed. *)
Definition keyword_line (full : nat) (l : po_line) : bool :=
  match l with PMessage n _ _ _ => (N.to_nat n <=? full)%nat | _ => false end.
(** Keyword lines keep coming: for every number, some reads later there are so many of them. *)
Definition keeps_coming (src : endless) : Prop := forall j, exists m bs ls e pl tl, j <= m /\
  flowing (first_reads src m) bs /\ file (first_reads src m) ls e pl tl /\ j <= length (filter (keyword_line (full_lines bs)) pl).
(** After finitely many reads from [src] the file is refused with the error [e], whatever comes afterwards. *)
Definition refused (lib : lang_lib) (pf : platform) (src : endless) (e : error) : Prop :=
  exists m, forall rest, lz_parse lib pf (first_reads src m ++ rest) = Err e.
(** Nothing but comments comes: after no number of reads there is a keyword line, the beginning of one, or an error. *)
Definition only_comments (src : endless) : Prop := forall m, exists bs ls pl,
  flowing (first_reads src m) bs /\ file (first_reads src m) ls None pl None /\ Forall (fun l => exists n k s, l = PComment n k s) pl.
