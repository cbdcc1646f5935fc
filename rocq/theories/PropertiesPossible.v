(** Property C119: the catalogues that can be read. *)
From Coq Require Import String Arith NArith ZArith Bool List Lia.
From Verif Require Import ModelBase ModelLine ModelFormula ModelData ModelUtf8 ModelSource ModelReader
  SpecLine SpecSource SpecReader SpecBlock SpecHeader SpecAny SpecWriter SpecPossible FlagFacts PossibleFacts PossibleWitness.
Import ListNotations.
Local Open Scope N_scope.

(** C119: whatever is read, header and units are possible ones ... *)
Theorem C119_only : forall lib pf evs c, read_catalogue lib pf evs = Ok c -> possible lib pf c (units (c_items c)).
Proof. exact read_possible. Qed.
Print Assumptions C119_only.
(** ... and all possible ones are read from some file, without error. *)
Theorem C119_all : forall lib pf c us, possible lib pf c us ->
  exists evs bs c', delivers evs bs None /\ read_catalogue lib pf evs = Ok c' /\ same_catalogue c c' /\ c_items c' = map UOk us.
Proof. exact possible_read. Qed.
Print Assumptions C119_all.
(** A catalogue with a property of two pieces, the first of them empty: it is possible, and this is a file of it. *)
Example C119_example : possible demo_lib demo_pf odd_catalogue [] /\ read_catalogue demo_lib demo_pf (str_stream odd_lines) = Ok odd_catalogue.
Proof. exact odd_possible. Qed.
(** A key with a colon, a value with a line break, or plural forms that cannot be used are impossible. *)
Example C119_impossible : (forall lang us, ~ possible demo_lib demo_pf (Catalogue [] [] [(lit "a:", lit "b")] lang []) us)
  /\ (forall lang us, ~ possible demo_lib demo_pf (Catalogue [] [] [(lit "a", lit "b" ++ [10] ++ lit "c")] lang []) us)
  /\ (forall lang us, ~ possible demo_lib demo_pf (Catalogue [] [] [(lit "Plural-Forms", lit "b")] lang []) us).
Proof. exact odd_impossible. Qed.
