(** Possible and impossible catalogues (C119). *)
From Coq Require Import String Arith NArith ZArith Bool List Lia.
From Verif Require Import ModelBase ModelLine ModelFormula ModelData ModelUtf8 ModelSource ModelReader
  SpecLine SpecSource SpecReader SpecBlock SpecHeader SpecAny SpecWriter SpecPossible FlagFacts HeaderFacts MapFacts PossibleFacts.
Import ListNotations.
Local Open Scope N_scope.

Definition odd_lines : list str := [lit "# n"; lit "msgid """""; lit "msgstr ""a:\na: b\nLanguage: de\n"""].
Definition odd_catalogue : catalogue := Catalogue [Note Translator (lit "n")] [] [(lit "a", lit " b"); (lit "Language", lit "de")] (lit "de") [].
Lemma odd_read : read_catalogue demo_lib demo_pf (str_stream odd_lines) = Ok odd_catalogue.
Proof. vm_compute. reflexivity. Qed.
Theorem odd_possible : possible demo_lib demo_pf odd_catalogue [] /\ read_catalogue demo_lib demo_pf (str_stream odd_lines) = Ok odd_catalogue.
Proof. split; [exact (read_possible _ _ _ _ odd_read)|exact odd_read]. Qed.
Theorem odd_impossible : (forall lang us, ~ possible demo_lib demo_pf (Catalogue [] [] [(lit "a:", lit "b")] lang []) us)
  /\ (forall lang us, ~ possible demo_lib demo_pf (Catalogue [] [] [(lit "a", lit "b" ++ [10] ++ lit "c")] lang []) us)
  /\ (forall lang us, ~ possible demo_lib demo_pf (Catalogue [] [] [(lit "Plural-Forms", lit "b")] lang []) us).
Proof.
  split; [|split]; intros lang us [_ _ _ HP _ (forms & HF & _)].
  - destruct (HP _ _ (or_introl eq_refl)) as ((_ & (_ & N) & _) & _). apply N. cbn. auto.
  - destruct (HP _ _ (or_introl eq_refl)) as ((_ & _ & vs & _ & E & V) & _). assert (In 10 (separated 32 vs)) as I by (rewrite <- E; cbn; auto). clear - I V.
    induction V as [|x [|y vs] ((_ & _) & O) V IH]; [destruct I|exact (O I)|]. change (In 10 (x ++ 32 :: separated 32 (y :: vs))) in I. apply in_app_or in I as [I|[I|I]]; [exact (O I)|discriminate I|exact (IH I)].
  - cbn [c_properties] in HF. inversion HF as [E|E|def f E N F E']; subst; try discriminate E. injection E as <-. apply forms_parse_iff in F; [|intros I; cbn in I; intuition discriminate]. discriminate F.
Qed.
