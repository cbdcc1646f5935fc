(** A file whose first entry lacks its msgid. *)
From Coq Require Import String Arith NArith ZArith Bool List Lia.
From Verif Require Import ModelBase ModelUtf8 ModelRegex ModelLine ModelFormula ModelData ModelSource ModelReader
  SpecLine SpecFormula SpecSource SpecReader SpecBlock SpecHeader SpecFile SpecWhole BlockFacts CommentFacts UnitFacts SoundFacts BlocksFacts FirstFacts FileFacts BlockThms WholeFacts FileIntro BlockWitness.
Import ListNotations.
Local Open Scope N_scope.

Definition noted_lines : list string := ["# note"; "msgid_plural ""lost"""; "msgid ""a"""; "msgstr ""b"""]%string.
Definition noted_head : list po_line := [PComment 1 32 (lit "note"); PMessage 2 [] (lit "msgid_plural") (lit "lost")].
Definition noted_unit : unit_ := Unit None (MSimple [] None) None (MSimple [] None) [] [Note Translator (lit "note")] [] [] StEmpty false.
Theorem noted_example : file (lf_stream noted_lines) (map lit noted_lines) None (noted_head ++ simple_block 3 4 (lit "a") (lit "b")) None
  /\ headless None noted_head noted_unit /\ headless_ends noted_head (simple_block 3 4 (lit "a") (lit "b")) None.
Proof.
  split; [apply lf_file; [discriminate|reflexivity|vm_compute; reflexivity]|]. split.
  - apply (hl_intro None [PComment 1 32 (lit "note")] [] [Note Translator (lit "note")] [] [] false [] None [] (MSimple [] None) [] None
      [PMessage 2 [] (lit "msgid_plural") (lit "lost")] (Some (lit "lost")) StEmpty).
    + apply bc_translator, bc_nil.
    + apply of_none.
    + apply pv_none.
    + apply of_none.
    + apply of_some. apply (own_line false).
    + apply so_empty; [intros []|intros t []].
  - split.
    + refine (rest_not_begun None true noted_head (PMessage 3 [] (lit "msgid") (lit "a")) [PMessage 4 [] (lit "msgstr") (lit "b")] None _ _). vm_compute. reflexivity.
    + refine (rest_not_headless None noted_head (PMessage 3 [] (lit "msgid") (lit "a")) [PMessage 4 [] (lit "msgstr") (lit "b")] None _ _). vm_compute. reflexivity.
Qed.
