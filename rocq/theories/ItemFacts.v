(** How many items a file gives. *)
From Coq Require Import String Arith NArith ZArith Bool List Lia.
From Verif Require Import ModelBase ModelUtf8 ModelRegex ModelLine ModelFormula ModelData ModelSource ModelReader
  SpecLine SpecFormula SpecSource SpecReader SpecBlock SpecHeader SpecFile SpecWhole BaseFacts LineFacts LineThms SourceFacts IterFacts StreamFacts StreamThms
  BlockFacts BlocksFacts FileFacts WholeFacts.
Import ListNotations.
Local Open Scope N_scope.

Lemma body_length forms obs ls m : body forms obs ls m -> (2 <= length ls)%nat.
Proof.
  intros [l1 id l2 text A B|l1 id l2 p l3 vs A B _ _]; apply field_nonempty in A, B; destruct l1; [contradiction| |contradiction|]; (destruct l2; [contradiction|]); repeat (rewrite app_length; cbn [length]); lia.
Qed.
Lemma entry_length forms b u : entry forms b u -> (2 <= length b)%nat.
Proof.
  intros [cs F N L C obs ks pc pm c m st _ K _]. destruct K as [l1 pc l2 pm l3 c l4 m _ _ _ B]. apply body_length in B. rewrite !app_length. lia.
Qed.
Lemma blocks_length forms r tl us o : blocks forms r tl us o ->
  (2 * length us + length (error_item o) <= length r + match tl with Some _ => 1 | None => 0 end)%nat.
Proof.
  induction 1 as [rest tl o C|b u r tl us o [E _] A B IH].
  - destruct C; cbn [error_item length]; rewrite ?app_length; cbn [length]; try (rewrite !app_length; cbn [length]); lia.
  - apply entry_length in E. rewrite app_length. cbn [length]. lia.
Qed.
Lemma whole_items lib pf pl tl c : whole lib pf pl tl (Ok c) -> (length (c_items c) <= length pl)%nat.
Proof.
  intros H. remember (Ok c) as q eqn:Q. destruct H as [c0 _ _ _ I|e|inc w l r|u us o c0 B _ I|h u ps r forms us o c0 E Fe _ _ B _ I|h u ps r x]; try discriminate; injection Q as ->; rewrite I.
  - apply Nat.le_0_l.
  - apply blocks_length in B. rewrite app_length, map_length. cbn [length] in *. destruct tl; lia.
  - pose proof (blocks_length _ _ _ _ _ B) as L. rewrite app_length, map_length. subst pl. rewrite app_length.
    destruct h as [|x h]; [|cbn [length]; destruct tl; lia].
    destruct Fe as [En _|_ En]; [apply entry_length in En; cbn in En; lia|].
    destruct r as [|l r]; [destruct En as [_ []]; constructor|].
    destruct us as [|v us]; [destruct o; cbn [map error_item length]; lia|].
    cbn [length] in *. destruct tl; lia.
Qed.
Lemma parsed_length n ls e pl tl : parsed n ls e pl tl -> (length pl <= nonblank_lines ls)%nat.
Proof.
  unfold nonblank_lines. induction 1 as [| |n s ls e O B|n s ls e pl tl O L P IH|n s l ls e pl tl O L NB P IH]; cbn [filter length]; try lia.
  - destruct (negb (blank_line s)); cbn [length]; lia.
  - destruct (blank_line s) eqn:B; cbn [negb length]; [|lia]. exfalso. apply NB.
    apply blank_line_iff in B. apply (line_of_iff s n l O) in L. rewrite (proj2 (parse_line_blank s n O) B) in L. congruence.
Qed.
Theorem items_bounded lib pf evs bs f ls e c : delivers evs bs f -> contents bs f ls e ->
  read_catalogue lib pf evs = Ok c -> (length (c_items c) <= nonblank_lines ls)%nat.
Proof.
  intros D C H. destruct (parsed_total ls e (contents_one_line _ _ _ _ C) 1) as (pl & tl & P).
  apply (Nat.le_trans _ (length pl)); [|exact (parsed_length _ _ _ _ _ P)]. apply (whole_items lib pf pl tl).
  apply (whole_file lib pf evs ls e pl tl); [exists bs, f; auto|]. rewrite H. apply alike_refl. discriminate.
Qed.
