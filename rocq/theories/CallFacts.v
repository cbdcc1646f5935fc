(** The calls of the line iterator. *)
From Coq Require Import String Arith NArith ZArith Bool List Lia.
From Verif Require Import ModelBase ModelUtf8 ModelRegex ModelLine ModelFormula ModelData ModelSource ModelReader
  SpecLine SpecFormula SpecSource SpecReader SpecBlock SpecHeader SpecFile BaseFacts LineFacts LineThms DecFacts SourceFacts IterFacts ReaderFacts ReadsFacts CatalogueFacts LocalFacts StreamFacts
  BlockFacts CommentFacts UnitFacts SoundFacts BlocksFacts FirstFacts FileFacts.
Import ListNotations.

Theorem line_calls evs ls e pl tl k : file evs ls e pl tl ->
  (forall l, nth_error pl k = Some l -> poll k (li_new evs) = Some (ILine l))
  /\ (k = length pl -> poll k (li_new evs) = option_map IFail tl)
  /\ (length pl < k -> poll k (li_new evs) = None).
Proof.
  intros (bs & f & D & C & P). pose proof (responses_contents evs bs f ls e D C k) as H. rewrite responses_exact in H.
  rewrite (parsed_items _ _ _ _ _ P) in H. rewrite H. unfold listing. split; [|split].
  - intros l N. apply nth_error_nth. rewrite nth_error_app1 by (rewrite map_length; apply nth_error_Some; congruence). rewrite nth_error_map, N. reflexivity.
  - intros ->. rewrite app_nth2 by (rewrite map_length; lia). rewrite map_length, Nat.sub_diag. destruct tl; reflexivity.
  - intros L. apply nth_overflow. rewrite app_length, map_length. destruct tl; cbn; lia.
Qed.
Lemma li_loop_fail fuel : forall n inner e it', li_loop fuel n inner = (Some (IFail e), it') -> li_inner it' = None.
Proof.
  induction fuel as [|fuel IH]; intros n [src|] e it' H; cbn [li_loop] in H; try discriminate.
  destruct (lines_next src) as [[[line|x]|] s']; try discriminate; [|injection H as _ <-; reflexivity].
  destruct (parse_line line n) as [[| | |]|]; try discriminate; [exact (IH _ _ _ _ H)|injection H as _ <-; reflexivity].
Qed.
Lemma poll_ended k : forall it, li_inner it = None -> poll k it = None.
Proof. intros it H. apply poll_done. unfold li_done. rewrite H. reflexivity. Qed.
Theorem failure_last k : forall it e, poll k it = Some (IFail e) -> forall j, k < j -> poll j it = None.
Proof.
  induction k as [|k IH]; intros it e H [|j] L; try lia; cbn [poll] in *.
  - destruct (li_next it) as [x it'] eqn:E. cbn in H |- *. subst x. apply poll_ended. exact (li_loop_fail _ _ _ _ _ E).
  - exact (IH _ e H j ltac:(lia)).
Qed.
