(** Files and entries for examples and for written catalogues. *)
From Coq Require Import String Arith NArith ZArith Bool List Lia.
From Verif Require Import ModelBase ModelUtf8 ModelRegex ModelLine ModelFormula ModelData ModelSource ModelReader
  SpecLine SpecFormula SpecSource SpecReader SpecBlock SpecHeader SpecFile BaseFacts LineFacts SourceFacts DecFacts
  BlockFacts CommentFacts UnitFacts SoundFacts BlocksFacts.
Import ListNotations.
Local Open Scope N_scope.

(** * Text files *)
Lemma parsed_snoc_blank n ls e pl tl : parsed n (ls ++ [[]]) None pl tl -> e = None -> parsed n ls e pl tl.
Proof.
  revert n pl tl. induction ls as [|s ls IH]; intros n pl tl P ->; cbn [app] in P.
  - inversion P as [| |? ? ? ? O E|? ? ? ? ? ? O E P'|? ? l ? ? ? ? O E NB P']; subst.
    + destruct (E PBlank). apply ln_blank. intros c [].
    + inversion P'; subst. constructor.
    + apply line_of_iff in E; [|exact O]. cbn in E. injection E as <-. contradiction.
  - inversion P as [| |? ? ? ? O E|? ? ? ? ? ? O E P'|? ? l ? ? ? ? O E NB P']; subst.
    + apply ps_bad; assumption.
    + apply ps_blank; [exact O|exact E|]. apply IH; [exact P'|reflexivity].
    + apply ps_line; [exact O|exact E|exact NB|]. apply IH; [exact P'|reflexivity].
Qed.
Lemma text_file_lines ls bs : text_file ls bs -> (forall s, In s ls -> text_line s) ->
  contents bs None ls None \/ exists ls', ls = ls' ++ [[]] /\ contents bs None ls' None.
Proof.
  induction 1 as [|s|s ls bs F IH|s ls bs F IH]; intros H.
  - left. constructor.
  - destruct (H s (or_introl eq_refl)) as (O & S & C). destruct s as [|c s]; [right; exists []; split; [reflexivity|constructor]|left; constructor; auto; discriminate].
  - destruct (H s (or_introl eq_refl)) as (O & S & C). destruct IH as [IH|(ls' & -> & IH)]; [intros x I; apply H; right; exact I|left|right].
    + apply ct_line; auto. constructor; exact C.
    + exists (s :: ls'). split; [reflexivity|]. apply ct_line; auto. constructor; exact C.
  - destruct (H s (or_introl eq_refl)) as (O & S & C). destruct IH as [IH|(ls' & -> & IH)]; [intros x I; apply H; right; exact I|left|right].
    + apply ct_line; auto. constructor.
    + exists (s :: ls'). split; [reflexivity|]. apply ct_line; auto. constructor.
Qed.
Theorem text_file_file ls bs evs pl tl : text_file ls bs -> (forall s, In s ls -> text_line s) -> delivers evs bs None -> parsed 1 ls None pl tl ->
  exists ls', file evs ls' None pl tl.
Proof.
  intros T H D P. destruct (text_file_lines _ _ T H) as [C|(ls' & -> & C)].
  - exists ls, bs, None. auto.
  - exists ls', bs, None. split; [exact D|]. split; [exact C|]. apply parsed_snoc_blank; auto.
Qed.

(** * Computed files *)
Fixpoint parse_lines (n : N) (ls : list str) : list po_line * option error :=
  match ls with
  | [] => ([], None)
  | s :: ls' =>
      match parse_line s n with
      | None => ([], Some (EParse (n + 1) s []))
      | Some PBlank => parse_lines (n + 1) ls'
      | Some l => let (pl, tl) := parse_lines (n + 1) ls' in (l :: pl, tl)
      end
  end.
Lemma parse_lines_spec ls : (forall s, In s ls -> one_line s) -> forall n, parsed n ls None (fst (parse_lines n ls)) (snd (parse_lines n ls)).
Proof.
  induction ls as [|s ls IH]; intros O n; cbn [parse_lines]; [constructor|]. specialize (IH (fun x I => O x (or_intror I)) (n + 1)). specialize (O s (or_introl eq_refl)).
  destruct (parse_lines (n + 1) ls) as [pl tl]. destruct (parse_line s n) as [[| | |]|] eqn:E; cbn [fst snd] in *; (apply (proj2 (line_of_iff s n _ O)) in E || pose proof (proj2 (line_of_none s n O) E) as E').
  - apply ps_blank; assumption.
  - apply ps_line; [exact O|exact E|discriminate|assumption].
  - apply ps_line; [exact O|exact E|discriminate|assumption].
  - apply ps_line; [exact O|exact E|discriminate|assumption].
  - apply ps_bad; assumption.
Qed.
Definition line_okb (s : str) : bool := forallb (fun c => negb (c =? 10) && negb (c =? 13) && (c <? 55296)) s.
Lemma line_okb_text s : line_okb s = true -> text_line s.
Proof.
  unfold line_okb. rewrite forallb_forall. intros H. repeat split.
  - intros I. specialize (H _ I). discriminate.
  - intros c I. specialize (H _ I). left. apply N.ltb_lt. destruct (c <? 55296); [reflexivity|]. rewrite andb_false_r in H. discriminate.
  - intros (s' & ->). specialize (H 13 ltac:(apply in_or_app; right; left; reflexivity)). discriminate.
Qed.
(** A stream of lines, each ended by a line feed. *)
Definition lf_stream (ls : list string) : list rd_event := [RdData (utf8 (flat_map (fun s => lit s ++ [10]) ls))].
Lemma utf8_app a b : utf8 (a ++ b) = utf8 a ++ utf8 b.
Proof. apply flat_map_app. Qed.
Theorem lf_file ls pl tl : ls <> [] -> forallb (fun s => line_okb (lit s)) ls = true -> parse_lines 1 (map lit ls) = (pl, tl) ->
  file (lf_stream ls) (map lit ls) None pl tl.
Proof.
  intros NE H P. exists (utf8 (flat_map (fun s => lit s ++ [10]) ls)), None. rewrite forallb_forall in H. split; [|split].
  - unfold lf_stream. rewrite <- (app_nil_r (utf8 _)) at 2. apply dl_data; [|constructor]. destruct ls as [|s ls]; [contradiction|]. cbn [flat_map]. rewrite <- app_assoc, !utf8_app.
    intros Q. apply app_eq_nil in Q as [_ Q]. discriminate.
  - clear P NE. induction ls as [|s ls IH]; [constructor|]. cbn [flat_map map]. rewrite <- app_assoc, !utf8_app.
    destruct (line_okb_text _ (H s (or_introl eq_refl))) as (O & S & C). apply ct_line; [exact O|exact S|constructor; exact C|]. apply IH. intros x I. apply H. right; exact I.
  - assert (forall s, In s (map lit ls) -> one_line s) as O.
    { intros s I. apply in_map_iff in I as (x & <- & I). apply line_okb_text, H, I. }
    pose proof (parse_lines_spec (map lit ls) O 1) as X. rewrite P in X. exact X.
Qed.

(** * Simple entries *)
Definition simple_unit (s t : str) : unit_ :=
  Unit None (MSimple s (some_text t)) None (MSimple [] None) [] [] [] [] (match t with [] => StEmpty | _ => StFinal end) false.
Definition simple_block (n m : N) (s t : str) : list po_line := [PMessage n [] (lit "msgid") s; PMessage m [] (lit "msgstr") t].
Lemma simple_entry forms n m s t : entry forms (simple_block n m s t) (simple_unit s t).
Proof.
  apply (en_intro forms [] [] [] [] [] false (simple_block n m s t) None (MSimple [] None) None (MSimple s (some_text t))).
  - constructor.
  - change (simple_block n m s t) with ([] ++ [] ++ [] ++ simple_block n m s t). eapply (kws_intro forms false); [constructor|constructor|constructor|].
    apply (bd_simple forms false [_] s [_] t); apply own_line.
  - destruct t as [|c t]; [apply so_empty|apply so_final with (c :: t)]; cbn; intuition discriminate.
Qed.
