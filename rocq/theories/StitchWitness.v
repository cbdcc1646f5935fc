(** Streams in pieces, for examples. *)
From Coq Require Import String Arith NArith ZArith Bool List Lia.
From Verif Require Import ModelBase ModelUtf8 ModelLine ModelFormula ModelData ModelSource ModelReader
  SpecLine SpecFormula SpecSource SpecReader SpecBlock SpecHeader SpecFile SpecStitch BaseFacts SourceFacts BlocksFacts StreamFacts FileIntro StitchFacts.
Import ListNotations.
Local Open Scope N_scope.

(** A piece: complete lines, and a last one without line end, or none (""). *)
Definition portion : Type := (list string * string)%type.
Definition portion_bytes (p : portion) : list byte := utf8 (flat_map (fun s => lit s ++ [10]) (fst p)) ++ utf8 (lit (snd p)).
Definition open_line (s : string) : list str := match lit s with [] => [] | l => [l] end.
Definition portion_lines (p : portion) : list str := map lit (fst p) ++ open_line (snd p).
Definition portion_ok (p : portion) : bool := forallb (fun s => line_okb (lit s)) (fst p) && line_okb (lit (snd p)).
Fixpoint run (n : N) (ps : list portion) : lines :=
  match ps with
  | [] => []
  | [p] => map (fun l => Some (ILine l)) (fst (parse_lines n (portion_lines p)))
  | p :: ps' => map (fun l => Some (ILine l)) (fst (parse_lines n (portion_lines p)))
                ++ match lit (snd p) with [] => [None] | _ => [] end ++ run (n + N.of_nat (length (portion_lines p))) ps'
  end.
Fixpoint runs_well (n : N) (ps : list portion) : bool :=
  match ps with
  | [] => true
  | p :: ps' => portion_ok p && match snd (parse_lines n (portion_lines p)) with None => true | _ => false end
                && runs_well (n + N.of_nat (length (portion_lines p))) ps'
  end.
Definition portion_stream (ps : list portion) : list rd_event := flat_map (fun p => match portion_bytes p with [] => [RdData []] | b => [RdData b; RdData []] end) ps.

Lemma portion_contents p : portion_ok p = true -> contents (portion_bytes p) None (portion_lines p) None.
Proof.
  destruct p as [ls s]. unfold portion_ok, portion_bytes, portion_lines, open_line. cbn [fst snd]. intros H. apply andb_true_iff in H as [H Hs].
  rewrite forallb_forall in H. induction ls as [|x ls IH].
  - cbn. destruct (lit s) as [|c r]; [constructor|]. destruct (line_okb_text _ Hs) as (O & S & C). apply (ct_last (c :: r)); [discriminate|exact O|exact S].
  - cbn [flat_map map app]. rewrite !utf8_app, <- !app_assoc. destruct (line_okb_text _ (H x (or_introl eq_refl))) as (O & S & C).
    apply ct_line; [exact O|exact S|constructor; exact C|]. apply IH. intros y I. apply H. right; exact I.
Qed.
Lemma portion_terminated p : portion_ok p = true -> (terminated (portion_bytes p) <-> lit (snd p) = []).
Proof.
  destruct p as [ls s]. unfold portion_ok, portion_bytes. cbn [fst snd]. intros H. apply andb_true_iff in H as [_ Hs]. destruct (line_okb_text _ Hs) as (O & _ & _). split.
  - destruct (lit s) as [|c r] eqn:E; [reflexivity|]. intros [T|(b & T)]; exfalso.
    + apply app_eq_nil in T as [_ T]. apply utf8_nil in T. discriminate.
    + assert (exists q y, utf8 (c :: r) = q ++ [y]) as (q & y & Q).
      { assert (utf8 (c :: r) <> []) as NE by (intros Q; apply utf8_nil in Q; discriminate). destruct (exists_last NE) as (q & y & Q). eauto. }
      assert (In 10 (utf8 (c :: r))) as I; [|exact (in_lf_utf8 _ O I)].
      rewrite Q in *. rewrite app_assoc in T. apply app_inj_tail in T as [_ ->]. apply in_or_app. right; left; reflexivity.
  - intros ->. cbn [utf8 flat_map]. rewrite app_nil_r. destruct ls as [|x ls _] using rev_ind; [left; reflexivity|]. right. rewrite flat_map_app. cbn [flat_map].
    rewrite app_nil_r, !utf8_app. eexists. rewrite app_assoc. reflexivity.
Qed.

Theorem run_answers ps : forall n, ps <> [] -> runs_well n ps = true -> answers n (map portion_bytes ps) None (run n ps).
Proof.
  induction ps as [|p ps IH]; intros n NE W; [contradiction|]. cbn [runs_well] in W. apply andb_true_iff in W as [W W2]. apply andb_true_iff in W as [W0 W1].
  pose proof (portion_contents _ W0) as C. pose proof (parse_lines_spec _ (contents_one_line _ _ _ _ C) n) as P. pose proof (portion_terminated _ W0) as T.
  destruct (snd (parse_lines n (portion_lines p))) as [x|] eqn:E; [discriminate|]. destruct ps as [|p' ps].
  - cbn [run map]. rewrite <- (app_nil_r (map (fun l => Some (ILine l)) _)). exact (an_last _ _ _ _ _ _ _ C P).
  - specialize (IH _ ltac:(discriminate) W2). change (run n (p :: p' :: ps)) with (map (fun l => Some (ILine l)) (fst (parse_lines n (portion_lines p)))
      ++ match lit (snd p) with [] => [None] | _ => [] end ++ run (n + N.of_nat (length (portion_lines p))) (p' :: ps)).
    change (map portion_bytes (p :: p' :: ps)) with (portion_bytes p :: map portion_bytes (p' :: ps)).
    destruct (lit (snd p)) as [|c r].
    + exact (an_report _ _ _ _ _ _ _ C P (proj2 T eq_refl) IH).
    + apply (an_go_on _ _ _ _ _ _ _ C P); [intros H; discriminate (proj1 T H)|exact IH].
Qed.
Theorem portion_pieces ps : pieces (portion_stream ps) (map portion_bytes ps ++ [[]]) None.
Proof.
  induction ps as [|p ps IH]; [constructor|]. unfold portion_stream in *. cbn [flat_map map app].
  destruct (portion_bytes p) as [|x b] eqn:E.
  - apply pc_report. exact IH.
  - rewrite <- (app_nil_r (x :: b)) at 2. apply pc_data; [discriminate|]. apply pc_report. exact IH.
Qed.
