(** The order of the lines of a header has no influence. *)
From Coq Require Import String Arith NArith ZArith Bool List Lia.
From Verif Require Import ModelBase ModelUtf8 ModelLine ModelFormula ModelData ModelSource ModelReader
  SpecLine SpecFormula SpecSource SpecReader SpecBlock SpecHeader SpecFile SpecRearranged BaseFacts LineFacts CommentFacts HeaderFacts BlockThms EntryThms HeaderThms UseFacts FileIntro HeaderWitness.
Import ListNotations.
Local Open Scope N_scope.

Lemma valued_pair l k v : valued l k v <-> line_pairs l = [(k, v)].
Proof.
  unfold valued, line_pairs. split.
  - intros (a & b & -> & N & A & B). rewrite (proj2 (find_char_some 58 _ a b)) by auto. apply trims_to_iff in A, B. subst. reflexivity.
  - destruct (find_char 58 l) as [[a b]|] eqn:F; [|discriminate]. apply find_char_some in F as [-> F]. intros [= <- <-].
    exists a, b. repeat split; auto; apply trims_to_iff; reflexivity.
Qed.
Lemma nameless_pairs l : ~ In 58 l -> line_pairs l = [].
Proof. intros N. unfold line_pairs. apply find_char_none in N. rewrite N. reflexivity. Qed.
Lemma pairs_shape l : line_pairs l = [] \/ exists k v, line_pairs l = [(k, v)].
Proof. unfold line_pairs. destruct (find_char 58 l) as [[a b]|]; eauto. Qed.
Lemma values_one k k' v : values_of k [(k', v)] = if str_eqb k k' then [v] else [].
Proof. unfold values_of. cbn. destruct (str_eqb k k'); reflexivity. Qed.
Lemma swapped_values l l' k : (forall x, named l x -> ~ named l' x) -> values_of k (line_pairs l ++ line_pairs l') = values_of k (line_pairs l' ++ line_pairs l).
Proof.
  intros D. rewrite !values_of_app. destruct (pairs_shape l) as [->|(a & v & E)]; [rewrite app_nil_r; reflexivity|].
  destruct (pairs_shape l') as [->|(a' & v' & E')]; [rewrite app_nil_r; reflexivity|]. rewrite E, E', !values_one.
  destruct (str_eqb k a) eqn:K, (str_eqb k a') eqn:K'; try reflexivity. apply str_eqb_eq in K, K'. subst a a'.
  exfalso. apply (D k); [exists v|exists v']; apply valued_pair; assumption.
Qed.
Lemma rearranged_values ls ls' : rearranged ls ls' -> forall k, values_of k (flat_map line_pairs ls) = values_of k (flat_map line_pairs ls').
Proof.
  induction 1 as [ls|a l l' b D|a l b N|a l l' x v b V V'|ls ls' H IH|ls ls' ls'' H IH H' IH']; intros k.
  - reflexivity.
  - rewrite !flat_map_app. cbn [flat_map]. rewrite !values_of_app. f_equal. rewrite !app_assoc. f_equal. rewrite <- !values_of_app. apply swapped_values, D.
  - rewrite !flat_map_app. cbn [flat_map]. rewrite (nameless_pairs _ N). reflexivity.
  - rewrite !flat_map_app. cbn [flat_map]. apply valued_pair in V, V'. rewrite V, V'. reflexivity.
  - symmetry. apply IH.
  - etransitivity; [apply IH|apply IH'].
Qed.
Lemma text_pairs text ls ps : text_lines text ls -> header_pairs text ps -> ps = flat_map line_pairs ls.
Proof.
  intros (NE & E & O) H. assert (header_pairs text (flat_map line_pairs ls)) as H' by (exists ls; repeat split; auto; apply pairs_iff; reflexivity).
  exact (header_pairs_det _ _ _ H H').
Qed.
Theorem rearranged_property text text' ls ls' ps ps' k : text_lines text ls -> text_lines text' ls' -> rearranged ls ls' ->
  header_pairs text ps -> header_pairs text' ps' -> property ps k = property ps' k.
Proof.
  intros T T' R H H'. rewrite (text_pairs _ _ _ T H), (text_pairs _ _ _ T' H'). unfold property. rewrite (rearranged_values _ _ R). reflexivity.
Qed.
Theorem header_rearranged lib pf Rn evs ls e h r tl u t hls evs' ls' e' h' r' tl' u' t' hls' :
  file evs ls e (h ++ r) tl -> first_entry h r tl u -> u_message u = MSimple [] t -> text_lines (opt_str t) hls ->
  file evs' ls' e' (h' ++ r') tl' -> first_entry h' r' tl' u' -> u_message u' = MSimple [] t' -> text_lines (opt_str t') hls' ->
  rearranged hls hls' -> resplit Rn r r' -> same_end Rn tl tl' ->
  match read_catalogue lib pf evs, read_catalogue lib pf evs' with
  | Ok c, Ok c' => (forall k, sm_get k (c_properties c) = sm_get k (c_properties c')) /\ c_language c = c_language c' /\ Forall2 (uitem_sim Rn eq) (c_items c) (c_items c')
  | Err x, Err x' => x = x'
  | _, _ => False
  end.
Proof.
  intros F E M T F' E' M' T' R Rs Se. destruct (header_pairs_total (opt_str t)) as (ps & P). destruct (header_pairs_total (opt_str t')) as (ps' & P').
  assert (header u ps) as H by (exists t; auto). assert (header u' ps') as H' by (exists t'; auto).
  assert (forall k, property ps k = property ps' k) as EP by (intros k; exact (rearranged_property _ _ _ _ _ _ k T T' R P P')).
  pose proof (header_influence lib pf Rn _ _ _ _ _ _ _ _ _ _ _ _ _ _ _ _ F E H F' E' H' (EP _) Rs Se) as X.
  destruct (read_catalogue lib pf evs) as [c|x|] eqn:Rc, (read_catalogue lib pf evs') as [c'|x'|] eqn:Rc'; try exact X.
  destruct X as [I L]. split; [|split; [apply L, EP|exact I]]. intros k.
  rewrite (proj1 (header_properties_read lib pf _ _ _ _ _ _ _ _ _ _ F eq_refl E H Rc) k), (proj1 (header_properties_read lib pf _ _ _ _ _ _ _ _ _ _ F' eq_refl E' H' Rc') k).
  apply EP.
Qed.
