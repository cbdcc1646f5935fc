(** Marking entries as obsolete changes nothing else. *)
From Coq Require Import String Arith NArith ZArith Bool List Lia.
From Verif Require Import ModelBase ModelUtf8 ModelLine ModelFormula ModelData ModelSource ModelReader
  SpecLine SpecFormula SpecSource SpecReader SpecBlock SpecHeader SpecFile SpecRetired BaseFacts LineFacts LineThms StreamThms SourceFacts
  BlockFacts UnitFacts BlocksFacts FileFacts BlockThms EntryThms WriterFacts IndepFacts.
Import ListNotations.
Local Open Scope N_scope.

Section Swap.
Variables o o' : bool.
Definition swap_flags (p p' : str) : Prop := (p = own o /\ p' = own o') \/ (p = prev o /\ p' = prev o').
Inductive swapped : po_line -> po_line -> Prop :=
| sw_comment n k s : swapped (PComment n k s) (PComment n k s)
| sw_message n p p' t s : swap_flags p p' -> swapped (PMessage n p t s) (PMessage n p' t s)
| sw_cont n p p' s : swap_flags p p' -> swapped (PCont n p s) (PCont n p' s).
Lemma swap_own p p' : swap_flags p p' -> p = own o -> p' = own o'.
Proof. intros [[_ H]|[H _]] E; [exact H|]. rewrite E in H. destruct o; discriminate H. Qed.
Lemma swap_prev p p' : swap_flags p p' -> p = prev o -> p' = prev o'.
Proof. intros [[H _]|[_ H]] E; [|exact H]. rewrite E in H. destruct o; discriminate H. Qed.
Lemma tag_own kw : reported_tag (own o) kw = reported_tag (own o') kw.
Proof. destruct o, o'; reflexivity. Qed.
Lemma tag_prev kw : reported_tag (prev o) kw = reported_tag (prev o') kw.
Proof. destruct o, o'; reflexivity. Qed.
Definition pair_of (f f' : str) : Prop := (f = own o /\ f' = own o') \/ (f = prev o /\ f' = prev o').
Lemma pair_swap f f' p' : pair_of f f' -> swap_flags f p' -> p' = f'.
Proof. intros [[E ->]|[E ->]] S; [eapply swap_own|eapply swap_prev]; eassumption. Qed.
Lemma pair_tag f f' kw : pair_of f f' -> reported_tag f kw = reported_tag f' kw.
Proof. intros [[-> ->]|[-> ->]]; [apply tag_own|apply tag_prev]. Qed.
Lemma strings_swap f f' a t : pair_of f f' -> strings f a t -> forall b, Forall2 swapped a b -> strings f' b t.
Proof.
  intros P. induction 1 as [|n s ls t S IH]; intros b H; inversion H as [|? l' ? b' Hl Ht]; subst; [constructor|].
  inversion Hl as [| |? ? p' ? Sw]; subst. rewrite (pair_swap _ _ _ P Sw). constructor. apply IH, Ht.
Qed.
Lemma field_swap f f' kw a t : pair_of f f' -> field f kw a t -> forall b, Forall2 swapped a b -> field f' kw b t.
Proof.
  intros P [n s ls x S] b H. inversion H as [|? l' ? b' Hl Ht]; subst. inversion Hl as [|? ? p' ? ? Sw|]; subst.
  rewrite (pair_swap _ _ _ P Sw), (pair_tag _ _ kw P). constructor. eapply strings_swap; eassumption.
Qed.
Lemma opt_field_swap f f' kw a t : pair_of f f' -> opt_field f kw a t -> forall b, Forall2 swapped a b -> opt_field f' kw b t.
Proof. intros P [|ls s F] b H; [inversion H; subst; constructor|constructor; eapply field_swap; eassumption]. Qed.
Lemma values_swap f f' count i a vs : pair_of f f' -> values f count i a vs -> forall b, Forall2 swapped a b -> values f' count i b vs.
Proof.
  intros P. induction 1 as [i|i k kw ls s ls' vs I K M F V IH]; intros b H; [inversion H; subst; constructor|].
  apply Forall2_app_inv_l in H as (b1 & b2 & H1 & H2 & ->). econstructor; eauto. eapply field_swap; eassumption.
Qed.
Lemma own_pair : pair_of (own o) (own o').
Proof. left. auto. Qed.
Lemma prev_pair : pair_of (prev o) (prev o').
Proof. right. auto. Qed.
Lemma body_swap forms a m : body forms o a m -> forall b, Forall2 swapped a b -> body forms o' b m.
Proof.
  intros [l1 id l2 t F1 F2|l1 id l2 pl l3 vs F1 F2 V NE] b H.
  - apply Forall2_app_inv_l in H as (b1 & b2 & H1 & H2 & ->). constructor; eapply field_swap; eauto using own_pair.
  - apply Forall2_app_inv_l in H as (b1 & b2 & H1 & H2 & ->). apply Forall2_app_inv_l in H2 as (b2' & b3 & H2 & H3 & ->).
    constructor; [eapply field_swap; eauto using own_pair|eapply field_swap; eauto using own_pair|eapply values_swap; eauto using own_pair|exact NE].
Qed.
Lemma previous_swap forms a m : previous forms o a m -> forall b, Forall2 swapped a b -> previous forms o' b m.
Proof.
  intros [|l id F1|l1 id l2 pl F1 F2] b H.
  - inversion H; subst. constructor.
  - constructor. eapply field_swap; eauto using prev_pair.
  - apply Forall2_app_inv_l in H as (b1 & b2 & H1 & H2 & ->). constructor; eapply field_swap; eauto using prev_pair.
Qed.
Lemma comments_swap a F N L C : block_comments a F N L C -> forall b, Forall2 swapped a b -> b = a.
Proof.
  induction 1; intros b H'; inversion H' as [|? l' ? b' Hl Ht]; subst; try reflexivity; inversion Hl; subst; f_equal; auto.
Qed.
Lemma keywords_swap forms a pc pm c m : keywords forms o a pc pm c m -> forall b, Forall2 swapped a b -> keywords forms o' b pc pm c m.
Proof.
  intros [l1 pc' l2 pm' l3 c' l4 m' K1 K2 K3 K4] b H. apply Forall2_app_inv_l in H as (k1 & r1 & G1 & H2 & ->).
  apply Forall2_app_inv_l in H2 as (k2 & r2 & G2 & H2 & ->). apply Forall2_app_inv_l in H2 as (k3 & k4 & G3 & G4 & ->).
  constructor; [eapply opt_field_swap; eauto using prev_pair|eapply previous_swap; eassumption|eapply opt_field_swap; eauto using own_pair|eapply body_swap; eassumption].
Qed.
(** The lines of an entry are of the other kind. *)
Lemma field_kind q kw l s : field (own q) kw l s -> forall b, Forall2 swapped l b -> q = o.
Proof.
  intros [n x ls t _] b H. inversion H as [|? l' ? b' Hl _]; subst. inversion Hl as [|? ? p' ? ? Sw|]; subst.
  clear - Sw. destruct Sw as [[E _]|[E _]]; destruct q, o; cbn in E; try reflexivity; discriminate.
Qed.
Lemma body_kind forms q a m : body forms q a m -> forall b, Forall2 swapped a b -> q = o.
Proof. intros [l1 id l2 t F1 F2|l1 id l2 pl l3 vs F1 F2 V NE] b H; apply Forall2_app_inv_l in H as (b1 & b2 & H1 & H2 & ->); exact (field_kind _ _ _ _ F1 _ H1). Qed.
Theorem entry_swap forms a u : entry forms a u -> forall b, Forall2 swapped a b -> u_obsolete u = o
  /\ entry forms b (Unit (u_context u) (u_message u) (u_prev_context u) (u_prev_message u) (u_flags u) (u_notes u) (u_locations u) (u_comments u) (u_state u) o').
Proof.
  intros [cs F N L C q ks pc pm c m st B K St] b H. apply Forall2_app_inv_l in H as (b1 & b2 & H1 & H2 & ->).
  rewrite (comments_swap _ _ _ _ _ B _ H1).
  assert (q = o) as ->.
  { destruct K as [l1 pc' l2 pm' l3 c' l4 m' _ _ _ K4]. apply Forall2_app_inv_l in H2 as (k1 & r1 & _ & H2 & _).
    apply Forall2_app_inv_l in H2 as (k2 & r2 & _ & H2 & _). apply Forall2_app_inv_l in H2 as (k3 & k4 & _ & G4 & _). eapply body_kind; eassumption. }
  split; [reflexivity|]. constructor; [exact B|eapply keywords_swap; eassumption|exact St].
Qed.
End Swap.

(** ** The text *)
Lemma flags_swap f : In f [[]; lit "|"] -> swap_flags false true f (126 :: f) /\ swap_flags true false (126 :: f) f.
Proof. intros [<-|[<-|[]]]; split; [left|left|right|right]; split; reflexivity. Qed.
Lemma flags_tag f kw : In f [[]; lit "|"] -> reported_tag (126 :: f) kw = reported_tag f kw.
Proof. intros [<-|[<-|[]]]; reflexivity. Qed.
Lemma blank_not_quoted s f kw q : blanks s -> ~ quoted_line s f kw q.
Proof.
  intros B (mark & w1 & w2 & w3 & w4 & -> & _). assert (white 34) as W by (apply B; rewrite !in_app_iff; cbn; auto 10).
  apply is_ws_white in W. discriminate W.
Qed.
Definition retired_to (o o' : bool) (n : N) (l : po_line) (s' : str) : Prop :=
  (l = PBlank /\ line_of s' n PBlank) \/ (l <> PBlank /\ exists l', line_of s' n l' /\ l' <> PBlank /\ swapped o o' l l').
Lemma quoted_retired o o' s s' f f' kw q n l : swap_flags o o' f f' -> (forall k, reported_tag f k = reported_tag f' k) ->
  quoted_line s f kw q -> quoted_line s' f' kw q -> line_of s n l -> retired_to o o' n l s'.
Proof.
  intros Sw T Q Q' [B|f1 k q1 t Q1 U|f1 q1 t Q1 U|k c _ NQ].
  - destruct (blank_not_quoted _ _ _ _ B Q).
  - destruct (quoted_line_unique _ _ _ _ _ _ _ Q Q1) as (<- & -> & <-). right. split; [discriminate|].
    exists (PMessage n f' (reported_tag f' k) t). split; [econstructor; eassumption|]. split; [discriminate|]. rewrite T. constructor. exact Sw.
  - destruct (quoted_line_unique _ _ _ _ _ _ _ Q Q1) as (<- & -> & <-). right. split; [discriminate|].
    exists (PCont n f' t). split; [econstructor; eassumption|]. split; [discriminate|]. constructor. exact Sw.
  - destruct (NQ _ _ _ Q).
Qed.
Lemma other_retired o o' s n l : (forall f kw q, ~ quoted_line s f kw q) -> line_of s n l -> retired_to o o' n l s.
Proof.
  intros NQ [B|f k q t Q U|f q t Q U|k c C NQ'].
  - left. split; [reflexivity|constructor; exact B].
  - destruct (NQ _ _ _ Q).
  - destruct (NQ _ _ _ Q).
  - right. split; [discriminate|]. exists (PComment n k c). split; [constructor; assumption|]. split; [discriminate|constructor].
Qed.
Lemma line_retired s s' n l : retired s s' -> line_of s n l -> retired_to false true n l s'.
Proof.
  intros [a a' f kw q I Q Q'|a NQ] E; [|eapply other_retired; eassumption].
  eapply (quoted_retired _ _ a a' f); [apply flags_swap, I| |eassumption|eassumption|exact E]. intros k. symmetry. apply flags_tag, I.
Qed.
Lemma line_revived s s' n l : retired s s' -> line_of s' n l -> retired_to true false n l s.
Proof.
  intros [a a' f kw q I Q Q'|a NQ] E; [|eapply other_retired; eassumption].
  eapply (quoted_retired _ _ a' a (126 :: f)); [apply flags_swap, I| |eassumption|eassumption|exact E]. intros k. apply flags_tag, I.
Qed.
Lemma parsed_swapped o o' (R : str -> str -> Prop) : (forall s s' n l, R s s' -> line_of s n l -> retired_to o o' n l s') ->
  forall ls ls', Forall2 R ls ls' -> plain ls' -> forall n b, parsed n ls None b None -> exists b', parsed n ls' None b' None /\ Forall2 (swapped o o') b b'.
Proof.
  intros HR. induction 1 as [|s s' ls ls' Rs F IH]; intros P n b H; [inversion H; subst; exists []; split; constructor|].
  apply plain_cons in P as [O P]. inversion H as [| | |? ? ? ? ? ? O' E Ht|? ? l ? ? pl0 ? O' E NB Ht]; subst; destruct (IH P _ _ Ht) as (b' & Q & S).
  - destruct (HR _ _ _ _ Rs E) as [[_ B]|[X _]]; [|destruct (X eq_refl)]. exists b'. split; [apply ps_blank; assumption|exact S].
  - destruct (HR _ _ _ _ Rs E) as [[X _]|(_ & l' & El & NB' & Sw)]; [destruct (NB X)|]. exists (l' :: b'). split; [apply ps_line; assumption|constructor; assumption].
Qed.
Theorem entry_retired forms ls ls' u : Forall2 retired ls ls' -> plain ls' -> entry_text forms ls u ->
  u_obsolete u = false /\ entry_text forms ls' (retired_unit u).
Proof.
  intros F P (b & R & E & S). destruct (parsed_swapped false true retired line_retired _ _ F P _ _ R) as (b' & R' & Sw).
  destruct (entry_swap _ _ _ _ _ E _ Sw) as [O E']. split; [exact O|]. exists b'. split; [exact R'|]. split; [exact E'|exact S].
Qed.
Theorem entry_revived forms ls ls' u' : Forall2 retired ls ls' -> plain ls -> entry_text forms ls' u' ->
  exists u, entry_text forms ls u /\ u_obsolete u = false /\ u' = retired_unit u.
Proof.
  intros F P (b & R & E & S).
  assert (Forall2 (fun s s' => retired s' s) ls' ls) as F' by (clear - F; induction F; constructor; assumption).
  destruct (parsed_swapped true false (fun s s' => retired s' s) (fun s s' => line_revived s' s) _ _ F' P _ _ R) as (b' & R' & Sw).
  destruct (entry_swap _ _ _ _ _ E _ Sw) as [O E']. eexists. split; [exists b'; split; [exact R'|]; split; [exact E'|exact S]|].
  split; [reflexivity|]. destruct u'; cbn in *. rewrite O. reflexivity.
Qed.
Lemma texts_retired forms blks blks' us us' : some_retired blks blks' us us' -> plain (concat blks') -> Forall2 (entry_text forms) blks us -> Forall2 (entry_text forms) blks' us'.
Proof.
  induction 1 as [|b bs bs' u us us' S IH|b b' bs bs' u us us' R S IH]; intros P F; [constructor| |].
  all: cbn [concat] in P; apply plain_app in P as [P1 P2]; inversion F; subst; constructor; auto.
  eapply entry_retired; eassumption.
Qed.
Theorem catalogue_retired lib pf hls v ps forms blks blks' us us' bs evs : heading_text pf hls v ps forms -> Forall2 (entry_text forms) blks us ->
  some_retired blks blks' us us' -> contents bs None (hls ++ concat blks') None -> delivers evs bs None ->
  exists c, read_catalogue lib pf evs = Ok c /\ header_shown lib v ps c /\ c_items c = map UOk us'.
Proof.
  intros H F S Ct D. pose proof (contents_one_line _ _ _ _ Ct) as P. apply plain_app in P as [_ Pu].
  eapply entries_independent; [exact H|eapply texts_retired; eassumption|exact Ct|exact D].
Qed.
Theorem catalogue_retired_plain lib pf blks blks' us us' bs evs : blks <> [] -> Forall2 (entry_text None) blks us ->
  some_retired blks blks' us us' -> contents bs None (concat blks') None -> delivers evs bs None ->
  read_catalogue lib pf evs = Ok (Catalogue [] [] [] (lang_invariant lib) (map UOk us')).
Proof.
  intros NE F S Ct D. pose proof (texts_retired None _ _ _ _ S (contents_one_line _ _ _ _ Ct) F) as F'.
  destruct F' as [|blk u blks' us' E F']; [inversion S; subst; destruct NE; reflexivity|].
  eapply entries_independent_plain; eassumption.
Qed.

(** ** What is written in front of the lines *)
Lemma retired_prefix s kw q : quoted_line s [] kw q -> (forall w r, s = w ++ 35 :: r -> ~ blanks w) -> retired s (lit "#~ " ++ s).
Proof.
  intros Q NH. apply (rt_quoted _ _ [] kw q); [left; reflexivity|exact Q|].
  destruct Q as (mark & w1 & w2 & w3 & w4 & E & M & K & B1 & B2 & B3 & B4 & O). inversion M as [E1 E2|E1 E2| | |]; subst mark.
  - exists (lit "#~"), [], (32 :: w1 ++ w2), w3, w4. split; [rewrite E; cbn; rewrite <- !app_assoc; reflexivity|]. split; [constructor|]. split; [exact K|].
    split; [intros c []|]. split; [|auto].
    intros c [<-|I]; [apply is_ws_white; reflexivity|]. apply in_app_iff in I as [I|I]; [apply B1, I|apply B2, I].
  - destruct (NH w1 (w2 ++ opt_str kw ++ w3 ++ [34] ++ q ++ [34] ++ w4)); [exact E|exact B1].
Qed.
Lemma retired_bar w r kw q : blanks w -> quoted_line (w ++ lit "#|" ++ r) (lit "|") kw q -> retired (w ++ lit "#|" ++ r) (w ++ lit "#~|" ++ r).
Proof.
  intros B Q. apply (rt_quoted _ _ (lit "|") kw q); [right; left; reflexivity|exact Q|].
  destruct Q as (mark & w1 & w2 & w3 & w4 & E & M & K & B1 & B2 & B3 & B4 & O). inversion M as [E1 E2|E1 E2|E1 E2|E1 E2|E1 E2]; subst mark; try discriminate E2.
  apply ws_eq_app in E as (-> & _ & E); [|exact B|exact B1|exact hash_not_white|exact hash_not_white].
  exists (lit "#~|"), w1, w2, w3, w4. split; [|split; [constructor|auto 10]].
  apply (f_equal (fun z => match z with _ :: z' => z' | [] => [] end)) in E. cbn in E. rewrite E. reflexivity.
Qed.
