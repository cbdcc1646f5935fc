(** What the accessors of a catalogue show: header properties and plural forms. *)
From Coq Require Import String Arith NArith ZArith Bool List Lia.
From Verif Require Import ModelBase ModelUtf8 ModelRegex ModelLine ModelFormula ModelData ModelSource ModelReader
  SpecLine SpecFormula SpecSource SpecReader SpecBlock SpecHeader BaseFacts LineFacts LineThms ReaderFacts ReadsFacts CommentFacts MapFacts HeaderFacts.
Import ListNotations.
Local Open Scope N_scope.

(** * Plural forms *)
Definition plurals_have (forms : option plural_forms) (u : unit_) : Prop := forall p, plural_in u p -> pl_forms p = forms.
Lemma new_message_forms forms o id pl ls m ls' : new_message forms o id pl ls = (Ok (Some m), ls') ->
  forall p, m = MPlural p -> pl_forms p = forms.
Proof.
  unfold new_message. destruct id as [id|]; [|intros [= <- _] p; discriminate]. destruct pl as [pl|].
  - intros H. apply bind_ok in H as (vs & l1 & _ & H). destruct (is_empty vs).
    + apply bind_ok in H as (t & l2 & _ & H). discriminate.
    + injection H as <- _. intros p [= <-]. reflexivity.
  - intros H. apply bind_ok in H as ([t|] & l1 & _ & H).
    + injection H as <- _. intros p; discriminate.
    + apply bind_ok in H as (t & l2 & _ & H). discriminate.
Qed.
Lemma new_previous_forms forms id pl p : new_previous forms id pl = MPlural p -> pl_forms p = forms.
Proof. unfold new_previous. destruct id as [id|]; [|discriminate]. destruct pl as [pl|]; [|discriminate]. intros [= <-]. reflexivity. Qed.
Lemma runit_forms forms first ls u ls' : runit forms first ls = (Ok (Some u), ls') -> plurals_have forms u.
Proof.
  unfold runit. intros H. apply bind_ok in H as (u0 & l1 & _ & H). destruct (peek l1) as [[l|e]|]; try discriminate.
  apply bind_ok in H as (o & l2 & H & F). destruct o as [u'|]; [|discriminate]. cbn [finish_unit] in F. destruct (negb first && _) in F; [discriminate|].
  injection F as <- <-. unfold parse_message_fields in H.
  apply bind_ok in H as (pc & l3 & _ & H). apply bind_ok in H as (pi & l4 & _ & H). apply bind_ok in H as (pp & l5 & _ & H).
  apply bind_ok in H as (c & l6 & _ & H). apply bind_ok in H as (id & l7 & _ & H). destruct (negb first && _) in H.
  { apply bind_ok in H as (x & l8 & _ & H). discriminate. }
  apply bind_ok in H as (pl & l8 & _ & H). apply bind_ok in H as (m & l9 & N & H). destruct m as [m|]; [|discriminate].
  injection H as <- <-. intros p P.
  assert (m = MPlural p \/ new_previous forms pi pp = MPlural p) as [E|E].
  { unfold plural_in, finalize_state in P. cbn [u_state set_message set_obsolete u_message] in P. destruct (u_state u0) in P; [destruct (msg_is_blank m) in P|..]; exact P. }
  - exact (new_message_forms _ _ _ _ _ _ _ N p E).
  - exact (new_previous_forms _ _ _ _ E).
Qed.
Lemma reads_forms forms ls l : reads forms ls l -> forall u, In (UOk u) l -> plurals_have forms u.
Proof.
  induction 1 as [|ls e ls' R|ls v ls' l R _ IH]; intros u I; [destruct I|destruct I as [I|[]]; discriminate|].
  destruct I as [I|I]; [injection I as ->; exact (runit_forms _ _ _ _ _ R)|exact (IH u I)].
Qed.
Lemma header_forms_shown pf u forms : header_forms pf (header_props u) = Ok forms -> forms_shown pf (header_props u) forms.
Proof.
  intros H. destruct (header_pairs_total (msg_get_text (u_message u))) as (ps & HP). pose proof (proj1 (header_forms_iff pf u ps forms HP) H) as F.
  unfold forms_shown. rewrite (header_props_spec u ps) by exact HP. destruct F as [E|E|def f E NE F]; rewrite E; eauto.
Qed.
Theorem plural_forms_shown lib pf evs c : read_catalogue lib pf evs = Ok c ->
  exists forms, forms_shown pf (c_properties c) forms /\ forall u p, In (UOk u) (c_items c) -> plural_in u p -> pl_forms p = forms.
Proof.
  intros R. apply read_catalogue_of in R. inversion R as [|ls' E|u ls' l E M Rd|  |u ls' forms l E M HF Rd]; subst; cbn [c_properties c_items].
  - exists None. split; [exact eq_refl|intros u p []].
  - exists None. split; [exact eq_refl|]. intros v p [[= <-]|I]; [exact (runit_forms _ _ _ _ _ E p)|exact (reads_forms _ _ _ Rd v I p)].
  - exists forms. split; [exact (header_forms_shown _ _ _ HF)|]. intros v p I. exact (reads_forms _ _ _ Rd v I p).
Qed.
(** Parsing the definition shown again gives the same plural forms. *)
Theorem definition_reparsed pf def f : plural_forms_parse pf def = Ok f -> pf_definition f = def /\ plural_forms_parse pf (pf_definition f) = Ok f.
Proof.
  intros H. assert (pf_definition f = def) as E; [|rewrite E; auto].
  unfold plural_forms_parse in H. destruct (parse_map def) as [m|]; [|discriminate]. destruct (formula_parse _); [|discriminate].
  destruct (sm_get _ m) as [s|]; [destruct (parse_unsigned _ s); [|discriminate]|]; injection H as <-; reflexivity.
Qed.

(** * Header properties *)
Lemma in_header_map text k vs : In (k, vs) (header_map text) ->
  (exists l a b, In l (split_on (N.eqb 10) text) /\ l = a ++ 58 :: b /\ ~ In 58 a /\ k = trim a)
  /\ vs <> [] /\ Forall (fun v => exists l a b, In l (split_on (N.eqb 10) text) /\ l = a ++ 58 :: b /\ v = trim b) vs.
Proof.
  unfold header_map. generalize (split_on (N.eqb 10) text). intros all.
  assert (forall ls m, incl ls all ->
    (forall k vs, In (k, vs) m -> (exists l a b, In l all /\ l = a ++ 58 :: b /\ ~ In 58 a /\ k = trim a) /\ vs <> [] /\ Forall (fun v => exists l a b, In l all /\ l = a ++ 58 :: b /\ v = trim b) vs) ->
    forall k vs, In (k, vs) (fold_left header_line ls m) -> (exists l a b, In l all /\ l = a ++ 58 :: b /\ ~ In 58 a /\ k = trim a) /\ vs <> [] /\ Forall (fun v => exists l a b, In l all /\ l = a ++ 58 :: b /\ v = trim b) vs) as K.
  { induction ls as [|l ls IH]; intros m Hi Hm k0 vs0 I; cbn [fold_left] in I; [exact (Hm _ _ I)|].
    revert I. apply IH; [intros x Ix; apply Hi; right; exact Ix|]. clear k0 vs0. intros k0 vs0. unfold header_line.
    destruct (find_char 58 l) as [[a b]|] eqn:F; [|apply Hm]. apply find_char_some in F as [El Na].
    assert (In l all) as Il by (apply Hi; left; reflexivity).
    assert (forall (m' : smap (list str)) v, In (k0, vs0) (sm_insert (trim a) v m') -> (k0 = trim a /\ vs0 = v) \/ In (k0, vs0) m') as INS.
    { induction m' as [|[k' v'] m' IHm]; intros v; cbn [sm_insert In]; [intros [[= <- <-]|[]]; auto|].
      destruct (str_eqb (trim a) k'); cbn [In]; [intros [[= <- <-]|I]; auto|]. intros [[= <- <-]|I]; [auto|]. destruct (IHm _ I); auto. }
    intros I. apply INS in I as [[-> ->]|I]; [|exact (Hm _ _ I)]. split; [exists l, a, b; auto|]. split.
    - intros E. apply app_eq_nil in E as [_ E]. discriminate.
    - apply Forall_app. split; [|constructor; [exists l, a, b; auto|constructor]].
      destruct (sm_get (trim a) m) as [old|] eqn:G; [|constructor].
      assert (exists k1, In (k1, old) m) as (k1 & Ik).
      { clear - G. induction m as [|[k' v'] m IHm]; cbn [sm_get] in G; [discriminate|]. destruct (str_eqb (trim a) k'); [injection G as ->; exists k'; left; reflexivity|].
        destruct (IHm G) as (k1 & I). exists k1. right; exact I. }
      exact (proj2 (proj2 (Hm _ _ Ik))). }
  intros I. refine (K all [] (incl_refl _) _ k vs I). intros k0 vs0 [].
Qed.
Lemma trims s : trims_to s (trim s).
Proof. apply trims_to_iff. reflexivity. Qed.
Lemma trim_no_colon a : ~ In 58 a -> ~ In 58 (trim a).
Proof. destruct (trim_decomp a) as (w1 & w2 & E & _). intros N I. apply N. rewrite E. apply in_or_app; right. apply in_or_app; left. exact I. Qed.
Lemma extend_in m : forall props k v, In (k, v) (extend_properties props m) ->
  In (k, v) props \/ exists vs, In (k, vs) m /\ v = join [32] vs.
Proof.
  unfold extend_properties. induction m as [|[k' vs'] m IH]; intros props k v I; cbn [fold_left fst snd] in I; [left; exact I|].
  apply IH in I as [I|(vs & I & E)]; [|right; exists vs; split; [right; exact I|exact E]].
  assert (forall (m' : smap str), In (k, v) (sm_insert k' (join [32] vs') m') -> (k = k' /\ v = join [32] vs') \/ In (k, v) m') as INS.
  { induction m' as [|[k1 v1] m' IHm]; cbn [sm_insert In]; [intros [[= <- <-]|[]]; auto|].
    destruct (str_eqb k' k1); cbn [In]; [intros [[= <- <-]|J]; auto|]. intros [[= <- <-]|J]; [auto|]. destruct (IHm J); auto. }
  apply INS in I as [[-> ->]|I]; [right; exists vs'; split; [left; reflexivity|reflexivity]|left; exact I].
Qed.
Lemma extend_nodup m : forall props, NoDup (map fst props) -> NoDup (map fst (extend_properties props m)).
Proof. unfold extend_properties. induction m as [|[k v] m IH]; intros props H; cbn [fold_left]; [exact H|]. apply IH, insert_nodup, H. Qed.
Lemma header_props_shape u k v : In (k, v) (header_props u) -> property_shape k v.
Proof.
  unfold header_props. intros I. apply extend_in in I as [[]|(vs & I & ->)]. apply in_header_map in I as ((l & a & b & Il & El & Na & ->) & NE & F).
  destruct (separated_split 10 (msg_get_text (u_message u))) as [_ OL].
  assert (forall l a b, In l (split_on (N.eqb 10) (msg_get_text (u_message u))) -> l = a ++ 58 :: b -> one_line a /\ one_line b) as OLs.
  { intros l0 a0 b0 I E. specialize (OL _ I). subst l0. apply one_line_app in OL as [O1 O2]. apply one_line_cons in O2 as [_ O2]. auto. }
  split; [|split].
  - pose proof (trims a) as (w & w' & _ & _ & _ & T). exact T.
  - split; [apply trim_one_line, (OLs _ _ _ Il El)|apply trim_no_colon, Na].
  - exists vs. split; [exact NE|]. split; [apply join_separated|]. apply Forall_forall. intros x Ix. rewrite Forall_forall in F.
    destruct (F x Ix) as (l1 & a1 & b1 & I1 & E1 & ->). pose proof (trims b1) as (w & w' & _ & _ & _ & T). split; [exact T|]. apply trim_one_line, (OLs _ _ _ I1 E1).
Qed.
Theorem properties_shape lib pf evs c : read_catalogue lib pf evs = Ok c ->
  NoDup (map fst (c_properties c)) /\ forall k v, In (k, v) (c_properties c) -> property_shape k v.
Proof.
  intros R. apply read_catalogue_of in R. inversion R as [|ls' E|u ls' l E M Rd|  |u ls' forms l E M HF Rd]; subst; cbn [c_properties];
    try (split; [constructor|intros k v []]).
  split; [apply extend_nodup; constructor|]. apply header_props_shape.
Qed.
