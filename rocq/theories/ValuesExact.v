(** When value i of a plural entry is the text of msgstr[i]: exactly if no index is missing. *)
From Coq Require Import String Arith NArith Bool List Lia Sorted FinFun.
From Verif Require Import ModelBase ModelUtf8 ModelLine ModelFormula ModelData ModelSource ModelReader
  SpecLine SpecSource SpecReader SpecBlock SpecHeader SpecFile SpecAny BlockFacts FileIntro BlockThms EntryThms PlaceFacts HeaderThms BlockWitness AnyFacts AnyParts.
Import ListNotations.
Local Open Scope N_scope.

Lemma sorted_nodup ks : StronglySorted N.lt ks -> NoDup ks.
Proof.
  induction 1 as [|k ks S IH F]; constructor; [|exact IH]. intros I. pose proof (proj1 (Forall_forall _ _) F _ I). lia.
Qed.
Lemma nth_in_iff {A} (l : list A) x : In x l <-> exists j, nth_error l j = Some x.
Proof. split; [apply In_nth_error|]. intros (j & E). eapply nth_error_In; eassumption. Qed.
Lemma full_indices ks n : NoDup ks -> length ks = n -> (forall m, (m < n)%nat -> In (N.of_nat m) ks) -> forall i, In i ks -> i < N.of_nat n.
Proof.
  intros D L H i I.
  assert (incl ks (map N.of_nat (seq 0 n))) as Q.
  { apply NoDup_length_incl; [|rewrite map_length, seq_length, L; constructor|].
    - apply Injective_map_NoDup; [intros a b E; lia|apply seq_NoDup].
    - intros x X. apply in_map_iff in X as (m & <- & X). apply in_seq in X. apply H. lia. }
  specialize (Q i I). apply in_map_iff in Q as (m & <- & X). apply in_seq in X. lia.
Qed.
Lemma values_exact (b : list po_line) ks vs : StronglySorted N.lt ks -> length ks = length vs ->
  (forall i s, form_at b i s <-> exists j, nth_error ks j = Some i /\ nth_error vs j = Some s) ->
  ((forall i j s, form_at b i s -> j < i -> exists t, form_at b j t) -> forall i s, form_at b (N.of_nat i) s <-> nth_error vs i = Some s) ->
  ((forall i s, nth_error vs i = Some s -> form_at b (N.of_nat i) s) <-> (forall i j s, form_at b i s -> j < i -> exists t, form_at b j t)).
Proof.
  intros S L F G. split.
  - intros H i j s A Lt.
    assert (forall m, (m < length vs)%nat -> In (N.of_nat m) ks) as P.
    { intros m Lm. destruct (nth_error vs m) as [x|] eqn:E; [|apply nth_error_None in E; lia].
      destruct (proj1 (F _ _) (H _ _ E)) as (q & Q & _). eapply nth_error_In; eassumption. }
    pose proof (full_indices ks _ (sorted_nodup _ S) L P) as B.
    destruct (proj1 (F _ _) A) as (q & Q & _). pose proof (B i (nth_error_In _ _ Q)) as Bi.
    destruct (nth_error vs (N.to_nat j)) as [x|] eqn:E; [|apply nth_error_None in E; lia].
    exists x. replace j with (N.of_nat (N.to_nat j)) by lia. apply H, E.
  - intros H i s E. apply (G H), E.
Qed.
Theorem unit_values_exact lib pf evs ls e pl tl c k u p : file evs ls e pl tl -> read_catalogue lib pf evs = Ok c -> nth_error (c_items c) k = Some (UOk u) ->
  u_message u = MPlural p -> exists b, unit_at lib pf pl tl c k (pl_forms p) b u
    /\ ((forall i s, nth_error (pl_values p) i = Some s -> form_at b (N.of_nat i) s) <-> (forall i j s, form_at b i s -> j < i -> exists t, form_at b j t)).
Proof.
  intros Fi R E M. destruct (unit_values _ _ _ _ _ _ _ _ _ _ _ Fi R E M) as (b & ks & U & S & _ & L & F & G).
  exists b. split; [exact U|]. eapply values_exact; eassumption.
Qed.
Theorem any_values_exact lib pf evs bs f rs c k u p : pieces evs bs f -> answers 1 bs f rs -> read_catalogue lib pf evs = Ok c -> nth_error (c_items c) k = Some (UOk u) ->
  u_message u = MPlural p -> exists b, stream_unit lib pf (kept rs) c k (pl_forms p) b u
    /\ ((forall i s, nth_error (pl_values p) i = Some s -> form_at b (N.of_nat i) s) <-> (forall i j s, form_at b i s -> j < i -> exists t, form_at b j t)).
Proof.
  intros P A R E M. destruct (any_values _ _ _ _ _ _ _ _ _ _ P A R E M) as (b & ks & U & S & _ & L & F & G).
  exists b. split; [exact U|]. eapply values_exact; eassumption.
Qed.
