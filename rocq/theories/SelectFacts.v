(** From the header's definition to the form selected. *)
From Coq Require Import String Arith NArith ZArith Bool List Lia Sorted.
From Verif Require Import ModelBase ModelUtf8 ModelRegex ModelLine ModelFormula ModelData ModelSource ModelReader
  SpecLine SpecFormula SpecSource SpecReader SpecBlock SpecHeader SpecFile SpecWriter BaseFacts LineFacts DecFacts SourceFacts FormulaFacts FormulaThms EvalFacts
  MapFacts HeaderFacts FileFacts BlockThms EntryThms HeaderThms HeaderWitness.
Import ListNotations.
Local Open Scope N_scope.

(** Sorted, below the length: no number is missing. *)
Lemma sorted_seq ks : forall a, StronglySorted N.lt ks -> Forall (fun k => a <= k /\ k < a + N.of_nat (length ks)) ks ->
  forall j, nth_error ks j = if (j <? length ks)%nat then Some (a + N.of_nat j) else None.
Proof.
  assert (forall ks a c, StronglySorted N.lt ks -> Forall (fun k => a <= k /\ k < c) ks -> a <= c -> a + N.of_nat (length ks) <= c) as L.
  { clear. induction ks as [|k ks IH]; intros a c S F I; cbn [length]; [lia|]. inversion S as [|? ? S' H]; inversion F as [|? ? Hk F']; subst.
    rewrite Nat2N.inj_succ. assert (k + 1 + N.of_nat (length ks) <= c); [|lia]. apply IH; [exact S'| |lia].
    rewrite Forall_forall in H, F' |- *. intros x Ix. specialize (H x Ix). specialize (F' x Ix). lia. }
  induction ks as [|k ks IH]; intros a S F j; [destruct j; reflexivity|]. inversion S as [|? ? S' H]; inversion F as [|? ? Hk F']; subst.
  cbn [length] in *. rewrite Nat2N.inj_succ in *.
  assert (Forall (fun x => k + 1 <= x /\ x < a + N.succ (N.of_nat (length ks))) ks) as G.
  { rewrite Forall_forall in H, F' |- *. intros x Ix. specialize (H x Ix). specialize (F' x Ix). lia. }
  assert (k = a) as ->.
  { pose proof (L ks (k + 1) (a + N.succ (N.of_nat (length ks))) S' G). lia. }
  destruct j as [|j]; cbn [nth_error]; [change ((0 <? Datatypes.S (length ks))%nat) with true; cbn; f_equal; lia|].
  rewrite (IH (a + 1) S'); [|eapply Forall_impl; [|exact G]; cbn; intros x Hx; lia].
  change ((Datatypes.S j <? Datatypes.S (length ks))%nat) with ((j <? length ks)%nat). destruct (j <? length ks)%nat; [f_equal; lia|reflexivity].
Qed.
(** With as many values as there are forms the values are the forms. *)
Theorem all_forms_given lib pf evs ls e pl tl c k u p : file evs ls e pl tl -> read_catalogue lib pf evs = Ok c -> nth_error (c_items c) k = Some (UOk u) ->
  u_message u = MPlural p -> N.of_nat (length (pl_values p)) = nforms (pl_forms p) ->
  exists b, unit_at lib pf pl tl c k (pl_forms p) b u /\ forall i s, form_at b (N.of_nat i) s <-> nth_error (pl_values p) i = Some s.
Proof.
  intros Fi R I Em L. destruct (unit_values lib pf evs ls e pl tl c k u p Fi R I Em) as (b & ks & U & So & Fo & Le & H & _).
  exists b. split; [exact U|]. intros i s. rewrite H.
  pose proof (sorted_seq ks 0 So) as Q. rewrite Le, L in Q. cbn [N.add] in Q.
  assert (forall j, nth_error ks j = if (j <? length (pl_values p))%nat then Some (N.of_nat j) else None) as Q'.
  { intros j. apply Q. eapply Forall_impl; [|exact Fo]. cbn. intros x Hx. lia. }
  split.
  - intros (j & Hj & Hs). rewrite Q' in Hj. destruct (j <? length (pl_values p))%nat; [|discriminate]. injection Hj as Hj.
    apply Nat2N.inj in Hj. subst j. exact Hs.
  - intros Hs. exists i. split; [|exact Hs]. rewrite Q'. assert (i < length (pl_values p))%nat as X by (apply nth_error_Some; congruence).
    apply Nat.ltb_lt in X. rewrite X. reflexivity.
Qed.

Lemma forms_definitions kd src : (forall c, In c kd -> 48 <= c <= 57) -> ~ In 59 src -> not_white_first src -> not_white_last src ->
  definitions (forms_definition kd src) [(lit "nplurals", kd); (lit "plural", src)].
Proof.
  intros D N A B. assert (blanks []) as Bn by (intros c []). assert (blanks [32]) as Bs by (intros c [<-|[]]; vm_compute; tauto).
  assert (forall k, (forall c, In c k -> 97 <= c <= 122) -> forall c, In c k -> ~ white c /\ c <> 61) as Kw.
  { intros k H c I. specialize (H c I). split; [|lia]. intros W. unfold white, white_points in W. cbn in W. lia. }
  assert (forall c, 48 <= c <= 57 -> ~ white c) as Wd by (intros c H W; unfold white, white_points in W; cbn in W; lia).
  change (forms_definition kd src) with ([] ++ lit "nplurals" ++ [] ++ 61 :: kd ++ 59 :: ([32] ++ lit "plural" ++ [] ++ 61 :: src ++ 59 :: [])).
  apply df_more; try assumption.
  - discriminate.
  - apply Kw. intros c I. vm_compute in I. lia.
  - intros I. specialize (D 59 I). lia.
  - exists [], []. rewrite app_nil_r. repeat split; auto.
    + intros c s E. apply Wd, D. rewrite E. left. reflexivity.
    + intros c s E. apply Wd, D. rewrite E. apply in_or_app. right. left. reflexivity.
  - apply df_more; try assumption.
    + discriminate.
    + apply Kw. intros c I. vm_compute in I. lia.
    + exists [], []. rewrite app_nil_r. repeat split; auto.
    + apply df_end, Bn.
Qed.
Theorem forms_read pf count kd src ts e : decimal count kd -> count < 2 ^ usize_bits pf -> one_line src -> ~ In 59 src -> not_white_first src -> not_white_last src ->
  ~ blanks src -> tokens_of src ts -> derives GExpr ts e ->
  forall f, forms_of pf (forms_definition kd src) f <-> f = PluralForms e count (forms_definition kd src) src.
Proof.
  intros Dc Lt O N A B NB T De f.
  assert (kd <> [] /\ (forall c, In c kd -> 48 <= c <= 57) /\ Z.of_N count = digits_value kd) as (NE & Dg & Dv).
  { clear -Dc. induction Dc as [d Hd|m d s Hm Hd D IH].
    - split; [discriminate|]. split; [intros c I; destruct I as [<-|[]]; lia|]. unfold digits_value. cbn [fold_left]. lia.
    - destruct IH as (NE & Dg & Dv). split; [destruct s; discriminate|]. split.
      + intros c I. apply in_app_or in I as [I|[<-|[]]]; [apply Dg, I|lia].
      + unfold digits_value in *. rewrite fold_left_app. cbn [fold_left]. unfold str, char in *. rewrite <- Dv. lia. }
  pose proof (forms_definitions kd src Dg N A B) as Df.
  assert (one_line (forms_definition kd src)) as OL.
  { unfold forms_definition, one_line. rewrite !in_app_iff. intros [I|[I|[I|[I|I]]]]; try (vm_compute in I; intuition discriminate).
    - specialize (Dg _ I). lia.
    - exact (O I). }
  assert (forms_of pf (forms_definition kd src) (PluralForms e count (forms_definition kd src) src)) as G.
  { exists [(lit "nplurals", kd); (lit "plural", src)]. split.
    - apply definition_list_accepted; [exact OL|]. destruct (definitions_read _ _ OL Df) as (m & E & _). exists m. exact E.
    - split; [apply definitions_bindings, Df|]. split; [reflexivity|]. split; [reflexivity|]. split.
      + right. split; [exact NB|]. exists ts. split; [exact T|exact De].
      + change (last_value (lit "nplurals") [(lit "nplurals", kd); (lit "plural", src)]) with (Some kd). exists kd. auto. }
  split; [|intros ->; exact G]. intros H. apply (forms_parse_iff pf _ _ OL) in H, G. congruence.
Qed.

Theorem plural_selection_by lib pf evs ls er pl tl h u ps r c count kd src ts e k v p n x :
  file evs ls er pl tl -> pl = h ++ r -> first_entry h r tl u -> header u ps ->
  property ps (lit "Plural-Forms") = Some (forms_definition kd src) ->
  decimal count kd -> count < 2 ^ usize_bits pf -> one_line src -> ~ In 59 src -> not_white_first src -> not_white_last src -> ~ blanks src ->
  tokens_of src ts -> derives GExpr ts e ->
  read_catalogue lib pf evs = Ok c -> nth_error (c_items c) k = Some (UOk v) -> u_message v = MPlural p -> N.of_nat (length (pl_values p)) = count ->
  (literals_ok e -> forall f, pf_formula f = e -> forms_get_value pf f n =
     Some (if (0 <=? x)%Z && (x <? Z.of_N (pf_count f))%Z then Some (Z.to_N x) else None)) ->
  exists b, unit_at lib pf pl tl c k (pl_forms p) b v /\
    ((0 <= x < Z.of_N count)%Z -> exists s, form_at b (Z.to_N x) s /\ msg_get_plural_text pf (u_message v) n = Some (Some s))
    /\ ((x < 0 \/ Z.of_N count <= x)%Z -> msg_get_plural_text pf (u_message v) n = Some None).
Proof.
  intros Fi E Fe H Hp Dc Lt O N A B NB T De R I Em L HV.
  destruct (read_header_ok lib pf evs ls er pl tl h u ps r c Fi E Fe H R) as (_ & forms & us & o & HF & Bl & Ei).
  assert (forms = Some (PluralForms e count (forms_definition kd src) src)) as ->.
  { destruct HF as [E'|E'|def f E' NE' Hf]; [congruence|rewrite Hp in E'; discriminate E'|]. rewrite Hp in E'. injection E' as <-.
    f_equal. eapply forms_read; eassumption. }
  assert (pl_forms p = Some (PluralForms e count (forms_definition kd src) src)) as Ef.
  { apply nth_error_In in I. rewrite Ei in I. apply blocks_units in Bl as (bls & rest & _ & F). apply in_units in I. rewrite units_items in I.
    destruct (Forall2_in_r _ _ _ _ F I) as (b & _ & Ev & _). exact (entry_plural_forms _ _ _ _ Ev Em). }
  destruct (all_forms_given lib pf evs ls er pl tl c k v p Fi R I Em) as (b & U & Fm); [rewrite Ef; exact L|].
  exists b. split; [exact U|]. rewrite Em. cbn [msg_get_plural_text]. unfold plural_get. rewrite Ef.
  rewrite HV; [| |reflexivity].
  - cbn [pf_count]. split.
    + intros X. destruct ((0 <=? x)%Z && (x <? Z.of_N count)%Z) eqn:Y; [|exfalso; apply andb_false_iff in Y as [Y|Y]; lia].
      destruct (nth_error (pl_values p) (N.to_nat (Z.to_N x))) as [s|] eqn:Es.
      * exists s. split; [|reflexivity]. replace (Z.to_N x) with (N.of_nat (N.to_nat (Z.to_N x))) by lia. apply Fm, Es.
      * exfalso. apply nth_error_None in Es. lia.
    + intros X. destruct ((0 <=? x)%Z && (x <? Z.of_N count)%Z) eqn:Y; [exfalso; apply andb_prop in Y as [Y Z]; lia|reflexivity].
  - apply (formula_literals src). apply formula_parse_iff. right. split; [exact NB|]. exists ts. split; [exact T|exact De].
Qed.

Theorem plural_selection lib pf evs ls er pl tl h u ps r c count kd src ts e k v p n x :
  file evs ls er pl tl -> pl = h ++ r -> first_entry h r tl u -> header u ps ->
  property ps (lit "Plural-Forms") = Some (forms_definition kd src) ->
  decimal count kd -> count < 2 ^ usize_bits pf -> one_line src -> ~ In 59 src -> not_white_first src -> not_white_last src -> ~ blanks src ->
  tokens_of src ts -> derives GExpr ts e ->
  read_catalogue lib pf evs = Ok c -> nth_error (c_items c) k = Some (UOk v) -> u_message v = MPlural p -> N.of_nat (length (pl_values p)) = count ->
  word64 pf -> n < 2 ^ 63 -> value e (Z.of_N n) = Some x ->
  exists b, unit_at lib pf pl tl c k (pl_forms p) b v /\
    ((0 <= x < Z.of_N count)%Z -> exists s, form_at b (Z.to_N x) s /\ msg_get_plural_text pf (u_message v) n = Some (Some s))
    /\ ((x < 0 \/ Z.of_N count <= x)%Z -> msg_get_plural_text pf (u_message v) n = Some None).
Proof.
  intros. eapply plural_selection_by; try eassumption. intros L f <-. apply get_value_math; assumption.
Qed.
(** For every count, in machine arithmetic. *)
Theorem plural_selection_machine lib pf evs ls er pl tl h u ps r c count kd src ts e k v p n w x :
  file evs ls er pl tl -> pl = h ++ r -> first_entry h r tl u -> header u ps ->
  property ps (lit "Plural-Forms") = Some (forms_definition kd src) ->
  decimal count kd -> count < 2 ^ usize_bits pf -> one_line src -> ~ In 59 src -> not_white_first src -> not_white_last src -> ~ blanks src ->
  tokens_of src ts -> derives GExpr ts e ->
  read_catalogue lib pf evs = Ok c -> nth_error (c_items c) k = Some (UOk v) -> u_message v = MPlural p -> N.of_nat (length (pl_values p)) = count ->
  word64 pf -> overflow_checks pf = false \/ no_neg e -> congruent w (Z.of_N n) -> runs w e x ->
  exists b, unit_at lib pf pl tl c k (pl_forms p) b v /\
    ((0 <= x < Z.of_N count)%Z -> exists s, form_at b (Z.to_N x) s /\ msg_get_plural_text pf (u_message v) n = Some (Some s))
    /\ ((x < 0 \/ Z.of_N count <= x)%Z -> msg_get_plural_text pf (u_message v) n = Some None).
Proof.
  intros. eapply plural_selection_by; try eassumption. intros L f <-. 
  match goal with H : congruent _ _ |- _ => pose proof H as [W _]; apply congruent_wrap in H as -> end.
  match goal with H : runs _ _ _ |- _ => apply execute_runs in H; [|exact W|exact L]; rename H into Rn end.
  assert (execute (overflow_checks pf) (pf_formula f) (wrap64 (Z.of_N n)) = Some x) as Ex.
  { destruct (overflow_checks pf); [|exact Rn]. 
    match goal with H : _ \/ no_neg _ |- _ => destruct H as [H|H]; [discriminate H|] end.
    destruct (execute_no_neg (pf_formula f) (wrap64 (Z.of_N n))) as (x' & Ex); [assumption|]. pose proof (execute_checks _ _ _ Ex). congruence. }
  destruct ((0 <=? x)%Z && (x <? Z.of_N (pf_count f))%Z) eqn:E.
  - apply get_value_iff; try assumption. split; [rewrite Ex; f_equal; lia|lia].
  - apply get_value_none; try assumption. exists x. split; [exact Ex|lia].
Qed.
