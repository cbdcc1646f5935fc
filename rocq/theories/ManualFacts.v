(** The rules of the gettext manual, from the header to the text selected. *)
From Coq Require Import String Arith NArith ZArith Bool List Lia.
From Verif Require Import ModelBase ModelUtf8 ModelRegex ModelLine ModelFormula ModelData ModelSource ModelReader
  SpecLine SpecFormula SpecSource SpecReader SpecBlock SpecHeader SpecFile SpecWriter SpecManual BaseFacts LineFacts DecFacts SourceFacts FormulaFacts FormulaThms EvalFacts
  MapFacts HeaderFacts FileFacts BlockThms EntryThms HeaderThms HeaderWitness SelectFacts ReaderFacts StreamThms FileIntro.
Import ListNotations.
Local Open Scope N_scope.

(** Everything that can be computed. *)
Definition rule_ok (r : language_rule) : bool :=
  (0 <? lr_count r) && (lr_count r <? 10) && negb (existsb (N.eqb 10) (lr_formula r)) && negb (existsb (N.eqb 59) (lr_formula r))
  && match lr_formula r with c :: _ => negb (is_ws c) | [] => false end && match rev (lr_formula r) with c :: _ => negb (is_ws c) | [] => false end.
Lemma rules_ok : forallb rule_ok rules = true.
Proof. vm_compute. reflexivity. Qed.


Lemma fits_ok z : (0 <= z <= 9223372036854775807)%Z -> fits z = Some z.
Proof.
  intros L. unfold fits, min64, max64. replace ((- 2 ^ 63 <=? z) && (z <=? 2 ^ 63 - 1))%Z with true; [reflexivity|].
  symmetry. change (2 ^ 63)%Z with 9223372036854775808%Z. apply andb_true_iff. split; apply Z.leb_le; lia.
Qed.
Lemma rem_mod n k : k <> 0 -> Z.rem (Z.of_N n) (Z.of_N k) = Z.of_N (n mod k).
Proof. intros K. rewrite N2Z.inj_mod. apply Z.rem_mod_nonneg; lia. Qed.
Lemma last_digits n : exists q, last2 n = 10 * q + last1 n /\ last1 n < 10 /\ last2 n < 100 /\ last2 n <= n /\ (n < 100 -> last2 n = n) /\ (n < 10 -> last1 n = n)
  /\ (last2 n < n -> 100 <= n).
Proof.
  unfold last1, last2. exists ((n mod 100) / 10).
  pose proof (N.div_mod (n mod 100) 10 ltac:(lia)) as D. pose proof (N.mod_lt n 10 ltac:(lia)). pose proof (N.mod_lt n 100 ltac:(lia)).
  assert ((n mod 100) mod 10 = n mod 10) as E by (change 100 with (10 * 10); rewrite N.mod_mul_r by lia; rewrite (N.mul_comm 10 (_ mod _)), N.mod_add by lia; apply N.mod_mod; lia).
  rewrite E in D. repeat split; try assumption.
  - apply N.mod_le; lia.
  - intros; apply N.mod_small; assumption.
  - intros; apply N.mod_small; assumption.
  - intros X. destruct (N.lt_ge_cases n 100) as [Y|Y]; [|exact Y]. rewrite N.mod_small in X by exact Y. lia.
Qed.
Ltac split_tests :=
  repeat (cbn [b2z negb andb orb Z.eqb Pos.eqb]; match goal with
  | |- context [(Z.of_N ?x =? ?y)%Z] => destruct (Z.eqb_spec (Z.of_N x) y); try lia
  | |- context [(Z.of_N ?x <? ?y)%Z] => destruct (Z.ltb_spec (Z.of_N x) y); try lia
  | |- context [(Z.of_N ?x <=? ?y)%Z] => destruct (Z.leb_spec (Z.of_N x) y); try lia
  | |- context [(Z.of_N ?x >? ?y)%Z] => rewrite (Z.gtb_ltb (Z.of_N x) y); destruct (Z.ltb_spec y (Z.of_N x)); try lia
  | |- context [(Z.of_N ?x >=? ?y)%Z] => rewrite (Z.geb_leb (Z.of_N x) y); destruct (Z.leb_spec y (Z.of_N x)); try lia
  | |- context [(?x =? ?y)%N] => destruct (N.eqb_spec x y); try lia
  | |- context [(?x <=? ?y)%N] => destruct (N.leb_spec x y); try lia
  end).
Theorem rules_value : Forall (fun r => exists e, formula_parse (lr_formula r) = Some e
  /\ forall n, n < 2 ^ 63 -> value e (Z.of_N n) = Some (Z.of_N (lr_form r n)) /\ lr_form r n < lr_count r) rules.
Proof.
  unfold rules. repeat constructor; (eexists; split; [vm_compute; reflexivity|]); intros n L;
  change (2 ^ 63) with 9223372036854775808 in L; cbn [lr_form lr_count]; cbn [value bin_value];
  rewrite ?(fits_ok (Z.of_N n)) by lia; rewrite ?fits_ok by lia; cbn [Z.eqb Pos.eqb];
  change 10%Z with (Z.of_N 10); change 100%Z with (Z.of_N 100); rewrite ?rem_mod by lia;
  change (n mod 10) with (last1 n); change (n mod 100) with (last2 n); unfold between; destruct (last_digits n) as (q & D & D1 & D2 & D3 & D4 & D5 & D6);
  generalize dependent (last1 n); generalize dependent (last2 n); intros b D2 D3 D4 D6 a D D1 D5.
  all: split_tests.
  all: cbn [b2z negb andb orb]; split; [f_equal; lia|lia].
Qed.
Lemma rule_forms pf r e : rule_ok r = true -> formula_parse (lr_formula r) = Some e -> 8 <= usize_bits pf ->
  (exists ts, tokens_of (lr_formula r) ts /\ derives GExpr ts e) /\ decimal (lr_count r) [48 + lr_count r] /\ lr_count r < 2 ^ usize_bits pf
  /\ one_line (lr_formula r) /\ ~ In 59 (lr_formula r) /\ not_white_first (lr_formula r) /\ not_white_last (lr_formula r) /\ ~ blanks (lr_formula r).
Proof.
  unfold rule_ok. intros H P B. repeat (apply andb_prop in H as [H ?]). apply N.ltb_lt in H.
  match goal with X : (lr_count r <? 10) = true |- _ => apply N.ltb_lt in X; rename X into Lt end.
  match goal with X : match lr_formula r with _ => _ end = true |- _ => rename X into A end.
  match goal with X : match rev _ with _ => _ end = true |- _ => rename X into Z end.
  assert (forall x, negb (existsb (N.eqb x) (lr_formula r)) = true -> ~ In x (lr_formula r)) as Ex.
  { intros x X I. apply negb_true_iff in X. rewrite <- not_true_iff_false in X. apply X, existsb_exists. exists x. split; [exact I|apply N.eqb_refl]. }
  assert (not_white_first (lr_formula r)) as F.
  { intros c s E. rewrite E in A. intros W. apply is_ws_white in W. rewrite W in A. discriminate A. }
  assert (~ blanks (lr_formula r)) as NB.
  { intros W. destruct (lr_formula r) as [|c s] eqn:E; [discriminate A|]. apply (F c s eq_refl), W. left; reflexivity. }
  repeat split; auto.
  - apply formula_parse_iff in P as [[W _]|[_ T]]; [contradiction|exact T].
  - apply dc_digit, Lt.
  - apply N.lt_le_trans with (2 ^ 8); [change (2 ^ 8) with 256; lia|]. apply N.pow_le_mono_r; lia.
  - apply Ex; assumption.
  - intros c s E W. rewrite E, rev_app_distr in Z. cbn in Z. apply is_ws_white in W. rewrite W in Z. discriminate Z.
Qed.
Theorem manual_rules lib pf evs ls er pl tl h u ps r rule :
  In rule rules -> file evs ls er pl tl -> pl = h ++ r -> first_entry h r tl u -> header u ps ->
  property ps (lit "Plural-Forms") = Some (rule_definition rule) -> 8 <= usize_bits pf ->
  exists c, read_catalogue lib pf evs = Ok c /\
    forall k v p n, nth_error (c_items c) k = Some (UOk v) -> u_message v = MPlural p -> N.of_nat (length (pl_values p)) = lr_count rule -> n < 2 ^ 63 ->
      exists b s, unit_at lib pf pl tl c k (pl_forms p) b v /\ form_at b (lr_form rule n) s /\ msg_get_plural_text pf (u_message v) n = Some (Some s).
Proof.
  intros I Fi E Fe H Hp B. pose proof rules_ok as Ok0. rewrite forallb_forall in Ok0. specialize (Ok0 _ I).
  pose proof rules_value as V. rewrite Forall_forall in V. destruct (V _ I) as (e & P & Ve). clear V.
  destruct (rule_forms pf rule e Ok0 P B) as ((ts & T & De) & Dc & Lt & O & N & A & Z & NB).
  change (rule_definition rule) with (forms_definition [48 + lr_count rule] (lr_formula rule)) in Hp.
  destruct (read_catalogue lib pf evs) as [c|x|] eqn:R.
  - exists c. split; [reflexivity|]. intros k v p n Ik Em L Ln. destruct (Ve n Ln) as [Vn Rn].
    destruct (plural_selection_by lib pf evs ls er pl tl h u ps r c (lr_count rule) [48 + lr_count rule] (lr_formula rule) ts e k v p n (Z.of_N (lr_form rule n))
      Fi E Fe H Hp Dc Lt O N A Z NB T De R Ik Em L) as (b & U & Fm & _).
    + intros Lo f Ef. unfold forms_get_value.
      assert (formula_execute pf (pf_formula f) n = Some (Some (lr_form rule n))) as ->.
      { unfold formula_execute. rewrite Ef, wrap64_id by (change (2 ^ 63) with 9223372036854775808 in Ln; unfold in64, min64, max64; lia).
        rewrite (execute_value _ _ _ _ Vn). destruct (Z.ltb_spec (Z.of_N (lr_form rule n)) 0); [lia|]. rewrite N2Z.id, N.mod_small by lia. reflexivity. }
      rewrite N2Z.id. destruct (Z.leb_spec 0 (Z.of_N (lr_form rule n))); [cbn [andb]|lia].
      destruct (N.ltb_spec (lr_form rule n) (pf_count f)), (Z.ltb_spec (Z.of_N (lr_form rule n)) (Z.of_N (pf_count f))); try lia; reflexivity.
    + destruct Fm as (s & Fa & G); [lia|]. rewrite N2Z.id in Fa. exists b, s. auto.
  - exfalso. assert (exists x, read_catalogue lib pf evs = Err x) as X by eauto.
    apply (proj1 (bad_plural_forms lib pf evs ls er pl tl h u ps r Fi E Fe H)) in X as (def & Hd & _ & Nf). rewrite Hp in Hd. injection Hd as <-.
    eapply Nf, forms_read; eauto.
  - exact (False_ind _ (read_catalogue_no_panic lib pf evs R)).
Qed.
