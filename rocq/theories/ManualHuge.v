(** The rules of the gettext manual for counts from 2^63 on. *)
From Coq Require Import String Arith NArith ZArith Bool List Lia.
From Verif Require Import ModelBase ModelUtf8 ModelRegex ModelLine ModelFormula ModelData ModelSource ModelReader
  SpecLine SpecFormula SpecSource SpecReader SpecBlock SpecHeader SpecFile SpecWriter SpecManual BaseFacts LineFacts DecFacts SourceFacts FormulaFacts FormulaThms EvalFacts
  MapFacts HeaderFacts FileFacts BlockThms EntryThms HeaderThms HeaderWitness SelectFacts ReaderFacts StreamThms FileIntro ManualFacts.
Import ListNotations.
Local Open Scope N_scope.

Lemma fits_below z : (- 9223372036854775808 <= z < 0)%Z -> fits z = Some z.
Proof.
  intros L. unfold fits, min64, max64. replace ((- 2 ^ 63 <=? z) && (z <=? 2 ^ 63 - 1))%Z with true; [reflexivity|].
  symmetry. change (2 ^ 63)%Z with 9223372036854775808%Z. apply andb_true_iff. split; apply Z.leb_le; lia.
Qed.
Lemma rem_below m k : (m < 0)%Z -> (0 < k)%Z -> (- k < Z.rem m k <= 0)%Z.
Proof.
  intros M K. pose proof (Z.rem_bound_abs m k ltac:(lia)). pose proof (Z.rem_sign_nz m k ltac:(lia)) as S. destruct (Z.eq_dec (Z.rem m k) 0) as [->|E]; [lia|]. specialize (S E).
  rewrite (Z.sgn_neg m M) in S. apply Z.sgn_neg_iff in S. lia.
Qed.
Ltac split_below :=
  repeat (cbn [b2z negb andb orb Z.eqb Pos.eqb]; match goal with
  | |- context [(?x =? ?y)%Z] => is_var x; destruct (Z.eqb_spec x y); try lia
  | |- context [(?x <? ?y)%Z] => is_var x; destruct (Z.ltb_spec x y); try lia
  | |- context [(?x <=? ?y)%Z] => is_var x; destruct (Z.leb_spec x y); try lia
  | |- context [(?x >? ?y)%Z] => is_var x; rewrite (Z.gtb_ltb x y); destruct (Z.ltb_spec y x); try lia
  | |- context [(?x >=? ?y)%Z] => is_var x; rewrite (Z.geb_leb x y); destruct (Z.leb_spec y x); try lia
  end).
Theorem huge_value : Forall2 (fun r i => i < lr_count r /\ forall e m, formula_parse (lr_formula r) = Some e -> (- 2 ^ 63 <= m < 0)%Z -> value e m = Some (Z.of_N i)) rules huge_forms.
Proof.
  unfold rules, huge_forms. repeat constructor; (cbn [lr_count lr_formula]; intros e m P M; vm_compute in P; injection P as <-;
  change (2 ^ 63)%Z with 9223372036854775808%Z in M; cbn [value bin_value];
  rewrite ?(fits_below m) by lia; rewrite ?fits_ok by lia; cbn [Z.eqb Pos.eqb];
  pose proof (rem_below m 10 ltac:(lia) ltac:(lia)) as R1; pose proof (rem_below m 100 ltac:(lia) ltac:(lia)) as R2;
  generalize dependent (Z.rem m 10); generalize dependent (Z.rem m 100); intros b R2 a R1; split_below; reflexivity).
Qed.
Lemma forall2_combine {A B} (P : A -> B -> Prop) l m x y : Forall2 P l m -> In (x, y) (combine l m) -> In x l /\ P x y.
Proof. induction 1 as [|a b l m H F IH]; cbn [combine]; intros []; [match goal with E : _ = _ |- _ => injection E as <- <- end; split; [left; reflexivity|exact H]|destruct (IH ltac:(assumption)); split; [right|]; assumption]. Qed.
Theorem huge_counts lib pf evs ls er pl tl h u ps r rule i :
  In (rule, i) (combine rules huge_forms) -> file evs ls er pl tl -> pl = h ++ r -> first_entry h r tl u -> header u ps ->
  property ps (lit "Plural-Forms") = Some (rule_definition rule) -> usize_bits pf = 64 ->
  exists c, read_catalogue lib pf evs = Ok c /\
    forall k v p n, nth_error (c_items c) k = Some (UOk v) -> u_message v = MPlural p -> N.of_nat (length (pl_values p)) = lr_count rule -> 2 ^ 63 <= n < 2 ^ 64 ->
      exists b s, unit_at lib pf pl tl c k (pl_forms p) b v /\ form_at b i s /\ msg_get_plural_text pf (u_message v) n = Some (Some s).
Proof.
  intros I0 Fi E Fe H Hp W. destruct (forall2_combine _ _ _ _ _ huge_value I0) as (I & Li & Vh). assert (8 <= usize_bits pf) as B by lia.
  destruct (manual_rules lib pf evs ls er pl tl h u ps r rule I Fi E Fe H Hp B) as (c & R & _).
  pose proof rules_ok as Ok0. rewrite forallb_forall in Ok0. specialize (Ok0 _ I).
  pose proof rules_value as V. rewrite Forall_forall in V. destruct (V _ I) as (e & P & _). clear V.
  destruct (rule_forms pf rule e Ok0 P B) as ((ts & T & De) & Dc & Lt & O & N & A & Z & NB).
  change (rule_definition rule) with (forms_definition [48 + lr_count rule] (lr_formula rule)) in Hp.
  exists c. split; [exact R|]. intros k v p n Ik Em L Ln. change (2 ^ 63) with 9223372036854775808 in Ln. change (2 ^ 64) with 18446744073709551616 in Ln.
  assert (wrap64 (Z.of_N n) = Z.of_N n - 18446744073709551616)%Z as Wn.
  { unfold wrap64. replace (Z.of_N n + 9223372036854775808)%Z with ((Z.of_N n - 9223372036854775808) + 1 * 18446744073709551616)%Z by lia. rewrite Z.mod_add by lia. rewrite Z.mod_small by lia. lia. }
  specialize (Vh e (Z.of_N n - 18446744073709551616)%Z P ltac:(change (2 ^ 63)%Z with 9223372036854775808%Z; lia)).
  destruct (plural_selection_by lib pf evs ls er pl tl h u ps r c (lr_count rule) [48 + lr_count rule] (lr_formula rule) ts e k v p n (Z.of_N i)
    Fi E Fe H Hp Dc Lt O N A Z NB T De R Ik Em L) as (b & U & Fm & _).
  - intros Lo f Ef. unfold forms_get_value.
    assert (formula_execute pf (pf_formula f) n = Some (Some i)) as ->.
    { unfold formula_execute. rewrite Ef, Wn. rewrite (execute_value _ _ _ _ Vh). destruct (Z.ltb_spec (Z.of_N i) 0); [lia|]. rewrite N2Z.id, N.mod_small by lia. reflexivity. }
    rewrite N2Z.id. destruct (Z.leb_spec 0 (Z.of_N i)); [cbn [andb]|lia].
    destruct (N.ltb_spec i (pf_count f)), (Z.ltb_spec (Z.of_N i) (Z.of_N (pf_count f))); try lia; reflexivity.
  - destruct Fm as (s & Fa & G); [lia|]. rewrite N2Z.id in Fa. exists b, s. auto.
Qed.
(** The rule of French: the wrong form for all of them. *)
Definition french_lines : list string := ["msgid """""; "msgstr ""Plural-Forms: nplurals=2; plural=n>1;"""; "msgid ""a"""; "msgid_plural ""b"""; "msgstr[0] ""x"""; "msgstr[1] ""y"""]%string.
Definition french_rule : language_rule := nth 3 rules (Rule "" 0 [] (fun _ => 0)).
Theorem french_refuted : exists rule ls, In rule rules /\ forall lib pf, usize_bits pf = 64 -> exists c v p, read_catalogue lib pf (lf_stream ls) = Ok c
  /\ sm_get (lit "Plural-Forms") (c_properties c) = Some (rule_definition rule) /\ c_items c = [UOk v] /\ u_message v = MPlural p /\ N.of_nat (length (pl_values p)) = lr_count rule
  /\ forall n, 2 ^ 63 <= n < 2 ^ 64 -> msg_get_plural_text pf (u_message v) n = Some (Some (lit "x")) /\ nth_error (pl_values p) (N.to_nat (lr_form rule n)) = Some (lit "y").
Proof.
  exists french_rule, french_lines. split; [cbn; auto|]. intros lib pf W. destruct pf as [bits checks]. cbn in W. subst bits.
  do 3 eexists. split; [vm_compute; reflexivity|]. split; [reflexivity|]. split; [reflexivity|]. split; [reflexivity|]. split; [reflexivity|].
  intros n L. split.
  - change (2 ^ 63) with 9223372036854775808 in L. change (2 ^ 64) with 18446744073709551616 in L.
    unfold msg_get_plural_text, plural_get, forms_get_value, formula_execute. cbn [u_message pl_forms pf_formula pf_count pl_values overflow_checks usize_bits execute].
    replace (wrap64 (Z.of_N n)) with (Z.of_N n - 18446744073709551616)%Z.
    + destruct (Z.ltb_spec 1 (Z.of_N n - 18446744073709551616)); [lia|]. reflexivity.
    + unfold wrap64. replace (Z.of_N n + 9223372036854775808)%Z with ((Z.of_N n - 9223372036854775808) + 1 * 18446744073709551616)%Z by lia. rewrite Z.mod_add by lia. rewrite Z.mod_small by lia. lia.
  - change (lr_form french_rule n) with (if n <=? 1 then 0 else 1). destruct (N.leb_spec n 1); [change (2 ^ 63) with 9223372036854775808 in L; lia|reflexivity].
Qed.
