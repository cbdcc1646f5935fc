(** The order of iteration of hash maps has no influence. *)
From Coq Require Import String Arith NArith ZArith Bool List Lia Permutation.
From Verif Require Import ModelBase ModelUtf8 ModelLine ModelFormula ModelData ModelSource ModelReader ModelOrder
  SpecLine SpecFormula SpecSource SpecReader SpecBlock SpecHeader SpecFile SpecWhole SpecOrder
  BaseFacts LineFacts ReaderFacts ReadsFacts HeaderFacts.
Import ListNotations.
Local Open Scope N_scope.

Lemma in_get {V} k (v : V) m : NoDup (map fst m) -> In (k, v) m <-> sm_get k m = Some v.
Proof.
  induction m as [|[k' v'] m IH]; intros ND; cbn [sm_get map fst In] in *; [split; [contradiction|discriminate]|].
  inversion ND as [|? ? N ND']; subst. destruct (str_eqb_spec k k') as [->|D].
  - split; [intros [E|I]; [congruence|]|intros [= ->]; auto]. destruct N. apply (in_map fst) in I. exact I.
  - rewrite <- IH by exact ND'. split; [intros [E|I]; [congruence|exact I]|auto].
Qed.
Lemma get_permutation {V} (m m' : list (str * V)) k : Permutation m m' -> NoDup (map fst m) -> sm_get k m' = sm_get k m.
Proof.
  intros P ND. pose proof (Permutation_NoDup (Permutation_map fst P) ND) as ND'.
  destruct (sm_get k m) as [v|] eqn:E.
  - apply in_get; [exact ND'|]. apply (Permutation_in _ P). apply in_get; [exact ND|exact E].
  - apply sm_get_in in E. apply sm_get_in. intros I. apply E. exact (Permutation_in _ (Permutation_sym (Permutation_map fst P)) I).
Qed.
Lemma extend_order m m' : Permutation m m' -> NoDup (map fst m) -> forall k, sm_get k (extend_properties [] m') = sm_get k (extend_properties [] m).
Proof.
  intros P ND k. pose proof (Permutation_NoDup (Permutation_map fst P) ND) as ND'. rewrite !extend_get by assumption.
  rewrite (get_permutation m m' k P ND). reflexivity.
Qed.
(** Readers that agree but for the order of the properties. *)
Definition agree (r r' : reader) : Prop :=
  rd_lines r = rd_lines r' /\ rd_next_unit r = rd_next_unit r' /\ rd_header_notes r = rd_header_notes r'
  /\ rd_header_comments r = rd_header_comments r' /\ (forall k, sm_get k (rd_header_properties r) = sm_get k (rd_header_properties r'))
  /\ rd_target_language r = rd_target_language r' /\ rd_plural_forms r = rd_plural_forms r'.
Definition agree_outcome (o o' : outcome reader) : Prop :=
  match o, o' with
  | Ok r, Ok r' => agree r r'
  | Err e, Err e' => e = e'
  | Panic, Panic => True
  | _, _ => False
  end.
Lemma header_language_ext lib c ps ps' : (forall k, sm_get k ps = sm_get k ps') -> header_language lib c ps = header_language lib c ps'.
Proof. intros H. unfold header_language. rewrite (H (lit "Language")). reflexivity. Qed.
Lemma agree_next first r r' : agree r r' -> fst (next_unit first r) = fst (next_unit first r') /\ agree (snd (next_unit first r)) (snd (next_unit first r')).
Proof.
  intros (A1 & A2 & A3 & A4 & A5 & A6 & A7). rewrite !next_unit_eq, A7, A1. destruct (runit (rd_plural_forms r') first (rd_lines r')) as [o ls].
  cbn [fst snd]. split; [reflexivity|]. repeat split; cbn; assumption.
Qed.
Lemma new_order order lib pf ls : (forall m, Permutation m (order m)) -> agree_outcome (reader_new lib pf ls) (reader_new_o order lib pf ls).
Proof.
  intros O. unfold reader_new, reader_new_o. destruct (next_unit true _) as [[[[u|e]|]|] r1] eqn:N; cbn [agree_outcome].
  - destruct (msg_is_empty (u_message u)) eqn:Em; [|cbn; repeat split; reflexivity].
    assert (rd_header_properties r1 = []) as P0.
    { rewrite next_unit_eq in N. injection N as _ <-. destruct (runit _ _ _); reflexivity. }
    unfold parse_po_header, parse_po_header_o. cbn [rd_next_unit with_next_unit rd_header_properties rd_header_notes rd_header_comments rd_target_language rd_plural_forms rd_lines].
    rewrite P0. set (m := header_map _). pose proof (extend_order m (order m) (O m) (header_map_nodup _)) as G.
    assert (forall f, agree (Reader (rd_lines r1) (Some (UOk u)) (rd_header_notes r1 ++ u_notes u) (rd_header_comments r1 ++ u_comments u) (extend_properties [] m)
                                (header_language lib (rd_target_language r1) (extend_properties [] m)) f)
                        (Reader (rd_lines r1) (Some (UOk u)) (rd_header_notes r1 ++ u_notes u) (rd_header_comments r1 ++ u_comments u) (extend_properties [] (order m))
                                (header_language lib (rd_target_language r1) (extend_properties [] (order m))) f)) as A.
    { intros f. repeat split; cbn [rd_lines rd_next_unit rd_header_notes rd_header_comments rd_header_properties rd_target_language rd_plural_forms]; try reflexivity; [intros k; symmetry; apply G|apply header_language_ext; intros k; symmetry; apply G]. }
    assert (forall a b, agree a b -> agree_outcome
      (let (s, r4) := next_unit false a in match s with Val nu => Ok (with_next_unit r4 nu) | Crash => Panic end)
      (let (s, r4) := next_unit false b in match s with Val nu => Ok (with_next_unit r4 nu) | Crash => Panic end)) as K.
    { intros a b Ab. destruct (agree_next false a b Ab) as [E1 E2]. destruct (next_unit false a) as [s r], (next_unit false b) as [s' r']. cbn [fst snd] in *. subst s'.
      destruct s; cbn; [|exact Logic.I]. destruct E2 as (A1 & A2 & A3 & A4 & A5 & A6 & A7). repeat split; cbn; assumption. }
    rewrite (G (lit "Plural-Forms")). destruct (sm_get (lit "Plural-Forms") _) as [d|]; [|apply K, A].
    destruct (is_empty d); [apply K, A|]. destruct (plural_forms_parse pf d) as [f|e|]; [apply K, A|reflexivity|exact Logic.I].
  - reflexivity.
  - repeat split; reflexivity.
  - exact Logic.I.
Qed.
Lemma agree_collect fuel : forall r r', agree r r' -> po_collect fuel r = po_collect fuel r'.
Proof.
  induction fuel as [|fuel IH]; intros r r' A; [reflexivity|]. cbn [po_collect]. unfold po_next. pose proof A as (A1 & A2 & A3 & A4 & A5 & A6 & A7). rewrite <- A2.
  destruct (rd_next_unit r) as [[u|e]|]; [| |reflexivity].
  - destruct (agree_next false r r' A) as [E1 E2]. destruct (next_unit false r) as [s q], (next_unit false r') as [s' q']. cbn [fst snd] in *. subst s'.
    destruct s as [nu|]; [|reflexivity]. pose proof E2 as (B1 & B2 & B3 & B4 & B5 & B6 & B7). rewrite B2.
    destruct (rd_next_unit q') as [x|]; [|reflexivity]. rewrite (IH (with_next_unit q nu) (with_next_unit q' nu)); [reflexivity|]. repeat split; cbn; assumption.
  - rewrite (IH (with_next_unit r None) (with_next_unit r' None)); [reflexivity|]. repeat split; cbn; assumption.
Qed.
Theorem order_irrelevant order lib pf evs : (forall m, Permutation m (order m)) ->
  match read_catalogue lib pf evs with
  | Ok c => exists ps, (forall k, sm_get k ps = sm_get k (c_properties c))
      /\ read_catalogue_o order lib pf evs = Ok (Catalogue (c_notes c) (c_comments c) ps (c_language c) (c_items c))
  | Err e => read_catalogue_o order lib pf evs = Err e
  | Panic => False
  end.
Proof.
  intros O. pose proof (read_catalogue_of lib pf evs (read_catalogue lib pf evs)) as [W _]. specialize (W eq_refl).
  assert (read_catalogue lib pf evs <> Panic) as NP by (intros E; rewrite E in W; inversion W). clear W. revert NP.
  unfold read_catalogue, read_catalogue_o, po_parse. pose proof (new_order order lib pf (responses (li_new evs)) O) as A. unfold agree_outcome in A.
  destruct (reader_new lib pf _) as [r|e|], (reader_new_o order lib pf _) as [r'|e'|]; try contradiction.
  - rewrite <- (agree_collect _ r r' A). destruct A as (A1 & A2 & A3 & A4 & A5 & A6 & A7). destruct (po_collect _ r) as [l|]; [|congruence].
    intros _. exists (rd_header_properties r'). cbn. split; [intros k; symmetry; apply A5|]. rewrite A3, A4, A6. reflexivity.
  - subst. reflexivity.
Qed.
