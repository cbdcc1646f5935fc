(** The parser of plural formulas and its errors. *)
From Coq Require Import String Arith NArith ZArith Bool List Lia.
From Verif Require Import ModelBase ModelFormula ModelParser SpecLine SpecFormula SpecSource SpecParser BaseFacts FormulaFacts LexFacts FormulaThms.
Import ListNotations.

Definition nt (k : cat) : nonterm :=
  match k with
  | KExpr => GExpr | KOr => GOr | KAnd => GAnd | KLogical => GLogical | KNot => GNot | KAdd => GAdd | KMul => GMul | KFactor => GFactor | KTerm => GTerm
  end.
Definition rank (k : cat) : nat :=
  match k with KExpr => 0 | KOr => 1 | KAnd => 2 | KLogical => 3 | KNot => 4 | KAdd => 5 | KMul => 6 | KFactor => 7 | KTerm => 8 end.
Definition cat_at (i : nat) : cat :=
  match i with 0 => KExpr | 1 => KOr | 2 => KAnd | 3 => KLogical | 4 => KNot | 5 => KAdd | 6 => KMul | 7 => KFactor | _ => KTerm end.
Lemma cat_rank k : cat_at (rank k) = k. Proof. destruct k; reflexivity. Qed.
Lemma rank_inj j k : rank j = rank k -> j = k.
Proof. intros H. rewrite <- (cat_rank j), <- (cat_rank k), H. reflexivity. Qed.
Lemma up1 i a x : derives (nt (cat_at (S i))) a x -> derives (nt (cat_at i)) a x.
Proof. destruct i as [|[|[|[|[|[|[|[|i]]]]]]]]; cbn; intros D; try exact D; constructor; exact D. Qed.
Lemma up j k a x : rank j <= rank k -> derives (nt k) a x -> derives (nt j) a x.
Proof.
  intros H. rewrite <- (cat_rank j), <- (cat_rank k). revert H. generalize (rank j) (rank k). intros i n H. induction H; [auto|].
  intros D. apply IHle, up1, D.
Qed.

(** The five categories with binary operators. *)
Inductive binary : cat -> (tok -> option binop) -> cat -> Prop :=
| bi_or : binary KOr ops_or KAnd
| bi_and : binary KAnd ops_and KLogical
| bi_logical : binary KLogical ops_logical KNot
| bi_add : binary KAdd ops_add KMul
| bi_mul : binary KMul ops_mul KFactor.
Lemma binary_derives k ops j t op a b x y : binary k ops j -> ops t = Some op -> derives (nt k) a x -> derives (nt j) b y ->
  derives (nt k) (a ++ t :: b) (NBin op x y).
Proof. intros B E D1 D2. destruct B; destruct t; try discriminate E; injection E as <-; constructor; assumption. Qed.
Lemma binary_rank k ops j : binary k ops j -> rank j = S (rank k).
Proof. intros []; reflexivity. Qed.

(** * What the stack stands for *)
Inductive covers : list symbol -> list tok -> Prop :=
| cv_nil : covers [] []
| cv_tok t g p : covers g p -> covers (Y t :: g) (p ++ [t])
| cv_cat k e g p q : covers g p -> derives (nt k) q e -> covers (X k e :: g) (p ++ q).
Lemma covers_tok t g p : covers (Y t :: g) p -> exists p', p = p' ++ [t] /\ covers g p'.
Proof. intros H. inversion H; subst. eauto. Qed.
Lemma covers_cat k e g p : covers (X k e :: g) p -> exists p' q, p = p' ++ q /\ covers g p' /\ derives (nt k) q e.
Proof. intros H. inversion H; subst. eauto. Qed.

(** What the stack waits for. *)
Inductive awaits : cat -> list symbol -> Prop :=
| aw_start : awaits KExpr []
| aw_paren k g : awaits k g -> awaits KExpr (Y TLParen :: g)
| aw_test x g : awaits KExpr g -> awaits KExpr (Y TQuestion :: X KOr x :: g)
| aw_then x y g : awaits KExpr g -> awaits KExpr (Y TColon :: X KExpr y :: Y TQuestion :: X KOr x :: g)
| aw_bin i ops j t op l k g : binary i ops j -> ops t = Some op -> awaits k g -> rank k <= rank i -> awaits j (Y t :: X i l :: g)
| aw_not t k g : t = TNotSym \/ t = TNotWord -> awaits k g -> rank k <= rank KNot -> awaits KAdd (Y t :: g)
| aw_neg k g : awaits k g -> rank k <= rank KFactor -> awaits KTerm (Y TMinus :: g).
Inductive config : list symbol -> Prop :=
| cf_await k g : awaits k g -> config g
| cf_var k g : awaits k g -> config (Y TVar :: g)
| cf_num d k g : awaits k g -> config (Y (TNum d) :: g)
| cf_close e k g : awaits k g -> config (Y TRParen :: X KExpr e :: Y TLParen :: g)
| cf_cat j e k g : awaits k g -> rank k <= rank j -> config (X j e :: g).

(** Nothing is waited for on top of a category. *)
Lemma awaits_top k j e g : ~ awaits k (X j e :: g).
Proof. intros H. inversion H. Qed.
Lemma awaits_closed k t g : awaits k (Y t :: g) -> t <> TVar /\ t <> TRParen /\ forall d, t <> TNum d.
Proof.
  intros H. inversion H; subst; try (repeat split; discriminate).
  - match goal with B : binary _ ?o _, E : ?o t = _ |- _ => destruct B; destruct t; try discriminate E; repeat split; discriminate end.
  - match goal with E : _ \/ _ |- _ => destruct E; subst; repeat split; discriminate end.
Qed.

(** Completion. *)
Lemma awaits_complete k g : awaits k g -> forall p, covers g p -> exists q, forall a x, derives (nt k) a x -> exists e, derives GExpr (p ++ a ++ q) e.
Proof.
  induction 1 as [|k g A IH|x g A IH|x y g A IH|i ops j t op l k g B E A IH R|t k g T A IH R|k g A IH R]; intros p C.
  - inversion C; subst. exists []. intros a x D. exists x. rewrite app_nil_r. exact D.
  - apply covers_tok in C as (p' & -> & C). destruct (IH _ C) as (q & H). exists (TRParen :: q). intros a x D.
    destruct (H (TLParen :: a ++ [TRParen]) x) as (e & De). { apply (up k KTerm); [destruct k; cbn; lia|]. constructor. exact D. }
    exists e. cbn [app] in De. rewrite <- !app_assoc in *. cbn [app] in *. exact De.
  - apply covers_tok in C as (p1 & -> & C). apply covers_cat in C as (p2 & q2 & -> & C & D2). destruct (IH _ C) as (q & H).
    exists (TColon :: TVar :: q). intros a x0 D. destruct (H (q2 ++ TQuestion :: a ++ TColon :: [TVar]) (NCond x x0 NVar)) as (e & De).
    { apply d_cond; [exact D2|exact D|]. apply (up KExpr KTerm); [cbn; lia|constructor]. }
    exists e. rewrite <- !app_assoc in *. cbn [app] in *. rewrite <- !app_assoc in *. exact De.
  - apply covers_tok in C as (p1 & -> & C). apply covers_cat in C as (p2 & q2 & -> & C & D2). apply covers_tok in C as (p3 & -> & C).
    apply covers_cat in C as (p4 & q4 & -> & C & D4). destruct (IH _ C) as (q & H). exists q. intros a x0 D.
    destruct (H (q4 ++ TQuestion :: q2 ++ TColon :: a) (NCond x y x0)) as (e & De); [apply d_cond; assumption|].
    exists e. rewrite <- !app_assoc in *. cbn [app] in *. rewrite <- !app_assoc in *. exact De.
  - apply covers_tok in C as (p1 & -> & C). apply covers_cat in C as (p2 & q2 & -> & C & D2). destruct (IH _ C) as (q & H). exists q.
    intros a x0 D. destruct (H (q2 ++ t :: a) (NBin op l x0)) as (e & De); [apply (up k i); [exact R|]; eapply binary_derives; eassumption|].
    exists e. rewrite <- !app_assoc in *. exact De.
  - apply covers_tok in C as (p1 & -> & C). destruct (IH _ C) as (q & H). exists q. intros a x0 D.
    destruct (H (t :: a) (NUn UNot x0)) as (e & De); [apply (up k KNot); [exact R|]; destruct T; subst; constructor; exact D|].
    exists e. rewrite <- !app_assoc in *. exact De.
  - apply covers_tok in C as (p1 & -> & C). destruct (IH _ C) as (q & H). exists q. intros a x0 D.
    destruct (H (TMinus :: a) (NUn UNeg x0)) as (e & De); [apply (up k KFactor); [exact R|]; constructor; exact D|].
    exists e. rewrite <- !app_assoc in *. exact De.
Qed.

Lemma zero_term : derives GTerm [TNum (lit "0")] (NNum (digits_value (lit "0"))).
Proof. apply d_num; [discriminate|intros c H; vm_compute in H; destruct H as [<-|[]]; lia|vm_compute; discriminate]. Qed.
Lemma unnumbered_derives g a x : derives g a x -> exists y, derives g (map unnumbered a) y.
Proof.
  induction 1; repeat match goal with H : exists _, _ |- _ => destruct H end; rewrite ?map_app; cbn [map unnumbered]; rewrite ?map_app; cbn [map unnumbered];
    try (eexists; constructor; eassumption).
  eexists. exact zero_term.
Qed.
Lemma unnumbered_twice a : map unnumbered (map unnumbered a) = map unnumbered a.
Proof. rewrite map_map. apply map_ext. intros []; reflexivity. Qed.
Lemma derives_viable p q e : derives GExpr (p ++ q) e -> viable p.
Proof. intros D. apply unnumbered_derives in D as (y & D). rewrite map_app in D. exists (map unnumbered q), y. exact D. Qed.
Lemma awaits_viable k g p : awaits k g -> covers g p -> viable p /\ forall d, viable (p ++ [TNum d]).
Proof.
  intros A C. destruct (awaits_complete k g A p C) as (q & H). split.
  - destruct (H [TVar] NVar) as (e & D); [apply (up k KTerm); [destruct k; cbn; lia|constructor]|]. exact (derives_viable _ _ _ D).
  - intros d. destruct (H [TNum (lit "0")] (NNum (digits_value (lit "0")))) as (e & D).
    { apply (up k KTerm); [destruct k; cbn; lia|exact zero_term]. }
    rewrite app_assoc in D. apply derives_viable in D. destruct D as (q' & e' & D). exists q', e'. rewrite map_app in *. exact D.
Qed.
Lemma config_viable g p : config g -> covers g p -> viable p.
Proof.
  intros C V. destruct C as [k g A|k g A|d k g A|e k g A|j e k g A R].
  - apply (awaits_viable k g p A V).
  - apply covers_tok in V as (p' & -> & V). destruct (awaits_complete k g A p' V) as (q & H).
    destruct (H [TVar] NVar) as (e & D); [apply (up k KTerm); [destruct k; cbn; lia|constructor]|]. rewrite app_assoc in D. exact (derives_viable _ _ _ D).
  - apply covers_tok in V as (p' & -> & V). apply (awaits_viable k g p' A V).
  - apply covers_tok in V as (p1 & -> & V). apply covers_cat in V as (p2 & q2 & -> & V & D2). apply covers_tok in V as (p3 & -> & V).
    destruct (awaits_complete k g A p3 V) as (q & H). destruct (H (TLParen :: q2 ++ [TRParen]) e) as (e' & D); [apply (up k KTerm); [destruct k; cbn; lia|constructor; exact D2]|].
    rewrite app_assoc in D. rewrite <- !app_assoc. cbn [app] in *. exact (derives_viable _ _ _ D).
  - apply covers_cat in V as (p' & q' & -> & V & D'). destruct (awaits_complete k g A p' V) as (q & H).
    destruct (H q' e) as (e' & D); [apply (up k j); assumption|]. rewrite app_assoc in D. exact (derives_viable _ _ _ D).
Qed.

Lemma binary_fun i ops j ops' j' : binary i ops j -> binary i ops' j' -> ops = ops' /\ j = j'.
Proof. intros [] H; inversion H; auto. Qed.
Lemma same_iff j k : same j k = true <-> j = k.
Proof. destruct j, k; cbn; split; intros H; try reflexivity; discriminate. Qed.
Lemma awaits_op i ops j t op k l g : binary i ops j -> ops t = Some op -> awaits k (Y t :: X i l :: g) ->
  k = j /\ exists k', awaits k' g /\ rank k' <= rank i.
Proof.
  intros B E A. inversion A as [|k0 g0 A0|x0 g0 A0|x0 y0 g0 A0|i0 ops0 j0 t0 op0 l0 k0 g0 B0 E0 A0 R0|t0 k0 g0 T0 A0 R0|k0 g0 A0 R0]; subst.
  - destruct (awaits_top _ _ _ _ A0).
  - inversion B; subst. discriminate E.
  - inversion B.
  - destruct (binary_fun _ _ _ _ _ B B0) as [_ ->]. eauto.
  - destruct (awaits_top _ _ _ _ A0).
  - destruct (awaits_top _ _ _ _ A0).
Qed.
(** Making a category part of a larger one. *)
Lemma joined_cases i ops j e k g : binary i ops j -> awaits k g -> rank k <= rank j ->
  (rank k <= rank i /\ joined ops i e g = X i e :: g)
  \/ exists t op l g' k', g = Y t :: X i l :: g' /\ ops t = Some op /\ awaits k' g' /\ rank k' <= rank i /\ k = j /\ joined ops i e g = X i (NBin op l e) :: g'.
Proof.
  intros B A R. pose proof (binary_rank _ _ _ B) as Rj.
  assert (N : rank k <= rank i -> joined ops i e g = X i e :: g).
  { intros Rk. destruct g as [|[t|] [|[|i' l] g']]; cbn [joined]; try reflexivity. destruct (ops t) as [op|] eqn:E; [|reflexivity].
    destruct (same i' i) eqn:S; [|reflexivity]. apply same_iff in S. subst i'. destruct (awaits_op _ _ _ _ _ _ _ _ B E A) as [-> _]. lia. }
  destruct (le_lt_dec (rank k) (rank i)) as [L|L]; [left; auto|]. right.
  assert (k = j) by (apply rank_inj; lia). subst k.
  assert (H : exists t op l g', g = Y t :: X i l :: g' /\ ops t = Some op).
  { inversion B; subst; inversion A; subst; try (match goal with H : binary _ _ _ |- _ => inversion H; subst end); eauto 10; cbn in *; lia. }
  destruct H as (t & op & l & g' & -> & E). destruct (awaits_op _ _ _ _ _ _ _ _ B E A) as (_ & k' & A' & R').
  exists t, op, l, g', k'. repeat (split; [auto|]). cbn [joined]. rewrite E. rewrite (proj2 (same_iff i i) eq_refl). reflexivity.
Qed.
Lemma awaits_stuck k g : awaits k g -> reduction g = Stuck.
Proof.
  intros A. inversion A; subst; try reflexivity.
  - match goal with B : binary _ ?o _, E : ?o t = _ |- _ => destruct B; destruct t; try discriminate E; reflexivity end.
  - match goal with E : _ \/ _ |- _ => destruct E; subst; reflexivity end.
Qed.
Lemma awaits_not_closed k g : awaits k g -> shifts g = opens g.
Proof.
  intros A. inversion A; subst; try reflexivity.
  - match goal with B : binary _ ?o _, E : ?o t = _ |- _ => destruct B; destruct t; try discriminate E; reflexivity end.
  - match goal with E : _ \/ _ |- _ => destruct E; subst; reflexivity end.
Qed.
(** A reduction, step by step. *)
Inductive reduces : list symbol -> list symbol -> Prop :=
| rd_var g : reduces (Y TVar :: g) (X KTerm NVar :: g)
| rd_num d v g : num_value d = Some v -> reduces (Y (TNum d) :: g) (X KTerm (NNum v) :: g)
| rd_close e g : reduces (Y TRParen :: X KExpr e :: Y TLParen :: g) (X KTerm e :: g)
| rd_unit i j e k g : rank j = S (rank i) -> awaits k g -> rank k <= rank i -> reduces (X j e :: g) (X i e :: g)
| rd_bin i ops j t op l e k g : binary i ops j -> ops t = Some op -> awaits k g -> rank k <= rank i ->
    reduces (X j e :: Y t :: X i l :: g) (X i (NBin op l e) :: g)
| rd_not t e k g : t = TNotSym \/ t = TNotWord -> awaits k g -> rank k <= rank KNot -> reduces (X KAdd e :: Y t :: g) (X KNot (NUn UNot e) :: g)
| rd_neg e k g : awaits k g -> rank k <= rank KFactor -> reduces (X KTerm e :: Y TMinus :: g) (X KFactor (NUn UNeg e) :: g)
| rd_cond x y e g : awaits KExpr g -> reduces (X KExpr e :: Y TColon :: X KExpr y :: Y TQuestion :: X KOr x :: g) (X KExpr (NCond x y e) :: g).
Lemma reduction_reduces g g' : config g -> reduction g = Reduce g' -> reduces g g'.
Proof.
  intros C E. destruct C as [k g A|k g A|d k g A|e k g A|j e k g A R].
  - rewrite (awaits_stuck _ _ A) in E. discriminate.
  - injection E as <-. constructor.
  - cbn in E. destruct (num_value d) eqn:N; [|discriminate]. injection E as <-. constructor. exact N.
  - injection E as <-. constructor.
  - assert (Jn : forall i ops, binary i ops j -> Reduce (joined ops i e g) = Reduce g' -> reduces (X j e :: g) g').
    { intros i ops B [= <-]. destruct (joined_cases i ops j e k g B A R) as [[L ->]|(t & op & l & g1 & k' & -> & Et & A' & R' & -> & ->)].
      - eapply rd_unit; [exact (binary_rank _ _ _ B)|exact A|exact L].
      - eapply rd_bin; eassumption. }
    destruct j; cbn [reduction] in E.
    + (* Expr *) inversion A as [|k0 g0 A0|x0 g0 A0|x0 y0 g0 A0|i0 ops0 j0 t0 op0 l0 k0 g0 B0 E0 A0 R0|t0 k0 g0 T0 A0 R0|k0 g0 A0 R0]; subst; try discriminate E.
      * injection E as <-. constructor. exact A0.
      * destruct B0; cbn in R; lia.
      * destruct T0; subst; discriminate E.
    + injection E as <-. eapply rd_unit; [reflexivity|exact A|]. cbn in R. assert (rank k <> 1) by (intros K; apply (rank_inj k KOr) in K; subst k; inversion A; subst; match goal with B : binary _ _ _ |- _ => inversion B end). cbn. lia.
    + eapply Jn; [constructor|exact E].
    + eapply Jn; [constructor|exact E].
    + eapply Jn; [constructor|exact E].
    + (* Add *) destruct (le_lt_dec (rank k) 4) as [L|L].
      * assert (g' = X KNot e :: g).
        { inversion A as [|k0 g0 A0|x0 g0 A0|x0 y0 g0 A0|i0 ops0 j0 t0 op0 l0 k0 g0 B0 E0 A0 R0|t0 k0 g0 T0 A0 R0|k0 g0 A0 R0]; subst; try (cbn in L; lia); try (injection E as <-; reflexivity).
          destruct B0; destruct t0; try discriminate E0; injection E as <-; reflexivity. }
        subst g'. eapply rd_unit; [reflexivity|exact A|exact L].
      * assert (k = KAdd) by (apply rank_inj; cbn in *; lia). subst k.
        inversion A as [|k0 g0 A0|x0 g0 A0|x0 y0 g0 A0|i0 ops0 j0 t0 op0 l0 k0 g0 B0 E0 A0 R0|t0 k0 g0 T0 A0 R0|k0 g0 A0 R0]; subst; [inversion B0|].
        assert (g' = X KNot (NUn UNot e) :: g0) by (destruct T0; subst; injection E as <-; reflexivity). subst g'. eapply rd_not; eassumption.
    + eapply Jn; [constructor|exact E].
    + eapply Jn; [constructor|exact E].
    + (* Term *) destruct (le_lt_dec (rank k) 7) as [L|L].
      * assert (g' = X KFactor e :: g).
        { inversion A as [|k0 g0 A0|x0 g0 A0|x0 y0 g0 A0|i0 ops0 j0 t0 op0 l0 k0 g0 B0 E0 A0 R0|t0 k0 g0 T0 A0 R0|k0 g0 A0 R0]; subst; try (cbn in L; lia); try (injection E as <-; reflexivity).
          - destruct B0; destruct t0; try discriminate E0; injection E as <-; reflexivity.
          - destruct T0; subst; injection E as <-; reflexivity. }
        subst g'. eapply rd_unit; [reflexivity|exact A|exact L].
      * assert (k = KTerm) by (apply rank_inj; cbn in *; lia). subst k.
        inversion A as [|k0 g0 A0|x0 g0 A0|x0 y0 g0 A0|i0 ops0 j0 t0 op0 l0 k0 g0 B0 E0 A0 R0|t0 k0 g0 T0 A0 R0|k0 g0 A0 R0]; subst; [inversion B0|].
        assert (g' = X KFactor (NUn UNeg e) :: g0).
        { destruct g0 as [|[t1|j1 e1] g1]; [injection E as <-; reflexivity|injection E as <-; reflexivity|]. destruct (awaits_top _ _ _ _ A0). }
        subst g'. eapply rd_neg; eassumption.
Qed.
Lemma reduces_config g g' : config g -> reduces g g' -> config g'.
Proof.
  intros C H. destruct H as [g|d v g N|e g|i j e k g E A R|i ops j t op l e k g B E A R|t e k g T A R|e k g A R|x y e g A].
  - inversion C; subst; try (eapply cf_cat; [eassumption|destruct k; cbn; lia]). destruct (awaits_closed _ _ _ H) as (K & _). congruence.
  - inversion C; subst; try (eapply cf_cat; [eassumption|destruct k; cbn; lia]). destruct (awaits_closed _ _ _ H) as (_ & _ & K). destruct (K d eq_refl).
  - inversion C; subst; try (eapply cf_cat; [eassumption|destruct k; cbn; lia]). destruct (awaits_closed _ _ _ H) as (_ & K & _). congruence.
  - eapply cf_cat; eassumption.
  - eapply cf_cat; eassumption.
  - eapply cf_cat; eassumption.
  - eapply cf_cat; eassumption.
  - eapply cf_cat; [eassumption|reflexivity].
Qed.
Lemma reduces_covers g g' p : reduces g g' -> covers g p -> covers g' p.
Proof.
  intros H V. destruct H as [g|d v g N|e g|i j e k g E A R|i ops j t op l e k g B E A R|t e k g T A R|e k g A R|x y e g A].
  - apply covers_tok in V as (p' & -> & V). constructor; [exact V|constructor].
  - apply covers_tok in V as (p' & -> & V). apply num_value_ok in N as (N1 & N2 & N3 & ->). constructor; [exact V|]. apply d_num; assumption.
  - apply covers_tok in V as (p1 & -> & V). apply covers_cat in V as (p2 & q2 & -> & V & D). apply covers_tok in V as (p3 & -> & V).
    rewrite <- !app_assoc. constructor; [exact V|]. cbn [app]. constructor. exact D.
  - apply covers_cat in V as (p' & q & -> & V & D). constructor; [exact V|]. apply (up i j); [lia|exact D].
  - apply covers_cat in V as (p1 & q1 & -> & V & D1). apply covers_tok in V as (p2 & -> & V). apply covers_cat in V as (p3 & q3 & -> & V & D3).
    rewrite <- !app_assoc. constructor; [exact V|]. eapply binary_derives; eassumption.
  - apply covers_cat in V as (p1 & q1 & -> & V & D1). apply covers_tok in V as (p2 & -> & V). rewrite <- !app_assoc. constructor; [exact V|]. destruct T; subst; constructor; exact D1.
  - apply covers_cat in V as (p1 & q1 & -> & V & D1). apply covers_tok in V as (p2 & -> & V). rewrite <- !app_assoc. constructor; [exact V|]. constructor; exact D1.
  - apply covers_cat in V as (p1 & q1 & -> & V & D1). apply covers_tok in V as (p2 & -> & V). apply covers_cat in V as (p3 & q3 & -> & V & D3).
    apply covers_tok in V as (p4 & -> & V). apply covers_cat in V as (p5 & q5 & -> & V & D5). rewrite <- !app_assoc. constructor; [exact V|].
    cbn [app]. apply d_cond; assumption.
Qed.

Lemma shift_config g t : config g -> shifts g t = true -> config (Y t :: g).
Proof.
  intros C S. destruct C as [k g A|k g A|d k g A|e k g A|j e k g A R]; try discriminate S.
  - rewrite (awaits_not_closed _ _ A) in S. destruct t; try discriminate S.
    + (* ! *) eapply cf_await. eapply aw_not; [auto|exact A|].
      inversion A; subst; try (cbn; lia); try discriminate S. match goal with B : binary _ ?o _, E : ?o ?t = _ |- _ => destruct B; destruct t; try discriminate E; try discriminate S; cbn; lia end.
      match goal with E : _ \/ _ |- _ => destruct E; subst; discriminate S end.
    + eapply cf_await. eapply aw_not; [auto|exact A|].
      inversion A; subst; try (cbn; lia); try discriminate S. match goal with B : binary _ ?o _, E : ?o ?t = _ |- _ => destruct B; destruct t; try discriminate E; try discriminate S; cbn; lia end.
      match goal with E : _ \/ _ |- _ => destruct E; subst; discriminate S end.
    + (* - *) eapply cf_await. eapply aw_neg; [exact A|]. assert (k <> KTerm).
      { intros ->. inversion A as [|k0 g0 A0|x0 g0 A0|x0 y0 g0 A0|i0 ops0 j0 t0 op0 l0 k0 g0 B0 E0 A0 R0|t0 k0 g0 T0 A0 R0|k0 g0 A0 R0]; subst; [inversion B0|].
        destruct g0 as [|[t1|j1 e1] g1]; try discriminate S. destruct (awaits_top _ _ _ _ A0). }
      destruct k; cbn; try lia. congruence.
    + eapply cf_var. exact A.
    + eapply cf_await. eapply aw_paren. exact A.
    + eapply cf_num. exact A.
  - cbn [shifts] in S. destruct j; cbn [continues] in S; try discriminate S.
    + (* Expr *) assert (k = KExpr) by (apply rank_inj; cbn in *; lia). subst k.
      inversion A as [|k0 g0 A0|x0 g0 A0|x0 y0 g0 A0|i0 ops0 j0 t0 op0 l0 k0 g0 B0 E0 A0 R0|t0 k0 g0 T0 A0 R0|k0 g0 A0 R0]; subst; destruct t; try discriminate S; try (inversion B0; fail).
      * eapply cf_close. exact A0.
      * eapply cf_await. apply aw_then. exact A0.
    + (* Or *) destruct (ops_or t) as [op|] eqn:Eo; [eapply cf_await; eapply aw_bin; [apply bi_or|exact Eo|exact A|exact R]|].
      destruct t; try discriminate S. eapply cf_await. apply aw_test. 
      assert (rank k <> 1) by (intros K; apply (rank_inj k KOr) in K; subst k; inversion A; subst; match goal with B : binary _ _ _ |- _ => inversion B end).
      assert (k = KExpr) by (apply rank_inj; cbn in *; lia). subst k. exact A.
    + destruct (ops_and t) as [op|] eqn:Eo; [|discriminate S]. eapply cf_await; eapply aw_bin; [apply bi_and|exact Eo|exact A|exact R].
    + destruct (ops_logical t) as [op|] eqn:Eo; [|discriminate S]. eapply cf_await; eapply aw_bin; [apply bi_logical|exact Eo|exact A|exact R].
    + destruct (ops_add t) as [op|] eqn:Eo; [|discriminate S]. eapply cf_await; eapply aw_bin; [apply bi_add|exact Eo|exact A|exact R].
    + destruct (ops_mul t) as [op|] eqn:Eo; [|discriminate S]. eapply cf_await; eapply aw_bin; [apply bi_mul|exact Eo|exact A|exact R].
Qed.

(** * Runs *)
Definition never (_ : list symbol) (_ : option tok) : bool := false.
Definition weight (s : symbol) : nat := match s with Y _ => 10 | X k _ => S (rank k) end.
Definition weights (g : list symbol) : nat := fold_right (fun s n => weight s + n) 0 g.
Lemma reduces_weight g g' : reduces g g' -> weights g' < weights g.
Proof.
  intros H. destruct H; cbn [weights fold_right weight]; cbn [rank]; lia.
Qed.
Lemma act_config g t g' : config g -> act g t = Reduce g' -> reduces g g'.
Proof. intros C E. apply reduction_reduces; [exact C|]. destruct t as [t|]; [cbn in E; destruct (shifts g t); [discriminate|exact E]|exact E]. Qed.
Lemma reduction_no_shift g : reduction g <> Shift.
Proof. unfold reduction. repeat match goal with |- context [match ?x with _ => _ end] => destruct x; try discriminate end. Qed.
Lemma act_shift g t : act g t = Shift -> exists u, t = Some u /\ shifts g u = true.
Proof. destruct t as [u|]; cbn; [destruct (shifts g u) eqn:E; [eauto|]|]; intros H; destruct (reduction_no_shift _ H). Qed.
(** One step without early errors. *)
Inductive step : list symbol * list tok -> list symbol * list tok -> Prop :=
| st_shift g t ts : shifts g t = true -> step (g, t :: ts) (Y t :: g, ts)
| st_reduce g ts g' : act g (hd_error ts) = Reduce g' -> step (g, ts) (g', ts).
Inductive steps : list symbol * list tok -> list symbol * list tok -> Prop :=
| ss_here c : steps c c
| ss_step c c' c'' : step c c' -> steps c' c'' -> steps c c''.
Lemma steps_trans a b c : steps a b -> steps b c -> steps a c.
Proof. induction 1; [auto|]. intros H'. econstructor; [eassumption|auto]. Qed.
Lemma step_run c c' fuel e : step c c' -> run never false fuel (fst c') (snd c') = Accepted e -> run never false (S fuel) (fst c) (snd c) = Accepted e.
Proof.
  intros [g t ts E|g ts g' E]; cbn [fst snd run never hd_error]; intros H.
  - unfold act. rewrite E. exact H.
  - rewrite E. destruct ts; exact H.
Qed.
Lemma steps_run c c' fuel e : steps c c' -> run never false fuel (fst c') (snd c') = Accepted e -> exists fuel', run never false fuel' (fst c) (snd c) = Accepted e.
Proof. induction 1 as [|c c1 c2 S _ IH]; intros H; [eauto|]. destruct (IH H) as (f & Hf). exists (Datatypes.S f). eapply step_run; eassumption. Qed.

(** Tokens that continue a category larger than [k] do not follow. *)
Definition left_rank (t : tok) : option nat :=
  match t with
  | TStar | TSlash | TPercent => Some 6
  | TPlus | TMinus => Some 5
  | TEq | TNe | TLt | TLte | TGt | TGte => Some 3
  | TAndSym | TAndWord => Some 2
  | TOrSym | TOrWord | TQuestion => Some 1
  | _ => None
  end.
Definition quiet (k : cat) (t : option tok) : Prop := forall u r, t = Some u -> left_rank u = Some r -> r <= rank k.
Lemma quiet_reduce k i j e g t : rank j = S (rank i) -> awaits k g -> rank k <= rank j -> quiet i t -> act (X j e :: g) t = reduction (X j e :: g).
Proof.
  intros E A R Q. destruct t as [t|]; [|reflexivity]. cbn [act shifts]. assert (continues j g t = false) as ->; [|reflexivity].
  specialize (Q t). destruct j; cbn in E; try discriminate E; cbn [continues]; try reflexivity;
    destruct t; try reflexivity; specialize (Q _ eq_refl eq_refl); lia.
Qed.
Lemma reduction_unit k i j e g : rank j = S (rank i) -> awaits k g -> rank k <= rank i -> reduction (X j e :: g) = Reduce (X i e :: g).
Proof.
  intros E A R.
  assert (Jn : forall ops, binary i ops j -> Reduce (joined ops i e g) = Reduce (X i e :: g)).
  { intros ops B. destruct (joined_cases i ops j e k g B A ltac:(lia)) as [[_ ->]|(t & op & l & g' & k' & -> & Et & A' & R' & -> & _)]; [reflexivity|]. lia. }
  destruct j, i; cbn in E; try discriminate E; cbn [reduction]; try (apply Jn; constructor); try reflexivity.
  - inversion A as [|k0 g0 A0|x0 g0 A0|x0 y0 g0 A0|i0 ops0 j0 t0 op0 l0 k0 g0 B0 E0 A0 R0|t0 k0 g0 T0 A0 R0|k0 g0 A0 R0]; subst; try (cbn in R; lia); try reflexivity.
    destruct B0; destruct t0; try discriminate E0; reflexivity.
  - inversion A as [|k0 g0 A0|x0 g0 A0|x0 y0 g0 A0|i0 ops0 j0 t0 op0 l0 k0 g0 B0 E0 A0 R0|t0 k0 g0 T0 A0 R0|k0 g0 A0 R0]; subst; try (cbn in R; lia); try reflexivity.
    + destruct B0; destruct t0; try discriminate E0; reflexivity.
    + destruct T0; subst; reflexivity.
Qed.
Lemma reach_unit i j x g w k c : rank j = S (rank i) -> awaits k g -> rank k <= rank i -> quiet i (hd_error w) ->
  steps c (X j x :: g, w) -> steps c (X i x :: g, w).
Proof.
  intros E A R Q S. eapply steps_trans; [exact S|]. eapply ss_step; [|apply ss_here]. apply st_reduce.
  rewrite (quiet_reduce k i j x g _ E A ltac:(lia) Q). apply (reduction_unit k); assumption.
Qed.
Lemma reach_shift c g t w c' : steps c (g, t :: w) -> shifts g t = true -> steps (Y t :: g, w) c' -> steps c c'.
Proof. intros S E S'. eapply steps_trans; [exact S|]. eapply ss_step; [apply st_shift; exact E|exact S']. Qed.
Lemma binary_left i ops j t op : binary i ops j -> ops t = Some op -> left_rank t = Some (rank i).
Proof. intros [] E; destruct t; try discriminate E; reflexivity. Qed.
Lemma binary_shift i ops j t op x g : binary i ops j -> ops t = Some op -> shifts (X i x :: g) t = true.
Proof. intros [] E; cbn; rewrite E; reflexivity. Qed.

Definition reached (nt' : nonterm) (a : list tok) (x : node) : Prop := forall i k g w, nt' = nt i -> awaits k g -> rank k <= rank i -> quiet i (hd_error w) ->
  steps (g, a ++ w) (X i x :: g, w).
Lemma nt_inj i j : nt i = nt j -> i = j.
Proof. destruct i, j; cbn; intros H; try reflexivity; discriminate. Qed.
Lemma reached_bin i ops j t op a b x y : binary i ops j -> ops t = Some op -> reached (nt i) a x -> reached (nt j) b y ->
  reached (nt i) (a ++ t :: b) (NBin op x y).
Proof.
  intros B E H1 H2 i' k g w Ei A R Q. apply nt_inj in Ei. subst i'. rewrite <- app_assoc. cbn [app].
  pose proof (binary_rank _ _ _ B) as Rj. pose proof (binary_left _ _ _ _ _ B E) as Lt.
  eapply reach_shift; [apply (H1 i k g (t :: b ++ w) eq_refl A R)|eapply binary_shift; eassumption|].
  { intros u r [= <-] Lr. rewrite Lt in Lr. injection Lr as <-. lia. }
  assert (A' : awaits j (Y t :: X i x :: g)) by (eapply aw_bin; eassumption).
  eapply steps_trans; [apply (H2 j j _ w eq_refl A' (le_n _))|].
  { intros u r Eu Lr. specialize (Q u r Eu Lr). lia. }
  eapply ss_step; [|apply ss_here]. apply st_reduce. rewrite (quiet_reduce j i j y _ _ Rj A' (le_n _) Q).
  assert (J : joined ops i y (Y t :: X i x :: g) = X i (NBin op x y) :: g) by (cbn [joined]; rewrite E, (proj2 (same_iff i i) eq_refl); reflexivity).
  rewrite <- J. destruct B; reflexivity.
Qed.
Lemma reached_unit i j a x : rank j = S (rank i) -> reached (nt j) a x -> reached (nt i) a x.
Proof.
  intros E H i' k g w Ei A R Q. apply nt_inj in Ei. subst i'. eapply reach_unit; [exact E|exact A|exact R|exact Q|].
  apply (H j k g w eq_refl A ltac:(lia)). intros u r Eu Lr. specialize (Q u r Eu Lr). lia.
Qed.
Lemma awaits_opens k g t : awaits k g -> opens g t = true -> shifts g t = true.
Proof. intros A O. rewrite (awaits_not_closed _ _ A). exact O. Qed.
Lemma derives_reached g a x : derives g a x -> reached g a x.
Proof.
  induction 1 as [a b c x y z D1 H1 D2 H2 D3 H3|a x D H|a b x y D1 H1 D2 H2|a b x y D1 H1 D2 H2|a x D H|a b x y D1 H1 D2 H2|a b x y D1 H1 D2 H2|a x D H
    |a b x y D1 H1 D2 H2|a b x y D1 H1 D2 H2|a b x y D1 H1 D2 H2|a b x y D1 H1 D2 H2|a b x y D1 H1 D2 H2|a b x y D1 H1 D2 H2|a x D H
    |a x D H|a x D H|a x D H|a b x y D1 H1 D2 H2|a b x y D1 H1 D2 H2|a x D H|a b x y D1 H1 D2 H2|a b x y D1 H1 D2 H2|a b x y D1 H1 D2 H2|a x D H
    |a x D H|a x D H|ds N1 N2 N3| |a x D H].
  1: { intros i k g w Ei A R Q. apply (nt_inj KExpr) in Ei. subst i. assert (k = KExpr) by (apply rank_inj; cbn in *; lia). subst k.
    rewrite <- app_assoc. cbn [app]. rewrite <- app_assoc. cbn [app].
    eapply reach_shift; [apply (H1 KOr KExpr g _ eq_refl A); [cbn; lia|intros u r [= <-] [= <-]; reflexivity]|reflexivity|].
    eapply reach_shift; [apply (H2 KExpr KExpr _ _ eq_refl (aw_test x g A) (le_n _)); intros u r [= <-] Lr; discriminate Lr|reflexivity|].
    eapply steps_trans; [apply (H3 KExpr KExpr _ w eq_refl (aw_then x y g A) (le_n _) Q)|].
    eapply ss_step; [|apply ss_here]. apply st_reduce. destruct (hd_error w) as [t|]; [|reflexivity]. destruct t; reflexivity. }
  all: try (eapply (reached_bin _ _ _ _ _ _ _ _ _ bi_or); [reflexivity|assumption|assumption]).
  all: try (eapply (reached_bin _ _ _ _ _ _ _ _ _ bi_and); [reflexivity|assumption|assumption]).
  all: try (eapply (reached_bin _ _ _ _ _ _ _ _ _ bi_logical); [reflexivity|assumption|assumption]).
  all: try (eapply (reached_bin _ _ _ _ _ _ _ _ _ bi_add); [reflexivity|assumption|assumption]).
  all: try (eapply (reached_bin _ _ _ _ _ _ _ _ _ bi_mul); [reflexivity|assumption|assumption]).
  1: apply (reached_unit KExpr KOr); [reflexivity|exact H].
  1: apply (reached_unit KOr KAnd); [reflexivity|exact H].
  1: apply (reached_unit KAnd KLogical); [reflexivity|exact H].
  1: apply (reached_unit KLogical KNot); [reflexivity|exact H].
  3: apply (reached_unit KNot KAdd); [reflexivity|exact H].
  3: apply (reached_unit KAdd KMul); [reflexivity|exact H].
  3: apply (reached_unit KMul KFactor); [reflexivity|exact H].
  4: apply (reached_unit KFactor KTerm); [reflexivity|exact H].
  - intros i k g w Ei A R Q. apply (nt_inj KNot) in Ei. subst i. cbn [app].
    eapply reach_shift; [apply ss_here|apply (awaits_opens k); [exact A|]|].
    { inversion A as [|k0 g0 A0|x0 g0 A0|x0 y0 g0 A0|i0 ops0 j0 t0 op0 l0 k0 g0 B0 E0 A0 R0|t0 k0 g0 T0 A0 R0|k0 g0 A0 R0]; subst; try reflexivity; try (cbn in R; lia).
      destruct B0; destruct t0; try discriminate E0; try reflexivity; cbn in R; lia. }
    assert (A' : awaits KAdd (Y TNotSym :: g)) by (eapply aw_not; eauto).
    eapply steps_trans; [apply (H KAdd KAdd _ w eq_refl A' (le_n _)); intros u r Eu Lr; specialize (Q u r Eu Lr); cbn in *; lia|].
    eapply ss_step; [|apply ss_here]. apply st_reduce. rewrite (quiet_reduce KAdd KNot KAdd x _ _ eq_refl A' (le_n _) Q). reflexivity.
  - intros i k g w Ei A R Q. apply (nt_inj KNot) in Ei. subst i. cbn [app].
    eapply reach_shift; [apply ss_here|apply (awaits_opens k); [exact A|]|].
    { inversion A as [|k0 g0 A0|x0 g0 A0|x0 y0 g0 A0|i0 ops0 j0 t0 op0 l0 k0 g0 B0 E0 A0 R0|t0 k0 g0 T0 A0 R0|k0 g0 A0 R0]; subst; try reflexivity; try (cbn in R; lia).
      destruct B0; destruct t0; try discriminate E0; try reflexivity; cbn in R; lia. }
    assert (A' : awaits KAdd (Y TNotWord :: g)) by (eapply aw_not; eauto).
    eapply steps_trans; [apply (H KAdd KAdd _ w eq_refl A' (le_n _)); intros u r Eu Lr; specialize (Q u r Eu Lr); cbn in *; lia|].
    eapply ss_step; [|apply ss_here]. apply st_reduce. rewrite (quiet_reduce KAdd KNot KAdd x _ _ eq_refl A' (le_n _) Q). reflexivity.
  - intros i k g w Ei A R Q. apply (nt_inj KFactor) in Ei. subst i. cbn [app].
    eapply reach_shift; [apply ss_here|apply (awaits_opens k); [exact A|]|].
    { inversion A as [|k0 g0 A0|x0 g0 A0|x0 y0 g0 A0|i0 ops0 j0 t0 op0 l0 k0 g0 B0 E0 A0 R0|t0 k0 g0 T0 A0 R0|k0 g0 A0 R0]; subst; try reflexivity; try (cbn in R; lia).
      - destruct B0; destruct t0; try discriminate E0; reflexivity.
      - destruct T0; subst; reflexivity. }
    assert (A' : awaits KTerm (Y TMinus :: g)) by (eapply aw_neg; eauto).
    eapply steps_trans; [apply (H KTerm KTerm _ w eq_refl A' (le_n _)); intros u r Eu Lr; specialize (Q u r Eu Lr); cbn in *; lia|].
    eapply ss_step; [|apply ss_here]. apply st_reduce. rewrite (quiet_reduce KTerm KFactor KTerm x _ _ eq_refl A' (le_n _) Q).
    cbn [reduction]. destruct g as [|[t1|j1 e1] g1]; [reflexivity|reflexivity|destruct (awaits_top _ _ _ _ A)].
  - intros i k g w Ei A R Q. apply (nt_inj KTerm) in Ei. subst i. cbn [app]. eapply reach_shift; [apply ss_here|apply (awaits_opens k); [exact A|reflexivity]|].
    eapply ss_step; [|apply ss_here]. apply st_reduce. assert (N : num_value ds = Some (digits_value ds)) by (apply num_value_ok; auto).
    destruct (hd_error w); cbn; rewrite N; reflexivity.
  - intros i k g w Ei A R Q. apply (nt_inj KTerm) in Ei. subst i. cbn [app]. eapply reach_shift; [apply ss_here|apply (awaits_opens k); [exact A|reflexivity]|].
    eapply ss_step; [|apply ss_here]. apply st_reduce. destruct (hd_error w); reflexivity.
  - intros i k g w Ei A R Q. apply (nt_inj KTerm) in Ei. subst i. cbn [app]. rewrite <- app_assoc. cbn [app].
    eapply reach_shift; [apply ss_here|apply (awaits_opens k); [exact A|reflexivity]|].
    eapply reach_shift; [apply (H KExpr KExpr _ _ eq_refl (aw_paren k g A) (le_n _)); intros u r [= <-] Lr; discriminate Lr|reflexivity|].
    eapply ss_step; [|apply ss_here]. apply st_reduce. destruct (hd_error w); reflexivity.
Qed.
Theorem derives_accepted ts e : derives GExpr ts e -> exists fuel, run never false fuel [] ts = Accepted e.
Proof.
  intros D. apply derives_reached in D. assert (S : steps ([], ts ++ []) ([X KExpr e], [])).
  { apply (D KExpr KExpr [] []); [reflexivity|constructor|reflexivity|intros u r E; discriminate E]. }
  rewrite app_nil_r in S. apply (steps_run _ _ 1 e S). reflexivity.
Qed.

(** * Every run ends *)
Lemma run_total early unread fuel : forall g ts, config g -> weights g + 11 * length ts < fuel -> run early unread fuel g ts <> Out.
Proof.
  induction fuel as [|fuel IH]; intros g ts C W; [lia|]. cbn [run].
  assert (M : (if early g (hd_error ts) then Refused ts
               else match act g (hd_error ts), ts with
                    | Shift, t :: ts' => run early unread fuel (Y t :: g) ts'
                    | Shift, [] => Out
                    | Reduce g', _ => run early unread fuel g' ts
                    | TooLarge, _ => Large
                    | Stuck, _ => match ts, g with [], [X KExpr e] => Accepted e | _, _ => Refused ts end
                    end) <> Out).
  { destruct (early g (hd_error ts)); [discriminate|]. destruct (act g (hd_error ts)) as [|g'| |] eqn:E.
    - apply act_shift in E as (u & Eu & Es). destruct ts as [|t ts']; [discriminate Eu|]. injection Eu as <-.
      apply IH; [apply shift_config; assumption|]. change (weights (Y t :: g)) with (10 + weights g). cbn [length] in W. lia.
    - apply act_config in E; [|exact C]. pose proof (reduces_weight _ _ E) as L. pose proof (reduces_config _ _ C E) as C'.
      destruct ts; apply IH; auto; lia.
    - destruct ts; discriminate.
    - destruct ts; [|discriminate]. destruct g as [|[t|k e] [|? ?]]; try discriminate; destruct k; discriminate. }
  destruct ts as [|t ts]; [destruct unread; [discriminate|exact M]|exact M].
Qed.

(** * What a run tells *)
Lemma derives_fit g a x : derives g a x -> fit a.
Proof.
  unfold fit. induction 1; intros d I; repeat (rewrite ?in_app_iff in I; cbn [In] in I); intuition (try discriminate; eauto).
  match goal with E : TNum _ = TNum _ |- _ => injection E as <- end. assumption.
Qed.
Lemma covers_fit g p : covers g p -> (forall d, ~ In (Y (TNum d)) g) -> fit p.
Proof.
  induction 1 as [|t g p V IH|k e g p q V IH D]; intros N d I.
  - destruct I.
  - apply in_app_or in I as [I|[->|[]]]; [apply (IH ltac:(intros d' I'; apply (N d'); right; exact I') d I)|]. destruct (N d). left. reflexivity.
  - apply in_app_or in I as [I|I]; [apply (IH ltac:(intros d' I'; apply (N d'); right; exact I') d I)|]. exact (derives_fit _ _ _ D d I).
Qed.
Lemma awaits_numberless k g : awaits k g -> forall d, ~ In (Y (TNum d)) g.
Proof.
  induction 1; intros d I; cbn [In] in I; try (repeat (destruct I as [I|I]; [discriminate I|]); solve [eapply IHawaits; eassumption|destruct I]).
  - destruct I as [I|[I|I]]; [|discriminate I|exact (IHawaits d I)]. injection I as ->. match goal with B : binary _ _ _ |- _ => destruct B; discriminate end.
  - destruct I as [I|I]; [|exact (IHawaits d I)]. injection I as ->. match goal with E : _ \/ _ |- _ => destruct E; discriminate end.
Qed.
Lemma fit_part a b : fit (a ++ b) -> fit a.
Proof. intros F d I. apply F, in_or_app. left. exact I. Qed.
Lemma fit_last a : fit a -> fit (removelast a).
Proof. intros F. destruct a as [|t a']; [exact F|]. rewrite (app_removelast_last t (l := t :: a')) in F by discriminate. exact (fit_part _ _ F). Qed.
Lemma config_fit g p : config g -> covers g p -> fit (removelast p).
Proof.
  intros C V. destruct C as [k g A|k g A|d k g A|e k g A|j e k g A R].
  - apply fit_last, (covers_fit _ _ V), (awaits_numberless _ _ A).
  - apply fit_last, (covers_fit _ _ V). intros d [I|I]; [discriminate I|exact (awaits_numberless _ _ A d I)].
  - apply covers_tok in V as (p' & -> & V). rewrite removelast_last. apply (covers_fit _ _ V), (awaits_numberless _ _ A).
  - apply fit_last, (covers_fit _ _ V). intros d [I|[I|[I|I]]]; try discriminate I. exact (awaits_numberless _ _ A d I).
  - apply fit_last, (covers_fit _ _ V). intros d [I|I]; [discriminate I|exact (awaits_numberless _ _ A d I)].
Qed.
Definition told (unread : bool) (p ts : list tok) (v : verdict) : Prop :=
  match v with
  | Accepted e => unread = false /\ derives GExpr (p ++ ts) e
  | Refused r => exists u, ts = u ++ r /\ viable (p ++ u) /\ fit (removelast (p ++ u))
  | Large => exists u d r, p ++ ts = u ++ TNum d :: r /\ num_value d = None /\ viable (u ++ [TNum d]) /\ fit u
  | Unread => unread = true /\ viable (p ++ ts) /\ fit (removelast (p ++ ts))
  | Out => True
  end.
Lemma reduction_large g : config g -> reduction g = TooLarge -> exists d g', g = Y (TNum d) :: g' /\ num_value d = None.
Proof.
  intros C E. destruct C as [k g A|k g A|d k g A|e k g A|j e k g A R]; try discriminate E.
  - rewrite (awaits_stuck _ _ A) in E. discriminate.
  - cbn in E. destruct (num_value d) eqn:N; [discriminate|eauto].
  - destruct j; cbn [reduction] in E; try discriminate E.
    destruct g as [|[t|k1 e1] g]; try discriminate E. destruct t; try discriminate E. destruct g as [|[t|k1 e1] g]; try discriminate E. destruct k1; try discriminate E.
    destruct g as [|[t|k1 e2] g]; try discriminate E. destruct t; try discriminate E. destruct g as [|[t|k1 e2] g]; try discriminate E. destruct k1; discriminate E.
Qed.
Lemma act_large g t : config g -> act g t = TooLarge -> exists d g', g = Y (TNum d) :: g' /\ num_value d = None.
Proof. intros C. destruct t as [t|]; cbn; [destruct (shifts g t); [discriminate|]|]; apply reduction_large; exact C. Qed.
Lemma run_told early unread fuel : forall g ts p, config g -> covers g p -> told unread p ts (run early unread fuel g ts).
Proof.
  induction fuel as [|fuel IH]; intros g ts p C V; [exact Logic.I|]. cbn [run].
  pose proof (config_viable g p C V) as Vp. pose proof (config_fit g p C V) as Fp.
  assert (Rf : told unread p ts (Refused ts)) by (exists []; rewrite app_nil_r; split; [reflexivity|split; [exact Vp|exact Fp]]).
  assert (M : ts <> [] \/ unread = false -> told unread p ts (if early g (hd_error ts) then Refused ts
               else match act g (hd_error ts), ts with
                    | Shift, t :: ts' => run early unread fuel (Y t :: g) ts'
                    | Shift, [] => Out
                    | Reduce g', _ => run early unread fuel g' ts
                    | TooLarge, _ => Large
                    | Stuck, _ => match ts, g with [], [X KExpr e] => Accepted e | _, _ => Refused ts end
                    end)).
  { intros U. destruct (early g (hd_error ts)); [exact Rf|]. destruct (act g (hd_error ts)) as [|g'| |] eqn:E.
    - apply act_shift in E as (u & Eu & Es). destruct ts as [|t ts']; [discriminate Eu|]. injection Eu as <-.
      assert (V' : covers (Y t :: g) (p ++ [t])) by (constructor; exact V).
      specialize (IH _ ts' _ (shift_config _ _ C Es) V').
      destruct (run early unread fuel (Y t :: g) ts'); cbn [told] in *; rewrite <- ?app_assoc in IH; cbn [app] in IH; try exact IH.
      destruct IH as (u & -> & Vu). exists (t :: u). split; [reflexivity|]. rewrite <- !app_assoc in Vu. exact Vu.
    - apply act_config in E; [|exact C]. specialize (IH g' ts p (reduces_config _ _ C E) (reduces_covers _ _ _ E V)). destruct ts; exact IH.
    - apply act_large in E as (d & g' & -> & N); [|exact C]. apply covers_tok in V as (p' & -> & V). rewrite removelast_last in Fp.
      assert (L : told unread (p' ++ [TNum d]) ts Large) by (exists p', d, ts; rewrite <- app_assoc; auto). destruct ts; exact L.
    - destruct ts as [|t ts]; [|exact Rf]. destruct U as [U|U]; [congruence|].
      destruct g as [|[t|k e] [|? ?]]; try exact Rf; destruct k; try exact Rf. split; [exact U|].
      apply covers_cat in V as (p' & q & -> & V & D). inversion V; subst. rewrite app_nil_r. exact D. }
  destruct ts as [|t ts]; [destruct unread|].
  - split; [reflexivity|]. rewrite app_nil_r. split; [exact Vp|exact Fp].
  - apply M. right. reflexivity.
  - apply M. left. discriminate.
Qed.

(** * What is refused is refused whatever the values are *)
Lemma unnumbered_cases t u : unnumbered t = unnumbered u -> t = u \/ exists d d', t = TNum d /\ u = TNum d'.
Proof. destruct t, u; cbn; intros E; try discriminate E; eauto. Qed.
Definition like_action (a b : action) : Prop :=
  match a, b with
  | Shift, Shift | Stuck, Stuck | TooLarge, TooLarge | TooLarge, Reduce _ | Reduce _, TooLarge => True
  | Reduce g, Reduce g' => Forall2 alike_symbol g g'
  | _, _ => False
  end.
Lemma alike_cons a b : alike_symbol a b -> (exists t, a = Y t /\ b = Y t) \/ (exists d d', a = Y (TNum d) /\ b = Y (TNum d')) \/ exists k e e', a = X k e /\ b = X k e'.
Proof.
  destruct a as [t|k e], b as [u|j f]; cbn; intros H; try contradiction.
  - apply unnumbered_cases in H as [->|(d & d' & -> & ->)]; eauto 6.
  - right. right. subst. eauto.
Qed.
Ltac open_alike F :=
  inversion F as [|?a ?b ?l ?l' ?AB ?F']; subst; clear F;
  [|match goal with AB : alike_symbol _ _ |- _ => apply alike_cons in AB; destruct AB as [(?t & -> & ->)|[(?d & ?d' & -> & ->)|(?k & ?e & ?e' & -> & ->)]] end].
Ltac solve_alike := repeat (first [assumption|apply Forall2_nil|apply Forall2_cons; [reflexivity|]]).
Lemma joined_alike ops k e e' g g' : (forall d, ops (TNum d) = None) -> Forall2 alike_symbol g g' -> Forall2 alike_symbol (joined ops k e g) (joined ops k e' g').
Proof.
  intros O F. open_alike F.
  - cbn. solve_alike.
  - open_alike F'; try (cbn [joined]; solve_alike). cbn [joined]. destruct (ops t); [destruct (same _ k)|]; solve_alike.
  - open_alike F'; cbn [joined]; rewrite ?O; solve_alike.
  - cbn [joined]. solve_alike.
Qed.
Lemma reduction_alike g g' : Forall2 alike_symbol g g' -> like_action (reduction g) (reduction g').
Proof.
  intros F. open_alike F.
  - exact Logic.I.
  - destruct t; try exact Logic.I.
    1: { cbn. solve_alike. }
    2: { cbn. match goal with |- context [num_value ?d] => destruct (num_value d) end; [cbn; solve_alike|exact Logic.I]. }
    open_alike F'; try exact Logic.I. destruct k; try exact Logic.I. open_alike F'0; try exact Logic.I. destruct t; try exact Logic.I. cbn. solve_alike.
  - cbn. destruct (num_value d), (num_value d'); try exact Logic.I. solve_alike.
  - destruct k.
    + open_alike F'; try exact Logic.I. destruct t; try exact Logic.I. open_alike F'0; try exact Logic.I. destruct k; try exact Logic.I.
      open_alike F'; try exact Logic.I. destruct t; try exact Logic.I. open_alike F'0; try exact Logic.I. destruct k; try exact Logic.I. cbn. solve_alike.
    + cbn. solve_alike.
    + apply joined_alike; [reflexivity|exact F'].
    + apply joined_alike; [reflexivity|exact F'].
    + apply joined_alike; [reflexivity|exact F'].
    + open_alike F'; cbn; try solve [solve_alike]. destruct t; solve_alike.
    + apply joined_alike; [reflexivity|exact F'].
    + apply joined_alike; [reflexivity|exact F'].
    + open_alike F'; cbn; try solve [solve_alike]. destruct t; try solve [solve_alike]. open_alike F'0; try solve [solve_alike]. destruct k; solve_alike.
Qed.
Lemma shifts_alike g g' t t' : Forall2 alike_symbol g g' -> unnumbered t = unnumbered t' -> shifts g t = shifts g' t'.
Proof.
  intros F E. assert (O : opens g t = opens g' t').
  { apply unnumbered_cases in E as [<-|(d & d' & -> & ->)]; [|reflexivity]. destruct t; try reflexivity.
    - open_alike F; try reflexivity.
    - open_alike F; try reflexivity.
    - open_alike F; try reflexivity. destruct t; try reflexivity. open_alike F'; reflexivity. }
  assert (K : forall k l l', Forall2 alike_symbol l l' -> continues k l t = continues k l' t').
  { intros k l l' F'. apply unnumbered_cases in E as [<-|(d & d' & -> & ->)]; [|destruct k; reflexivity].
    destruct k; try reflexivity. destruct t; try reflexivity; open_alike F'; reflexivity. }
  pose proof F as F0. open_alike F.
  - exact O.
  - cbn [shifts]. destruct t0; try exact O; reflexivity.
  - reflexivity.
  - apply K. exact F'.
Qed.
Lemma act_alike g g' t t' : Forall2 alike_symbol g g' -> option_map unnumbered t = option_map unnumbered t' -> like_action (act g t) (act g' t').
Proof.
  intros F E. destruct t as [t|], t' as [t'|]; cbn in E; try discriminate E.
  - injection E as E. cbn [act]. rewrite (shifts_alike _ _ _ _ F E). destruct (shifts g' t'); [exact Logic.I|apply reduction_alike; exact F].
  - cbn [act]. apply reduction_alike. exact F.
Qed.
Lemma hd_alike u u' r r' : map unnumbered u' = map unnumbered u -> option_map unnumbered (hd_error r) = option_map unnumbered (hd_error r') ->
  option_map unnumbered (hd_error (u ++ r)) = option_map unnumbered (hd_error (u' ++ r')).
Proof. destruct u, u'; cbn; intros E H; try discriminate E; [exact H|]. injection E as -> _. reflexivity. Qed.
Lemma run_local early unread fuel : cautious early -> forall g ts r, run early unread fuel g ts = Refused r ->
  exists u, ts = u ++ r /\ forall fuel' g' u' r' e, Forall2 alike_symbol g g' -> map unnumbered u' = map unnumbered u ->
    option_map unnumbered (hd_error r) = option_map unnumbered (hd_error r') -> run never false fuel' g' (u' ++ r') <> Accepted e.
Proof.
  intros Ca. induction fuel as [|fuel IH]; intros g ts r; [discriminate|]. cbn [run]. intros H.
  assert (M : (if early g (hd_error ts) then Refused ts
               else match act g (hd_error ts), ts with
                    | Shift, t :: ts' => run early unread fuel (Y t :: g) ts'
                    | Shift, [] => Out
                    | Reduce g', _ => run early unread fuel g' ts
                    | TooLarge, _ => Large
                    | Stuck, _ => match ts, g with [], [X KExpr e] => Accepted e | _, _ => Refused ts end
                    end) = Refused r) by (destruct ts; [destruct unread; [discriminate H|exact H]|exact H]).
  clear H. destruct (early g (hd_error ts)) eqn:Ey.
  { injection M as <-. exists []. split; [reflexivity|]. intros fuel' g' u' r' e F Eu Er Ac. destruct u'; [|discriminate Eu].
    apply (Ca g _ Ey g' r' F Er). exists fuel', e. exact Ac. }
  assert (Rd : forall fuel' g' w, run never false (S fuel') g' w = match act g' (hd_error w), w with
                    | Shift, t :: ts' => run never false fuel' (Y t :: g') ts'
                    | Shift, [] => Out
                    | Reduce g2, _ => run never false fuel' g2 w
                    | TooLarge, _ => Large
                    | Stuck, _ => match w, g' with [], [X KExpr e] => Accepted e | _, _ => Refused w end
                    end) by (intros fuel' g' [|? ?]; reflexivity).
  destruct (act g (hd_error ts)) as [|g2| |] eqn:E.
  - destruct ts as [|t ts']; [discriminate M|]. destruct (IH _ _ _ M) as (u & -> & L). exists (t :: u). split; [reflexivity|].
    intros [|fuel'] g' [|t' u'] r' e F Eu Er; try discriminate; try discriminate Eu. injection Eu as Et Eu.
    pose proof (act_alike g g' (Some t) (Some t') F ltac:(cbn; congruence)) as A. cbn [app hd_error] in E. rewrite E in A.
    rewrite Rd. cbn [app hd_error]. destruct (act g' (Some t')); try destruct A. apply L; [constructor; [symmetry; exact Et|exact F]|exact Eu|exact Er].
  - assert (M' : run early unread fuel g2 ts = Refused r) by (destruct ts; exact M). destruct (IH _ _ _ M') as (u & -> & L). exists u. split; [reflexivity|].
    intros [|fuel'] g' u' r' e F Eu Er; [discriminate|].
    pose proof (act_alike g g' _ _ F (hd_alike u u' r r' Eu Er)) as A. rewrite E in A. rewrite Rd. destruct (act g' (hd_error (u' ++ r'))) as [|g3| |]; try contradiction.
    + destruct (u' ++ r') eqn:W; rewrite <- W; apply L; assumption.
    + destruct (u' ++ r'); discriminate.
  - destruct ts; discriminate M.
  - assert (Er0 : ts = r /\ (ts = [] -> forall e, g <> [X KExpr e])).
    { destruct ts as [|t ts]; [|injection M as <-; split; [reflexivity|discriminate]].
      destruct g as [|[t|k e] [|? ?]]; try (injection M as <-; split; [reflexivity|intros _ e0 B; discriminate B]).
      all: destruct k; try discriminate M; injection M as <-; split; try reflexivity; intros _ e0 B; discriminate B. }
    destruct Er0 as [-> N]. exists []. split; [reflexivity|]. intros [|fuel'] g' u' r' e F Eu Er; [discriminate|]. destruct u'; [|discriminate Eu]. cbn [app].
    pose proof (act_alike g g' _ _ F Er) as A. rewrite E in A. rewrite Rd. destruct (act g' (hd_error r')); try destruct A.
    destruct r' as [|t' r']; [|discriminate]. destruct r as [|t r]; [|discriminate Er].
    destruct g' as [|[t|k e0] [|? ?]]; try discriminate; destruct k; try discriminate.
    inversion F as [|a b l l' AB F']; subst. inversion F'; subst. destruct a as [t|k e1]; cbn in AB; [destruct AB|]. subst. destruct (N eq_refl _ eq_refl).
Qed.
