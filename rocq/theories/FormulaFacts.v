(** The formula parser and the grammar; unambiguity; printing. *)
From Coq Require Import String Arith NArith ZArith Bool List Lia.
From Coq Require Import ZifyBool ZifyNat ZifyN.
From Verif Require Import ModelBase ModelFormula BaseFacts SpecLine LineFacts SpecFormula.
Import ListNotations.

(** * Numbers *)
Lemma is_digit_iff c : is_digit c = true <-> (48 <= c <= 57)%N.
Proof. unfold is_digit. lia. Qed.

Lemma digits_value_snoc ds c : digits_value (ds ++ [c]) = (digits_value ds * 10 + (Z.of_N c - 48))%Z.
Proof. unfold digits_value. rewrite fold_left_app. reflexivity. Qed.

Definition dv (a : Z) (ds : str) : Z := fold_left (fun a c => a * 10 + (Z.of_N c - 48))%Z ds a.
Lemma dv_mono ds a : (0 <= a)%Z -> (forall c, In c ds -> (48 <= c <= 57)%N) -> (a <= dv a ds)%Z.
Proof.
  revert a. induction ds as [|c ds IH]; intros a Ha H; cbn [dv fold_left]; [lia|].
  assert (48 <= c <= 57)%N by (apply H; left; reflexivity).
  etransitivity; [|apply IH]; [nia|nia|]. intros x Hx; apply H; right; exact Hx.
Qed.

Lemma parse_digits_spec max ds : forall a,
  (a <= max)%N ->
  parse_digits max a ds =
    if forallb is_digit ds then
      if (dv (Z.of_N a) ds <=? Z.of_N max)%Z then inl (Z.to_N (dv (Z.of_N a) ds)) else inr IntPosOverflow
    else parse_digits max a ds.
Proof.
  induction ds as [|c ds IH]; intros a Ha; cbn [forallb parse_digits].
  - change (dv (Z.of_N a) []) with (Z.of_N a). replace (Z.of_N a <=? Z.of_N max)%Z with true by lia.
    rewrite N2Z.id. reflexivity.
  - destruct (is_digit c) eqn:D; cbn [andb]; [|reflexivity].
    destruct (forallb is_digit ds) eqn:F; [|reflexivity].
    pose proof (proj1 (is_digit_iff c) D).
    change (dv (Z.of_N a) (c :: ds)) with (dv (Z.of_N a * 10 + (Z.of_N c - 48))%Z ds).
    replace (Z.of_N a * 10 + (Z.of_N c - 48))%Z with (Z.of_N (a * 10 + (c - 48))) by lia.
    pose proof (dv_mono ds (Z.of_N (a * 10 + (c - 48))) ltac:(lia)) as Hm.
    assert (forall x, In x ds -> (48 <= x <= 57)%N) as HF.
    { intros x Hx. apply is_digit_iff. rewrite forallb_forall in F. auto. }
    specialize (Hm HF).
    destruct (max <? a * 10)%N eqn:E1.
    { replace (dv _ ds <=? Z.of_N max)%Z with false by lia. reflexivity. }
    destruct (max <? a * 10 + (c - 48))%N eqn:E2.
    { replace (dv _ ds <=? Z.of_N max)%Z with false by lia. reflexivity. }
    apply IH. lia.
Qed.

Lemma parse_digits_nondigit max ds : forall a, forallb is_digit ds = false ->
  exists e, parse_digits max a ds = inr e.
Proof.
  induction ds as [|c ds IH]; intros a F; cbn [forallb parse_digits] in *; [discriminate F|].
  destruct (is_digit c); [|eauto]. cbn [andb] in F.
  destruct (max <? a * 10)%N; [eauto|]. destruct (max <? a * 10 + (c - 48))%N; eauto.
Qed.

Lemma parse_digits_ok max ds v :
  parse_digits max 0 ds = inl v <->
  (forall c, In c ds -> (48 <= c <= 57)%N) /\ (digits_value ds <= Z.of_N max)%Z /\ v = Z.to_N (digits_value ds).
Proof.
  rewrite parse_digits_spec by lia. change (dv (Z.of_N 0) ds) with (digits_value ds).
  destruct (forallb is_digit ds) eqn:F.
  - rewrite forallb_forall in F.
    assert (forall c, In c ds -> (48 <= c <= 57)%N) by (intros c Hc; apply is_digit_iff; auto).
    destruct (digits_value ds <=? Z.of_N max)%Z eqn:E; split; intros H1; try discriminate H1.
    + injection H1 as <-. split; [assumption|]. split; [lia|reflexivity].
    + destruct H1 as (_ & _ & ->). reflexivity.
    + exfalso. destruct H1 as (_ & H1 & _). lia.
  - destruct (parse_digits_nondigit max ds 0 F) as (e & ->). split; [discriminate|].
    intros (H & _). exfalso. assert (forallb is_digit ds = true); [|congruence].
    apply forallb_forall. intros c Hc. apply is_digit_iff; auto.
Qed.

Lemma digits_value_nonneg ds : (forall c, In c ds -> (48 <= c <= 57)%N) -> (0 <= digits_value ds)%Z.
Proof. intros H. exact (dv_mono ds 0 ltac:(lia) H). Qed.

Lemma num_value_ok ds v :
  num_value ds = Some v <->
  ds <> [] /\ (forall c, In c ds -> (48 <= c <= 57)%N) /\ (digits_value ds <= max64)%Z /\ v = digits_value ds.
Proof.
  unfold num_value.
  destruct ds as [|c ds]; [split; [discriminate|intros (H & _); congruence]|].
  destruct (parse_digits i64_max 0 (c :: ds)) as [w|e] eqn:E.
  - apply parse_digits_ok in E as (H1 & H2 & ->).
    pose proof (digits_value_nonneg _ H1). rewrite Z2N.id by assumption.
    split.
    + intros [= <-]. split; [discriminate|]. auto.
    + intros (_ & _ & _ & ->). reflexivity.
  - split; [discriminate|]. intros (_ & H1 & H2 & ->). exfalso.
    assert (parse_digits i64_max 0 (c :: ds) = inl (Z.to_N (digits_value (c :: ds)))).
    { apply parse_digits_ok. auto. } congruence.
Qed.

(** * Chains of left-associative operators *)
Section Chain.
  Variable ops : tok -> option binop.
  Variable R : list tok -> node -> Prop.
  Inductive chain : list tok -> node -> Prop :=
  | ch_one ts e : R ts e -> chain ts e
  | ch_more ts l t op ts' r : chain ts l -> ops t = Some op -> R ts' r ->
      chain (ts ++ t :: ts') (NBin op l r).
End Chain.

Lemma chain_impl ops (R S : list tok -> node -> Prop) ts e m :
  (forall ts e, R ts e -> length ts <= m -> S ts e) -> length ts <= m ->
  chain ops R ts e -> chain ops S ts e.
Proof.
  intros H Hl C. induction C as [ts e C|ts l t op ts' r C IH Ho Hr].
  - constructor; auto.
  - rewrite app_length in Hl. cbn [length] in Hl. econstructor; [apply IH; lia|exact Ho|apply H; [exact Hr|lia]].
Qed.

Definition stop (cont : tok -> bool) (ts : list tok) : Prop :=
  match ts with [] => True | t :: _ => cont t = false end.
Definition psound (R : list tok -> node -> Prop) (p : parser) : Prop :=
  forall ts e rest, p ts = Some (e, rest) -> exists pre, ts = pre ++ rest /\ R pre e.
Definition pcomplete (R : list tok -> node -> Prop) (cont : tok -> bool) (p : parser) : Prop :=
  forall pre e rest, R pre e -> stop cont rest -> p (pre ++ rest) = Some (e, rest).
Definition is_some {A} (o : option A) : bool := match o with Some _ => true | None => false end.

Lemma p_chain_sound ops R p fuel : psound R p -> forall lhs ts e rest pre0,
  p_chain ops p fuel lhs ts = Some (e, rest) -> chain ops R pre0 lhs ->
  exists pre, ts = pre ++ rest /\ chain ops R (pre0 ++ pre) e.
Proof.
  intros Hp. induction fuel as [|fuel IH]; intros lhs ts e rest pre0 E C.
  - destruct ts as [|t ts]; cbn [p_chain] in E.
    + injection E as <- <-. exists []. split; [reflexivity|rewrite app_nil_r; exact C].
    + destruct (ops t); [discriminate E|]. injection E as <- <-. exists []. split; [reflexivity|rewrite app_nil_r; exact C].
  - destruct ts as [|t ts]; cbn [p_chain] in E.
    + injection E as <- <-. exists []. split; [reflexivity|rewrite app_nil_r; exact C].
    + destruct (ops t) as [op|] eqn:Eo.
      * destruct (p ts) as [[r ts2]|] eqn:Ep; [|discriminate E].
        apply Hp in Ep as (pre & -> & Hr).
        apply IH with (pre0 := pre0 ++ t :: pre) in E as (pre' & -> & C').
        -- exists (t :: pre ++ pre'). split; [cbn; rewrite app_assoc; reflexivity|].
           rewrite <- app_assoc in C'. exact C'.
        -- econstructor; eassumption.
      * injection E as <- <-. exists []. split; [reflexivity|rewrite app_nil_r; exact C].
Qed.

Lemma p_lassoc_sound ops R p : psound R p -> psound (chain ops R) (p_lassoc ops p).
Proof.
  intros Hp ts e rest E. unfold p_lassoc in E.
  destruct (p ts) as [[l ts1]|] eqn:Ep; [|discriminate E].
  apply Hp in Ep as (pre & -> & Hr).
  apply (p_chain_sound ops R p _ Hp _ _ _ _ pre) in E as (pre' & -> & C); [|constructor; exact Hr].
  exists (pre ++ pre'). rewrite app_assoc. auto.
Qed.

Lemma p_lassoc_chain ops R cont p : pcomplete R cont p ->
  (forall t op, ops t = Some op -> cont t = false) ->
  forall pre e, chain ops R pre e -> forall rest, stop cont rest ->
  exists fuel, length rest <= fuel /\ p_lassoc ops p (pre ++ rest) = p_chain ops p fuel e rest.
Proof.
  intros Hp Ho pre e C. induction C as [ts e Hr|ts l t op ts' r C IH Et Hr]; intros rest Hs.
  - exists (length rest). split; [lia|]. unfold p_lassoc. rewrite (Hp _ _ _ Hr Hs). reflexivity.
  - destruct (IH (t :: ts' ++ rest)) as (fuel & Hf & E); [cbn; exact (Ho _ _ Et)|].
    cbn [length] in Hf. rewrite app_length in Hf.
    destruct fuel as [|fuel]; [lia|]. exists fuel. split; [lia|].
    rewrite <- app_assoc. cbn [app]. rewrite E. cbn [p_chain]. rewrite Et, (Hp _ _ _ Hr Hs). reflexivity.
Qed.

Lemma p_lassoc_complete ops R cont p : pcomplete R cont p ->
  (forall t op, ops t = Some op -> cont t = false) ->
  pcomplete (chain ops R) (fun t => is_some (ops t) || cont t) (p_lassoc ops p).
Proof.
  intros Hp Ho pre e rest C Hs.
  assert (stop cont rest /\ match rest with t :: _ => ops t = None | [] => True end) as [Hs1 Hs2].
  { destruct rest as [|t rest]; cbn in *; [auto|]. apply orb_false_iff in Hs as [H1 H2].
    split; [exact H2|]. destruct (ops t); [discriminate H1|reflexivity]. }
  destruct (p_lassoc_chain ops R cont p Hp Ho pre e C rest Hs1) as (fuel & _ & ->).
  destruct rest as [|t rest]; [destruct fuel; reflexivity|].
  destruct fuel; cbn [p_chain]; rewrite Hs2; reflexivity.
Qed.

Lemma pcomplete_weaken (R : list tok -> node -> Prop) (c c' : tok -> bool) p :
  (forall t, c' t = false -> c t = false) -> pcomplete R c p -> pcomplete R c' p.
Proof. intros H Hp pre e rest Hr Hs. apply Hp; [exact Hr|]. destruct rest; cbn in *; auto. Qed.

Definition until (m : nat) (R : list tok -> node -> Prop) (ts : list tok) (e : node) : Prop :=
  R ts e /\ length ts <= m.
Lemma chain_until ops R m ts e :
  until m (chain ops R) ts e -> chain ops (until m R) ts e.
Proof.
  intros [C Hl]. eapply (chain_impl ops R _ _ _ m); [|exact Hl|exact C]. intros; split; assumption.
Qed.
Lemma lassoc_complete_until ops R cont p m : pcomplete (until m R) cont p ->
  (forall t op, ops t = Some op -> cont t = false) ->
  pcomplete (until m (chain ops R)) (fun t => is_some (ops t) || cont t) (p_lassoc ops p).
Proof.
  intros Hp Ho pre e rest C Hs. apply chain_until in C.
  exact (p_lassoc_complete ops _ cont p Hp Ho pre e rest C Hs).
Qed.

(** * The grammar as chains *)
Definition shape (nt : nonterm) (ts : list tok) (e : node) : Prop :=
  match nt with
  | GExpr => derives GOr ts e \/ exists a b c x y z, ts = a ++ TQuestion :: b ++ TColon :: c
               /\ e = NCond x y z /\ derives GOr a x /\ derives GExpr b y /\ derives GExpr c z
  | GOr => chain ops_or (derives GAnd) ts e
  | GAnd => chain ops_and (derives GLogical) ts e
  | GLogical => chain ops_logical (derives GNot) ts e
  | GNot => derives GAdd ts e \/ exists t a x, ts = t :: a /\ (t = TNotSym \/ t = TNotWord)
               /\ e = NUn UNot x /\ derives GAdd a x
  | GAdd => chain ops_add (derives GMul) ts e
  | GMul => chain ops_mul (derives GFactor) ts e
  | GFactor => derives GTerm ts e \/ exists a x, ts = TMinus :: a /\ e = NUn UNeg x /\ derives GTerm a x
  | GTerm => (exists d v, ts = [TNum d] /\ num_value d = Some v /\ e = NNum v)
             \/ (ts = [TVar] /\ e = NVar)
             \/ exists a, ts = TLParen :: a ++ [TRParen] /\ derives GExpr a e
  end.

Lemma derives_shape nt ts e : derives nt ts e <-> shape nt ts e.
Proof.
  split.
  - intros D. induction D; cbn [shape] in *; try (econstructor; [eassumption|reflexivity|eassumption]);
      try (constructor; assumption).
    + right. exists a, b, c, x, y, z. auto.
    + right. exists TNotSym, a, x. auto.
    + right. exists TNotWord, a, x. auto.
    + right. eauto.
    + left. exists ds, (digits_value ds). split; [reflexivity|]. split; [|reflexivity]. apply num_value_ok. auto.
    + right; left. auto.
    + right; right. eauto.
  - destruct nt; cbn [shape]; intros S.
    + destruct S as [S|(a & b & c & x & y & z & -> & -> & H1 & H2 & H3)]; [apply d_expr; exact S|apply d_cond; assumption].
    + induction S as [ts e S|ts l t op ts' r S IH Ho Hr]; [apply d_or; exact S|].
      destruct t; try discriminate Ho; injection Ho as <-; constructor; assumption.
    + induction S as [ts e S|ts l t op ts' r S IH Ho Hr]; [apply d_and; exact S|].
      destruct t; try discriminate Ho; injection Ho as <-; constructor; assumption.
    + induction S as [ts e S|ts l t op ts' r S IH Ho Hr]; [apply d_logical; exact S|].
      destruct t; try discriminate Ho; injection Ho as <-; constructor; assumption.
    + destruct S as [S|(t & a & x & -> & [->| ->] & -> & S)]; constructor; exact S.
    + induction S as [ts e S|ts l t op ts' r S IH Ho Hr]; [apply d_add; exact S|].
      destruct t; try discriminate Ho; injection Ho as <-; constructor; assumption.
    + induction S as [ts e S|ts l t op ts' r S IH Ho Hr]; [apply d_mul; exact S|].
      destruct t; try discriminate Ho; injection Ho as <-; constructor; assumption.
    + destruct S as [S|(a & x & -> & -> & S)]; constructor; exact S.
    + destruct S as [(d & v & -> & Hv & ->)|[(-> & ->)|(a & -> & S)]].
      * apply num_value_ok in Hv as (H0 & H1 & H2 & ->). constructor; assumption.
      * constructor.
      * constructor; exact S.
Qed.

Definition G (nt : nonterm) := derives nt.

Lemma psound_impl (R S : list tok -> node -> Prop) p :
  (forall ts e, R ts e -> S ts e) -> psound R p -> psound S p.
Proof. intros H Hp ts e rest E. destruct (Hp _ _ _ E) as (pre & -> & Hr). eauto. Qed.

Section Levels.
  Variable px : parser.
  Hypothesis px_sound : psound (derives GExpr) px.

  Lemma p_term_sound : psound (derives GTerm) (p_term px).
  Proof.
    intros ts e rest E. destruct ts as [|t ts]; cbn [p_term] in E; [discriminate E|].
    destruct t; try discriminate E.
    - injection E as <- <-. exists [TVar]. split; [reflexivity|constructor].
    - destruct (px ts) as [[x ts1]|] eqn:Ex; [|discriminate E].
      destruct ts1 as [|[] ts1]; try discriminate E. injection E as <- <-.
      apply px_sound in Ex as (pre & -> & D). exists (TLParen :: pre ++ [TRParen]).
      split; [cbn; rewrite <- app_assoc; reflexivity|]. constructor; exact D.
    - destruct (num_value digits) as [v|] eqn:Ev; [|discriminate E]. injection E as <- <-.
      exists [TNum digits]. split; [reflexivity|]. apply derives_shape. left. eauto.
  Qed.

  Lemma p_factor_sound : psound (derives GFactor) (p_factor px).
  Proof.
    intros ts e rest E. unfold p_factor in E.
    assert (p_term px ts = Some (e, rest) -> exists pre, ts = pre ++ rest /\ derives GFactor pre e) as Hdef.
    { intros E'. apply p_term_sound in E' as (pre & -> & D). exists pre. split; [reflexivity|constructor; exact D]. }
    destruct ts as [|t ts]; [exact (Hdef E)|]. destruct t; try exact (Hdef E).
    destruct (p_term px ts) as [[x r]|] eqn:Et; [|discriminate E]. injection E as <- <-.
    apply p_term_sound in Et as (pre & -> & D). exists (TMinus :: pre). split; [reflexivity|constructor; exact D].
  Qed.

  Lemma p_mul_sound : psound (derives GMul) (p_mul px).
  Proof.
    eapply psound_impl; [|apply p_lassoc_sound, p_factor_sound].
    intros ts e C. apply derives_shape. exact C.
  Qed.
  Lemma p_add_sound : psound (derives GAdd) (p_add px).
  Proof.
    eapply psound_impl; [|apply p_lassoc_sound, p_mul_sound].
    intros ts e C. apply derives_shape. exact C.
  Qed.
  Lemma p_not_sound : psound (derives GNot) (p_not px).
  Proof.
    intros ts e rest E. unfold p_not in E.
    assert (p_add px ts = Some (e, rest) -> exists pre, ts = pre ++ rest /\ derives GNot pre e) as Hdef.
    { intros E'. apply p_add_sound in E' as (pre & -> & D). exists pre. split; [reflexivity|constructor; exact D]. }
    destruct ts as [|t ts]; [exact (Hdef E)|]. destruct t; try exact (Hdef E);
    destruct (p_add px ts) as [[x r]|] eqn:Et; try discriminate E; injection E as <- <-;
    apply p_add_sound in Et as (pre & -> & D); eexists (_ :: pre); (split; [reflexivity|constructor; exact D]).
  Qed.
  Lemma p_logical_sound : psound (derives GLogical) (p_logical px).
  Proof.
    eapply psound_impl; [|apply p_lassoc_sound, p_not_sound].
    intros ts e C. apply derives_shape. exact C.
  Qed.
  Lemma p_and_sound : psound (derives GAnd) (p_and px).
  Proof.
    eapply psound_impl; [|apply p_lassoc_sound, p_logical_sound].
    intros ts e C. apply derives_shape. exact C.
  Qed.
  Lemma p_or_sound : psound (derives GOr) (p_or px).
  Proof.
    eapply psound_impl; [|apply p_lassoc_sound, p_and_sound].
    intros ts e C. apply derives_shape. exact C.
  Qed.
End Levels.

Lemma p_expr_eq fuel ts : p_expr (S fuel) ts =
      match p_or (p_expr fuel) ts with
      | Some (test, TQuestion :: ts1) =>
          match p_expr fuel ts1 with
          | Some (if_true, TColon :: ts2) =>
              match p_expr fuel ts2 with
              | Some (if_false, ts3) => Some (NCond test if_true if_false, ts3)
              | None => None
              end
          | _ => None
          end
      | r => r
      end.
Proof. reflexivity. Qed.

Lemma p_expr_sound fuel : psound (derives GExpr) (p_expr fuel).
Proof.
  induction fuel as [|fuel IH]; intros ts e rest E; [discriminate E|].
  rewrite p_expr_eq in E.
  destruct (p_or (p_expr fuel) ts) as [[x ts1]|] eqn:E1; [|discriminate E].
  apply (p_or_sound _ IH) in E1 as (a & -> & D1).
  assert (Some (x, ts1) = Some (e, rest) -> exists pre, a ++ ts1 = pre ++ rest /\ derives GExpr pre e) as Hdef.
  { intros [= <- <-]. exists a. split; [reflexivity|apply d_expr; exact D1]. }
  destruct ts1 as [|t ts1]; [exact (Hdef E)|]. destruct t; try exact (Hdef E). clear Hdef.
  destruct (p_expr fuel ts1) as [[y ts2]|] eqn:E2; [|discriminate E].
  destruct ts2 as [|[] ts2]; try discriminate E.
  destruct (p_expr fuel ts2) as [[z ts3]|] eqn:E3; [|discriminate E]. injection E as <- <-.
  apply IH in E2 as (b & -> & D2). apply IH in E3 as (c & -> & D3).
  exists (a ++ TQuestion :: b ++ TColon :: c). split.
  - rewrite <- app_assoc. cbn [app]. rewrite <- app_assoc. reflexivity.
  - constructor; assumption.
Qed.

(** ** Completeness *)
Definition cont_mul (t : tok) : bool := is_some (ops_mul t) || false.
Definition cont_add (t : tok) : bool := is_some (ops_add t) || cont_mul t.
Definition cont_logical (t : tok) : bool := is_some (ops_logical t) || cont_add t.
Definition cont_and (t : tok) : bool := is_some (ops_and t) || cont_logical t.
Definition cont_or (t : tok) : bool := is_some (ops_or t) || cont_and t.
Definition cont_expr (t : tok) : bool := match t with TQuestion => true | _ => cont_or t end.

(** First token of a phrase of the lower levels. *)
Lemma derives_head nt ts e : derives nt ts e ->
  match nt with GTerm => exists t r, ts = t :: r /\ t <> TMinus /\ t <> TNotSym /\ t <> TNotWord
  | GFactor | GMul | GAdd => exists t r, ts = t :: r /\ t <> TNotSym /\ t <> TNotWord
  | _ => True end.
Proof.
  intros D. induction D; auto;
    repeat match goal with H : exists _ _, _ |- _ => destruct H as (? & ? & -> & ?) end;
    try (eexists _, _; split; [cbn; reflexivity|]; try tauto; repeat split; discriminate).
Qed.

Section Complete.
  Variables (px : parser) (m : nat).
  Hypothesis px_complete : forall pre e rest, derives GExpr pre e -> length pre < m ->
    stop cont_expr rest -> px (pre ++ rest) = Some (e, rest).

  Lemma p_term_complete : pcomplete (until m (derives GTerm)) (fun _ => false) (p_term px).
  Proof.
    intros pre e rest [D Hl] _. apply derives_shape in D. cbn [shape] in D.
    destruct D as [(d & v & -> & Hv & ->)|[(-> & ->)|(a & -> & D)]].
    - cbn. rewrite Hv. reflexivity.
    - reflexivity.
    - cbn [app p_term]. rewrite <- app_assoc. cbn [length] in Hl. rewrite app_length in Hl. cbn [length] in Hl.
      rewrite (px_complete a e) by (try assumption; try reflexivity; lia). reflexivity.
  Qed.

  Lemma p_factor_complete : pcomplete (until m (derives GFactor)) (fun _ => false) (p_factor px).
  Proof.
    intros pre e rest [D Hl] Hs. apply derives_shape in D. cbn [shape] in D.
    destruct D as [D|(a & x & -> & -> & D)].
    - pose proof (p_term_complete pre e rest (conj D Hl) Hs) as E.
      apply derives_head in D as (t & r & -> & H1 & _). cbn [app] in *. unfold p_factor.
      destruct t; try exact E. congruence.
    - cbn [app p_factor]. cbn [length] in Hl.
      rewrite (p_term_complete a x rest) by first [exact Hs|split; [exact D|lia]]. reflexivity.
  Qed.

  Lemma p_mul_complete : pcomplete (until m (derives GMul)) cont_mul (p_mul px).
  Proof.
    intros pre e rest [D Hl] Hs. apply derives_shape in D.
    exact (lassoc_complete_until ops_mul (derives GFactor) _ _ m p_factor_complete (fun _ _ _ => eq_refl) pre e rest (conj D Hl) Hs).
  Qed.
  Lemma p_add_complete : pcomplete (until m (derives GAdd)) cont_add (p_add px).
  Proof.
    intros pre e rest [D Hl] Hs. apply derives_shape in D.
    refine (lassoc_complete_until ops_add (derives GMul) _ _ m p_mul_complete _ pre e rest (conj D Hl) Hs).
    intros []; discriminate || reflexivity.
  Qed.
  Lemma p_not_complete : pcomplete (until m (derives GNot)) cont_add (p_not px).
  Proof.
    intros pre e rest [D Hl] Hs. apply derives_shape in D. cbn [shape] in D.
    destruct D as [D|(t & a & x & -> & Ht & -> & D)].
    - pose proof (p_add_complete pre e rest (conj D Hl) Hs) as E.
      apply derives_head in D as (t & r & -> & H1 & H2). cbn [app] in *. unfold p_not.
      destruct t; try exact E; congruence.
    - cbn [length] in Hl.
      pose proof (p_add_complete a x rest (conj D (Nat.le_trans _ _ _ (Nat.le_succ_diag_r _) Hl)) Hs) as E.
      destruct Ht as [-> | ->]; cbn [app p_not]; rewrite E; reflexivity.
  Qed.
  Lemma p_logical_complete : pcomplete (until m (derives GLogical)) cont_logical (p_logical px).
  Proof.
    intros pre e rest [D Hl] Hs. apply derives_shape in D.
    refine (lassoc_complete_until ops_logical (derives GNot) _ _ m p_not_complete _ pre e rest (conj D Hl) Hs).
    intros []; discriminate || reflexivity.
  Qed.
  Lemma p_and_complete : pcomplete (until m (derives GAnd)) cont_and (p_and px).
  Proof.
    intros pre e rest [D Hl] Hs. apply derives_shape in D.
    refine (lassoc_complete_until ops_and (derives GLogical) _ _ m p_logical_complete _ pre e rest (conj D Hl) Hs).
    intros []; discriminate || reflexivity.
  Qed.
  Lemma p_or_complete : pcomplete (until m (derives GOr)) cont_or (p_or px).
  Proof.
    intros pre e rest [D Hl] Hs. apply derives_shape in D.
    refine (lassoc_complete_until ops_or (derives GAnd) _ _ m p_and_complete _ pre e rest (conj D Hl) Hs).
    intros []; discriminate || reflexivity.
  Qed.
End Complete.

Lemma p_expr_complete fuel : forall pre e rest, derives GExpr pre e -> length pre < fuel ->
  stop cont_expr rest -> p_expr fuel (pre ++ rest) = Some (e, rest).
Proof.
  induction fuel as [|fuel IH]; intros pre e rest D Hl Hs; [lia|].
  apply derives_shape in D. cbn [shape] in D. rewrite p_expr_eq.
  destruct D as [D|(a & b & c & x & y & z & -> & -> & D1 & D2 & D3)].
  - rewrite (p_or_complete _ fuel IH pre e rest).
    + destruct rest as [|[] rest]; try reflexivity. discriminate Hs.
    + split; [exact D|lia].
    + destruct rest as [|[] rest]; cbn in *; congruence.
  - repeat (rewrite app_length in Hl; cbn [length] in Hl).
    rewrite <- app_assoc. cbn [app]. rewrite <- app_assoc. cbn [app].
    rewrite (p_or_complete _ fuel IH a x) by first [reflexivity|split; [exact D1|lia]].
    rewrite (IH b y) by (try assumption; try reflexivity; lia).
    rewrite (IH c z) by (try assumption; lia). reflexivity.
Qed.

Theorem parse_tokens_iff ts e : parse_tokens ts = Some e <-> derives GExpr ts e.
Proof.
  unfold parse_tokens. split.
  - destruct (p_expr (S (length ts)) ts) as [[x rest]|] eqn:E; [|discriminate].
    destruct rest; [|discriminate]. intros [= <-].
    apply p_expr_sound in E as (pre & -> & D). rewrite app_nil_r. exact D.
  - intros D. rewrite <- (app_nil_r ts) at 2. rewrite (p_expr_complete _ ts e []) by (try exact D; try exact I; lia).
    reflexivity.
Qed.

Theorem grammar_unambiguous ts e e' : derives GExpr ts e -> derives GExpr ts e' -> e = e'.
Proof. rewrite <- !parse_tokens_iff. congruence. Qed.
