(** The number of steps of the functions on formulas. *)
From Coq Require Import String Arith NArith ZArith Bool List Lia.
From Verif Require Import ModelBase ModelUtf8 ModelLine ModelFormula ModelData ModelSource ModelReader ModelParser ModelSteps
  SpecLine SpecFormula SpecSource SpecReader SpecHeader SpecMachine SpecSteps SpecParser BaseFacts LineFacts FormulaFacts HeaderFacts FormulaThms MachineFacts ParserThms AccessFacts.
Import ListNotations.
Local Open Scope nat_scope.

Theorem steps_execute_same checks e n : fst (steps_execute checks e n) = execute checks e n.
Proof.
  induction e as [|v|op x IH|op x IHx y IHy|x IHx y IHy z IHz]; cbn [steps_execute execute]; try reflexivity.
  - destruct (steps_execute checks x n) as [r k]. cbn [fst] in IH. rewrite <- IH. reflexivity.
  - destruct (steps_execute checks x n) as [l k]. cbn [fst] in IHx. rewrite <- IHx. destruct l as [l|]; [|reflexivity].
    destruct (steps_execute checks y n) as [r j]. cbn [fst] in IHy. rewrite <- IHy. destruct op; try reflexivity; destruct (negb (l =? 0)%Z); reflexivity.
  - destruct (steps_execute checks x n) as [c k]. cbn [fst] in IHx. rewrite <- IHx. destruct c as [c|]; [|reflexivity].
    destruct (negb (c =? 0)%Z); [destruct (steps_execute checks y n)|destruct (steps_execute checks z n)]; assumption.
Qed.
Theorem steps_execute_bound checks e n : snd (steps_execute checks e n) <= tree_size e.
Proof.
  induction e as [|v|op x IH|op x IHx y IHy|x IHx y IHy z IHz]; cbn [steps_execute tree_size]; try (cbn [snd]; lia).
  - destruct (steps_execute checks x n) as [r k]. cbn [snd] in *. lia.
  - destruct (steps_execute checks x n) as [[l|] k]; [|cbn [snd] in *; lia].
    destruct (steps_execute checks y n) as [r j]. destruct op; cbn [snd] in *; try lia; destruct (negb (l =? 0)%Z); cbn [snd]; lia.
  - destruct (steps_execute checks x n) as [[c|] k]; [|cbn [snd] in *; lia].
    destruct (negb (c =? 0)%Z); [destruct (steps_execute checks y n)|destruct (steps_execute checks z n)]; cbn [snd] in *; lia.
Qed.
Lemma derives_size g ts e : derives g ts e -> tree_size e <= length ts.
Proof. induction 1; cbn [tree_size length] in *; rewrite ?app_length; cbn [length]; rewrite ?app_length; cbn [length]; lia. Qed.
Theorem text_size s e : formula_parse s = Some e -> tree_size e <= Nat.max 1 (length s).
Proof.
  intros H. apply formula_parse_iff in H as [[_ ->]|(_ & ts & T & D)]; [cbn [tree_size]; lia|].
  apply derives_size in D. apply tokens_length in T. lia.
Qed.
(** Looking up a text of a delivered message. *)
Theorem lookup_steps lib pf evs c u p f checks n : read_catalogue lib pf evs = Ok c -> In (UOk u) (c_items c) -> plural_in u p -> pl_forms p = Some f ->
  snd (steps_execute checks (pf_formula f) n) <= Nat.max 1 (length (pf_source f)).
Proof.
  intros R I P E. destruct (plural_forms_shown _ _ _ _ R) as (forms & S & H). rewrite (H u p I P) in E. subst forms.
  assert (exists def, forms_of pf def f) as (def & bs & _ & _ & _ & _ & F & _).
  { unfold forms_shown in S. destruct (sm_get _ _) as [def|]; [|discriminate]. destruct S as [[_ ?]|(_ & g & [= <-] & S)]; [discriminate|]. eauto. }
  eapply Nat.le_trans; [apply steps_execute_bound|]. apply text_size. apply formula_parse_iff. exact F.
Qed.

Lemma steps_eqb_both a : forall b, fst (steps_eqb a b) = node_eqb a b /\ snd (steps_eqb a b) <= Nat.min (tree_size a) (tree_size b).
Proof.
  assert (forall p q, fst (steps_and p q) = fst p && fst q) as A by (intros [[|] i] [c j]; reflexivity).
  assert (forall p q, snd (steps_and p q) <= snd p + snd q) as B by (intros [[|] i] [c j]; cbn; lia).
  induction a as [|v|op x IH|op x IHx y IHy|x IHx y IHy z IHz]; intros b; destruct b as [|w|op' x'|op' x' y'|x' y' z']; cbn [steps_eqb node_eqb]; cbn [fst snd tree_size];
    try (split; [reflexivity|cbn [tree_size]; lia]).
  - destruct (IH x') as [E L]. rewrite A. cbn [fst]. rewrite E. split; [reflexivity|]. pose proof (B (unop_eqb op op', 0) (steps_eqb x x')). cbn [snd] in *. lia.
  - destruct (IHx x') as [Ex Lx], (IHy y') as [Ey Ly]. rewrite !A. cbn [fst]. rewrite Ex, Ey. split; [reflexivity|].
    pose proof (B (binop_eqb op op', 0) (steps_eqb x x')) as K1. pose proof (B (steps_and (binop_eqb op op', 0) (steps_eqb x x')) (steps_eqb y y')) as K2. cbn [snd] in *. lia.
  - destruct (IHx x') as [Ex Lx], (IHy y') as [Ey Ly], (IHz z') as [Ez Lz]. rewrite !A. rewrite Ex, Ey, Ez. split; [reflexivity|].
    pose proof (B (steps_eqb x x') (steps_eqb y y')) as K1. pose proof (B (steps_and (steps_eqb x x') (steps_eqb y y')) (steps_eqb z z')) as K2. lia.
Qed.
Theorem steps_eqb_same a b : fst (steps_eqb a b) = node_eqb a b. Proof. apply steps_eqb_both. Qed.
Theorem steps_eqb_bound a b : snd (steps_eqb a b) <= Nat.min (tree_size a) (tree_size b). Proof. apply steps_eqb_both. Qed.

Theorem stack_eqb_same room : forall a b r, stack_eqb room a b = Some r -> r = node_eqb a b.
Proof.
  induction room as [|room IH]; intros a b r H; [discriminate|].
  destruct a as [|v|op x|op x y|x y z], b as [|w|op' x'|op' x' y'|x' y' z']; cbn [stack_eqb node_eqb] in *; try (injection H as <-; reflexivity).
  - destruct (unop_eqb op op'); cbn [room_and andb] in *; [apply IH, H|congruence].
  - destruct (binop_eqb op op'); cbn [room_and andb] in *; [|congruence]. destruct (stack_eqb room x x') as [[|]|] eqn:Ex; try discriminate; apply IH in Ex; rewrite <- Ex; cbn [room_and andb] in *; [apply IH, H|congruence].
  - destruct (stack_eqb room x x') as [[|]|] eqn:Ex; try discriminate; apply IH in Ex; rewrite <- Ex; cbn [room_and andb] in *; [|congruence].
    destruct (stack_eqb room y y') as [[|]|] eqn:Ey; try discriminate; apply IH in Ey; rewrite <- Ey; cbn [room_and andb] in *; [apply IH, H|congruence].
Qed.
Theorem stack_eqb_enough room : forall a b, Nat.min (height a) (height b) <= room -> stack_eqb room a b = Some (node_eqb a b).
Proof.
  induction room as [|room IH]; intros a b H; [destruct a, b; cbn [height] in H; lia|].
  destruct a as [|v|op x|op x y|x y z], b as [|w|op' x'|op' x' y'|x' y' z']; cbn [stack_eqb node_eqb height] in *; try reflexivity.
  - rewrite IH by lia. destruct (unop_eqb op op'); reflexivity.
  - destruct (binop_eqb op op'); cbn [room_and andb]; [|reflexivity]. rewrite IH by lia. cbn [room_and]. destruct (node_eqb x x'); cbn [andb]; [apply IH; lia|reflexivity].
  - rewrite IH by lia. cbn [room_and]. destruct (node_eqb x x'); cbn [andb]; [|reflexivity]. rewrite IH by lia. destruct (node_eqb y y'); cbn [andb]; [apply IH; lia|reflexivity].
Qed.
Lemma node_eqb_self e : node_eqb e e = true.
Proof.
  induction e as [|v|op x IH|op x IHx y IHy|x IHx y IHy z IHz]; cbn [node_eqb]; rewrite ?IH, ?IHx, ?IHy, ?IHz, ?Z.eqb_refl; try reflexivity; destruct op; reflexivity.
Qed.
Theorem stack_eqb_self room : forall e, stack_eqb room e e = Some true <-> height e <= room.
Proof.
  intros e. split; [|intros H; rewrite stack_eqb_enough by lia; rewrite node_eqb_self; reflexivity].
  revert e. induction room as [|room IH]; intros e H; [discriminate|]. destruct e as [|v|op x|op x y|x y z]; cbn [stack_eqb height] in *; try lia.
  - replace (unop_eqb op op) with true in H by (destruct op; reflexivity). cbn [room_and] in H. apply IH in H. lia.
  - replace (binop_eqb op op) with true in H by (destruct op; reflexivity). cbn [room_and] in H. destruct (stack_eqb room x x) as [[|]|] eqn:Ex; try discriminate. cbn [room_and] in H. apply IH in H, Ex. lia.
  - destruct (stack_eqb room x x) as [[|]|] eqn:Ex; try discriminate. cbn [room_and] in H. destruct (stack_eqb room y y) as [[|]|] eqn:Ey; try discriminate. cbn [room_and] in H. apply IH in H, Ex, Ey. lia.
Qed.

Theorem steps_run_same early unread fuel : forall stack ts, fst (steps_run early unread fuel stack ts) = run early unread fuel stack ts.
Proof.
  induction fuel as [|fuel IH]; intros stack ts; cbn [steps_run run]; [reflexivity|].
  destruct ts as [|t ts]; [destruct unread; [reflexivity|]|]; (destruct (early _ _); [reflexivity|]); destruct (act _ _); cbn [fst]; auto.
Qed.
Lemma steps_run_bound early unread fuel : forall stack ts, snd (steps_run early unread fuel stack ts) <= fuel.
Proof.
  induction fuel as [|fuel IH]; intros stack ts; cbn [steps_run]; [cbn; lia|].
  destruct ts as [|t ts]; [destruct unread; [cbn; lia|]|]; (destruct (early _ _); [cbn; lia|]); destruct (act _ _); cbn [snd]; try lia; apply le_n_S, IH.
Qed.
Lemma scanned_length u s l b : scanned u s l b -> length l <= length s.
Proof. induction 1 as [| |u c s l b W S IH|u w s t l b Sp L S IH]; cbn [length]; try lia. rewrite app_length. apply spelled_nonempty in Sp. lia. Qed.
Theorem parse_steps_bound early s : parse_steps early s <= S (11 * length s).
Proof.
  unfold parse_steps, steps_formula_result. destruct (is_empty (trim s)); [cbn; lia|]. destruct (scan (S (length (trim s))) 0 (trim s)) as [l bad] eqn:Es.
  change 0%N with (size []) in Es. pose proof (scanned_length _ _ _ _ (scan_scanned _ _ _ _ _ (Nat.lt_succ_diag_r _) Es)) as L.
  pose proof (steps_run_bound early (match bad with Some _ => true | None => false end) (S (11 * length l)) [] (map p_tok l)) as B.
  destruct (steps_run _ _ _ _ _) as [v k]. cbn [snd] in B |- *. eapply Nat.le_trans; [exact B|]. assert (length (trim s) <= length s); [|lia].
  destruct (trim_decomp s) as (w1 & w2 & E & _). rewrite E at 2. rewrite !app_length. lia.
Qed.
Theorem parse_steps_linear early s : parse_steps early s <= 11 * length s + 1.
Proof. rewrite Nat.add_1_r. apply parse_steps_bound. Qed.
Theorem steps_formula_result_same early s : fst (steps_formula_result early s) = formula_result early s.
Proof.
  unfold steps_formula_result, formula_result. destruct (is_empty (trim s)); [reflexivity|]. destruct (scan _ 0 _) as [l bad].
  rewrite <- steps_run_same. destruct (steps_run _ _ _ _ _) as [v k]. reflexivity.
Qed.
Theorem parse_ends early s : snd (steps_formula_result early s) <= 11 * length s + 1 /\ formula_result early s <> None.
Proof. split; [apply parse_steps_linear|apply result_total]. Qed.
