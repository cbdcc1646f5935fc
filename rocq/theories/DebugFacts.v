(** The debug texts of the data types: unambiguous, and one line each. *)
From Coq Require Import String Arith NArith ZArith Bool List Lia Permutation HexadecimalN HexadecimalFacts.
From Verif Require Import ModelBase ModelLine ModelFormula ModelData ModelDebug SpecLine SpecBlock BaseFacts DecFacts FormulaThms ErrorTextFacts.
Import ListNotations.
Local Open Scope N_scope.

(** What comes after a value: nothing, or comma, space, or a closing bracket. *)
Definition stop (r : str) : Prop := match r with [] => True | c :: _ => In c [44; 32; 125; 41; 93] end.
Definition unamb {A} (f : A -> str) : Prop := forall x y r s, stop r -> stop s -> f x ++ r = f y ++ s -> x = y /\ r = s.
Lemma stop_head c r : In c [44; 32; 125; 41; 93] -> stop (c :: r).
Proof. exact (fun H => H). Qed.
Ltac stop_tac := cbn; tauto.

Lemma hex_chars_cut u : forall v r s, hex_chars u ++ 125 :: r = hex_chars v ++ 125 :: s -> u = v /\ r = s.
Proof.
  induction u; intros v r s E; destruct v; cbn [hex_chars app] in E; try discriminate; injection E as E; try (subst; auto; fail); destruct (IHu _ _ _ E) as [-> ->]; auto.
Qed.
Lemma hex_cut m n r s : hex_str m ++ 125 :: r = hex_str n ++ 125 :: s -> m = n /\ r = s.
Proof. intros E. apply hex_chars_cut in E as [E ->]. split; [|reflexivity]. apply Unsigned.to_uint_inj, E. Qed.
Lemma hex_plain n c : In c (hex_str n) -> c <> 10.
Proof. unfold hex_str. induction (N.to_hex_uint n); cbn [hex_chars In]; intros H; try contradiction; destruct H as [<-|H]; try discriminate; auto. Qed.

Section Debug.
Variable shown : char -> bool.
Notation esc := (debug_escape shown).
Notation dstr := (debug_str shown).

Inductive escaped (q : char) : char -> str -> Prop :=
| es_code c d : In (c, d) [(0, 48); (9, 116); (13, 114); (10, 110); (92, 92); (q, q)] -> escaped q c [92; d]
| es_shown c : c <> 92 -> c <> q -> c <> 10 -> escaped q c [c]
| es_hex c : ~ In c [0; 9; 13; 10; 92; q] -> escaped q c ([92; 117; 123] ++ hex_str c ++ [125]).
Lemma escape_cases q c : escaped q c (esc q c).
Proof.
  unfold debug_escape. destruct (N.eqb_spec c 0) as [->|]; [apply es_code; cbn; auto|]. destruct (N.eqb_spec c 9) as [->|]; [apply es_code; cbn; auto|].
  destruct (N.eqb_spec c 13) as [->|]; [apply es_code; cbn; auto|]. destruct (N.eqb_spec c 10) as [->|]; [apply es_code; cbn; auto 10|].
  destruct (N.eqb_spec c 92) as [->|]; [apply es_code; cbn; auto 10|]. destruct (N.eqb_spec c q) as [->|]; [apply es_code; cbn; auto 10|].
  destruct (shown c); [apply es_shown; assumption|]. apply es_hex. cbn. intuition.
Qed.
Lemma escaped_cut q : In q [34; 39] -> forall c x, escaped q c x -> forall d y r s, escaped q d y -> x ++ r = y ++ s -> c = d /\ r = s.
Proof.
  intros Q c x [c' d I|c' N1 N2 N3|c' N] d' y r s [c2 d2 I2|c2 M1 M2 M3|c2 M] E; cbn [app] in E.
  - injection E as -> ->. split; [|reflexivity]. cbn in Q. destruct Q as [<-|[<-|[]]]; cbn in I, I2; intuition congruence.
  - injection E as E _. congruence.
  - injection E as -> E. exfalso. cbn in Q. destruct Q as [<-|[<-|[]]]; cbn in I; intuition congruence.
  - injection E as E _. congruence.
  - injection E as -> ->. auto.
  - injection E as E _. congruence.
  - injection E as <- E. exfalso. cbn in Q. destruct Q as [<-|[<-|[]]]; cbn in I2; intuition congruence.
  - injection E as E _. congruence.
  - injection E as E. rewrite <- !app_assoc in E. cbn [app] in E. apply hex_cut in E. exact E.
Qed.
Lemma escape_quote q c r s : In q [34; 39] -> esc q c ++ r <> q :: s.
Proof. intros Q E. destruct (escape_cases q c) as [c' d I|c' N1 N2 N3|c' N]; cbn [app] in E; injection E as E _; cbn in Q; try congruence; destruct Q as [<-|[<-|[]]]; discriminate. Qed.
Lemma str_cut s : forall t r u, flat_map (esc 34) s ++ 34 :: r = flat_map (esc 34) t ++ 34 :: u -> s = t /\ r = u.
Proof.
  assert (Q : In 34 [34; 39]) by (left; reflexivity). induction s as [|c s IH]; intros [|d t] r u E; cbn [flat_map app] in E.
  - injection E as ->. auto.
  - rewrite <- app_assoc in E. symmetry in E. destruct (escape_quote _ _ _ _ Q E).
  - rewrite <- app_assoc in E. destruct (escape_quote _ _ _ _ Q E).
  - rewrite <- !app_assoc in E. destruct (escaped_cut 34 Q _ _ (escape_cases 34 c) _ _ _ _ (escape_cases 34 d) E) as [-> E2]. destruct (IH _ _ _ E2) as [-> ->]. auto.
Qed.
Lemma str_unamb : unamb dstr.
Proof. intros x y r s _ _ E. unfold debug_str in E. rewrite <- !app_assoc in E. cbn [app] in E. injection E as E. exact (str_cut _ _ _ _ E). Qed.
Lemma char_unamb : unamb (debug_char shown).
Proof.
  intros x y r s _ _ E. unfold debug_char in E. rewrite <- !app_assoc in E. cbn [app] in E. injection E as E.
  destruct (escaped_cut 39 (or_intror (or_introl eq_refl)) _ _ (escape_cases 39 x) _ _ _ _ (escape_cases 39 y) E) as [-> E2]. injection E2 as ->. auto.
Qed.
Lemma stop_digit r : stop r -> forall c t, r = c :: t -> ~ 48 <= c <= 57.
Proof. intros S c t ->. cbn in S. intuition lia. Qed.
Lemma num_unamb : unamb dec_str.
Proof. intros x y r s R S E. apply (decimal_unique x y (dec_str x) (dec_str y) r (decimal_dec x) (decimal_dec y) s); [apply stop_digit; exact R|apply stop_digit; exact S|exact E]. Qed.
Lemma dec_first n : exists c t, dec_str n = c :: t /\ c <> 45.
Proof.
  pose proof (dec_str_nonempty n) as D. pose proof (dec_str_digits n) as H. destruct (dec_str n) as [|c t]; [contradiction|].
  exists c, t. split; [reflexivity|]. destruct (H c) as [H1 H2]; [left; reflexivity|]. intros ->. lia.
Qed.
Lemma int_unamb : unamb debug_int.
Proof.
  intros x y r s R S E. unfold debug_int in E. destruct (Z.ltb_spec x 0), (Z.ltb_spec y 0); cbn [app] in E.
  - injection E as E. destruct (num_unamb _ _ _ _ R S E) as [X ->]. split; [lia|reflexivity].
  - destruct (dec_first (Z.to_N y)) as (c & t & Ey & N). rewrite Ey in E. injection E as E _. congruence.
  - destruct (dec_first (Z.to_N x)) as (c & t & Ey & N). rewrite Ey in E. injection E as E _. congruence.
  - destruct (num_unamb _ _ _ _ R S E) as [X ->]. split; [lia|reflexivity].
Qed.
Lemma option_unamb {A} (f : A -> str) : unamb f -> unamb (debug_option f).
Proof.
  intros U [x|] [y|] r s R S E; cbn [debug_option] in E; try discriminate.
  - rewrite <- !app_assoc in E. apply app_inv_head in E. destruct (U x y (lit ")" ++ r) (lit ")" ++ s)) as [-> E2]; [stop_tac|stop_tac|exact E|]. injection E2 as ->. auto.
  - apply app_inv_head in E. auto.
Qed.
Lemma items_more {A} (f : A -> str) x y l : debug_items f (x :: y :: l) = f x ++ lit ", " ++ debug_items f (y :: l).
Proof. reflexivity. Qed.
Lemma items_one {A} (f : A -> str) x : debug_items f [x] = f x.
Proof. reflexivity. Qed.
(** The items of a list do not begin with a closing bracket. *)
Definition inner {A} (f : A -> str) : Prop := forall x r c t, f x ++ r = c :: t -> c <> 93 /\ c <> 125.
Lemma items_unamb {A} (f : A -> str) close : unamb f -> inner f -> In close [93; 125] -> forall l m r s, debug_items f l ++ close :: r = debug_items f m ++ close :: s -> l = m /\ r = s.
Proof.
  intros U Inn C. assert (St : forall t, stop (close :: t)) by (intros t; cbn in *; tauto). assert (N : forall x t u, f x ++ t <> close :: u) by (intros x t u E; apply Inn in E; cbn in C; intuition congruence).
  assert (Nc : 44 <> close) by (cbn in C; intuition (subst; discriminate)).
  induction l as [|x l IH]; intros [|y m] r s E.
  - cbn [debug_items app] in E. injection E as ->. auto.
  - exfalso. symmetry in E. destruct m; cbn [debug_items] in E; rewrite <- ?app_assoc in E; exact (N _ _ _ E).
  - exfalso. destruct l; cbn [debug_items] in E; rewrite <- ?app_assoc in E; exact (N _ _ _ E).
  - destruct l as [|x' l], m as [|y' m]; rewrite ?items_more, ?items_one, <- ?app_assoc in E.
    + destruct (U _ _ _ _ (St _) (St _) E) as [-> E2]. injection E2 as ->. auto.
    + destruct (U _ _ _ _ (St _) (or_introl eq_refl : stop (44 :: _)) E) as [-> E2]. injection E2 as E2 _. congruence.
    + destruct (U _ _ _ _ (or_introl eq_refl : stop (44 :: _)) (St _) E) as [-> E2]. injection E2 as E2 _. congruence.
    + destruct (U _ _ _ _ (or_introl eq_refl : stop (44 :: _)) (or_introl eq_refl : stop (44 :: _)) E) as [-> E2]. injection E2 as E2.
      destruct (IH (y' :: m) r s E2) as [E3 ->]. injection E3 as -> ->. auto.
Qed.
Lemma list_unamb {A} (f : A -> str) : unamb f -> inner f -> unamb (debug_list f).
Proof. intros U I x y r s _ _ E. unfold debug_list in E. rewrite <- !app_assoc in E. apply app_inv_head in E. apply (items_unamb f 93 U I (or_introl eq_refl) _ _ _ _ E). Qed.
Lemma set_unamb {A} (f : A -> str) : unamb f -> inner f -> unamb (debug_set f).
Proof. intros U I x y r s _ _ E. unfold debug_set in E. rewrite <- !app_assoc in E. apply app_inv_head in E. apply (items_unamb f 125 U I (or_intror (or_introl eq_refl)) _ _ _ _ E). Qed.
Lemma str_inner : inner dstr.
Proof. intros x r c t E. unfold debug_str in E. cbn [app] in E. injection E as <- _. split; discriminate. Qed.
Lemma bool_unamb : unamb debug_bool.
Proof. intros [] [] r s R S E; try discriminate; apply app_inv_head in E; auto. Qed.
Lemma unop_unamb : unamb debug_unop.
Proof. intros [] [] r s R S E; try discriminate; apply app_inv_head in E; auto. Qed.
Lemma binop_unamb : unamb debug_binop.
Proof.
  intros x y r s R S E. destruct x, y; try discriminate E; try (apply app_inv_head in E; auto; fail); cbn in E; injection E as E; subst; cbn in *; intuition discriminate.
Qed.
Lemma origin_unamb : unamb debug_origin.
Proof. intros [] [] r s R S E; try discriminate; apply app_inv_head in E; auto. Qed.
Lemma state_unamb : unamb debug_state.
Proof. intros [] [] r s R S E; try discriminate; apply app_inv_head in E; auto. Qed.
Ltac fld U E := let E2 := fresh "E" in first [apply app_inv_head in E|idtac]; rewrite <- ?app_assoc in E;
  apply U in E; [destruct E as [? E2]; rename E2 into E|stop_tac|stop_tac].
Lemma node_unamb : unamb debug_node.
Proof.
  intros x. induction x as [|v|op x IH|op x IHx y IHy|a IHa b IHb c IHc]; intros [|v'|op' x'|op' x' y'|a' b' c'] r s R S E; cbn [debug_node] in E; try discriminate E; rewrite <- ?app_assoc in E.
  - apply app_inv_head in E. auto.
  - fld int_unamb E. apply app_inv_head in E. subst. auto.
  - fld unop_unamb E. fld IH E. apply app_inv_head in E. subst. auto.
  - fld binop_unamb E. fld IHx E. fld IHy E. apply app_inv_head in E. subst. auto.
  - fld IHa E. fld IHb E. fld IHc E. apply app_inv_head in E. subst. auto.
Qed.
Lemma forms_unamb : unamb (debug_forms shown).
Proof.
  intros [e n d o] [e' n' d' o'] r s R S E. unfold debug_forms in E. cbn [pf_formula pf_count pf_definition pf_source] in E. rewrite <- !app_assoc in E.
  fld node_unamb E. fld num_unamb E. fld str_unamb E. fld str_unamb E. apply app_inv_head in E. subst. auto.
Qed.
Lemma plural_unamb : unamb (debug_plural shown).
Proof.
  intros [f a b vs] [f' a' b' vs'] r s R S E. unfold debug_plural in E. cbn [pl_forms pl_singular pl_plural pl_values] in E. rewrite <- !app_assoc in E.
  fld (option_unamb _ forms_unamb) E. fld str_unamb E. fld str_unamb E. fld (list_unamb _ str_unamb str_inner) E. apply app_inv_head in E. subst. auto.
Qed.
Lemma message_unamb : unamb (debug_message shown).
Proof.
  intros [id t|p] [id' t'|p'] r s R S E; cbn [debug_message] in E; try discriminate E; rewrite <- !app_assoc in E.
  - fld str_unamb E. fld (option_unamb _ str_unamb) E. apply app_inv_head in E. subst. auto.
  - fld plural_unamb E. apply app_inv_head in E. subst. auto.
Qed.
Lemma note_unamb : unamb (debug_note shown).
Proof.
  intros [a b] [a' b'] r s R S E. unfold debug_note in E. cbn [note_origin note_value] in E. rewrite <- !app_assoc in E.
  fld origin_unamb E. fld str_unamb E. apply app_inv_head in E. subst. auto.
Qed.
Lemma comment_unamb : unamb (debug_comment shown).
Proof.
  intros [a b] [a' b'] r s R S E. unfold debug_comment in E. cbn [com_kind com_content] in E. rewrite <- !app_assoc in E.
  fld char_unamb E. fld str_unamb E. apply app_inv_head in E. subst. auto.
Qed.
Lemma note_inner : inner (debug_note shown).
Proof. intros x r c t E. unfold debug_note in E. cbn [lit app] in E. injection E as <- _. split; discriminate. Qed.
Lemma comment_inner : inner (debug_comment shown).
Proof. intros x r c t E. unfold debug_comment in E. cbn [lit app] in E. injection E as <- _. split; discriminate. Qed.
Lemma unit_unamb fs u gs v r s : stop r -> stop s -> debug_unit shown fs u ++ r = debug_unit shown gs v ++ s ->
  fs = gs /\ r = s /\ u = Unit (u_context v) (u_message v) (u_prev_context v) (u_prev_message v) (u_flags u) (u_notes v) (u_locations v) (u_comments v) (u_state v) (u_obsolete v).
Proof.
  destruct u as [a b c d e f g h i j], v as [a' b' c' d' e' f' g' h' i' j']. intros R S E. unfold debug_unit in E.
  cbn [u_context u_message u_prev_context u_prev_message u_flags u_notes u_locations u_comments u_state u_obsolete] in *. rewrite <- !app_assoc in E.
  fld (option_unamb _ str_unamb) E. fld message_unamb E. fld (option_unamb _ str_unamb) E. fld message_unamb E. fld (set_unamb _ str_unamb str_inner) E.
  fld (list_unamb _ note_unamb note_inner) E. fld (list_unamb _ str_unamb str_inner) E. fld (list_unamb _ comment_unamb comment_inner) E. fld state_unamb E. fld bool_unamb E.
  apply app_inv_head in E. subst. auto.
Qed.
Lemma line_unamb : unamb (debug_line shown).
Proof.
  intros [|n k c|n p t x|n p x] [|n' k' c'|n' p' t' x'|n' p' x'] r s R S E; cbn [debug_line] in E; try discriminate E; rewrite <- ?app_assoc in E.
  - apply app_inv_head in E. auto.
  - fld num_unamb E. fld char_unamb E. fld str_unamb E. apply app_inv_head in E. subst. auto.
  - fld num_unamb E. fld str_unamb E. fld str_unamb E. fld str_unamb E. apply app_inv_head in E. subst. auto.
  - fld num_unamb E. fld str_unamb E. fld str_unamb E. apply app_inv_head in E. subst. auto.
Qed.

(** * One line *)
Definition oneline (s : str) : Prop := ~ In 10 s.
Lemma oneline_app a b : oneline a -> oneline b -> oneline (a ++ b).
Proof. intros A B I. apply in_app_or in I as [I|I]; auto. Qed.
Lemma oneline_lit s : forallb (fun c => negb (c =? 10)) s = true -> oneline s.
Proof. intros H I. rewrite forallb_forall in H. specialize (H 10 I). discriminate. Qed.
Lemma oneline_num n : oneline (dec_str n).
Proof. intros I. apply dec_str_digits in I. lia. Qed.
Lemma oneline_escape q c : q <> 10 -> oneline (esc q c).
Proof.
  intros Q I. destruct (escape_cases q c) as [c' d J|c' N1 N2 N3|c' N].
  - destruct I as [I|[I|[]]]; [discriminate|]. subst d. cbn in J. intuition congruence.
  - destruct I as [I|[]]. congruence.
  - apply in_app_or in I as [I|I]; [cbn in I; intuition discriminate|]. apply in_app_or in I as [I|[I|[]]]; [|discriminate]. apply (hex_plain _ _ I). reflexivity.
Qed.
Lemma oneline_str s : oneline (dstr s).
Proof.
  unfold debug_str. apply oneline_app; [apply oneline_lit; reflexivity|]. apply oneline_app; [|apply oneline_lit; reflexivity].
  intros I. apply in_flat_map in I as (c & _ & I). revert I. apply oneline_escape. discriminate.
Qed.
Lemma oneline_char c : oneline (debug_char shown c).
Proof. unfold debug_char. apply oneline_app; [apply oneline_lit; reflexivity|]. apply oneline_app; [apply oneline_escape; discriminate|apply oneline_lit; reflexivity]. Qed.
Lemma oneline_items {A} (f : A -> str) : (forall x, oneline (f x)) -> forall l, oneline (debug_items f l).
Proof. intros F l. induction l as [|x [|y l] IH]; [intros []|apply F|]. rewrite items_more. apply oneline_app; [apply F|]. apply oneline_app; [apply oneline_lit; reflexivity|exact IH]. Qed.
Ltac ol := repeat match goal with |- oneline (app _ _) => apply oneline_app; [first [apply oneline_lit; reflexivity|apply oneline_num|apply oneline_str|apply oneline_char|assumption|idtac]|] end; try (apply oneline_lit; reflexivity); try (eauto; fail).
Lemma oneline_list {A} (f : A -> str) l : (forall x, oneline (f x)) -> oneline (debug_list f l).
Proof. intros F. unfold debug_list. ol. apply oneline_items, F. Qed.
Lemma oneline_set {A} (f : A -> str) l : (forall x, oneline (f x)) -> oneline (debug_set f l).
Proof. intros F. unfold debug_set. ol. apply oneline_items, F. Qed.
Lemma oneline_option {A} (f : A -> str) o : (forall x, oneline (f x)) -> oneline (debug_option f o).
Proof. intros F. destruct o; cbn [debug_option]; ol. Qed.
Lemma oneline_node e : oneline (debug_node e).
Proof.
  induction e as [|v|op x IH|op x IHx y IHy|a IHa b IHb c IHc]; cbn [debug_node]; ol.
  - unfold debug_int. destruct (v <? 0)%Z; [apply (oneline_app [45]); [apply oneline_lit; reflexivity|]|]; apply oneline_num.
  - destruct op; apply oneline_lit; reflexivity.
  - destruct op; apply oneline_lit; reflexivity.
Qed.
Lemma oneline_forms p : oneline (debug_forms shown p).
Proof. unfold debug_forms. ol. apply oneline_node. Qed.
Lemma oneline_plural p : oneline (debug_plural shown p).
Proof. unfold debug_plural. ol; [apply oneline_option, oneline_forms|apply oneline_list, oneline_str]. Qed.
Lemma oneline_message m : oneline (debug_message shown m).
Proof. destruct m as [id t|p]; cbn [debug_message]; ol; [apply oneline_option, oneline_str|apply oneline_plural]. Qed.
Lemma oneline_note n : oneline (debug_note shown n).
Proof. unfold debug_note. ol. destruct (note_origin n); apply oneline_lit; reflexivity. Qed.
Lemma oneline_comment n : oneline (debug_comment shown n).
Proof. unfold debug_comment. ol. Qed.
Lemma oneline_unit fs u : oneline (debug_unit shown fs u).
Proof.
  unfold debug_unit. ol; try apply oneline_option; try apply oneline_message; try apply oneline_set; try apply oneline_list; try apply oneline_str; try apply oneline_note; try apply oneline_comment.
  - destruct (u_state u); apply oneline_lit; reflexivity.
  - destruct (u_obsolete u); apply oneline_lit; reflexivity.
Qed.
End Debug.
