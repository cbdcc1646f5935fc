(** Plural selection compared with the run-time library of GNU gettext. *)
From Coq Require Import String Arith NArith ZArith Bool List Lia.
From Verif Require Import ModelBase ModelUtf8 ModelLine ModelFormula ModelData ModelSource ModelReader
  SpecLine SpecFormula SpecSource SpecReader SpecBlock SpecHeader SpecFile SpecWriter SpecRuntime FileIntro FormulaThms EvalFacts AccessFacts UseFacts SelectFacts HeaderThms BlockThms BlockFacts FileFacts HeaderFacts BlockWitness HeaderWitness RoundWitness.
Import ListNotations.
Local Open Scope N_scope.

Lemma below63_some v w : below63 v = Some w -> w = v /\ v < 2 ^ 63.
Proof. unfold below63. destruct (v <? 2 ^ 63) eqn:E; [|discriminate]. intros H. injection H as <-. apply N.ltb_lt in E. auto. Qed.
Lemma fits_nat v : v < 2 ^ 63 -> fits (Z.of_N v) = Some (Z.of_N v).
Proof.
  intros H. unfold fits, min64, max64. assert (Z.of_N v < 2 ^ 63)%Z by (change (2 ^ 63)%Z with (Z.of_N (2 ^ 63)); lia).
  replace ((- 2 ^ 63 <=? Z.of_N v) && (Z.of_N v <=? 2 ^ 63 - 1))%Z with true; [reflexivity|].
  symmetry. apply andb_true_iff. split; apply Z.leb_le; lia.
Qed.
Lemma truth_b2z b : Z.of_N (truth b) = b2z b. Proof. destruct b; reflexivity. Qed.
Lemma truth_small b : truth b < 2 ^ 63. Proof. destruct b; reflexivity. Qed.
Lemma of_N_eqb a b : (Z.of_N a =? Z.of_N b)%Z = (a =? b).
Proof. destruct (N.eqb_spec a b); [apply Z.eqb_eq; lia|apply Z.eqb_neq; lia]. Qed.
Lemma of_N_eqb0 a : (Z.of_N a =? 0)%Z = (a =? 0).
Proof. apply (of_N_eqb a 0). Qed.

Lemma natural_bin_agree op l r v : l < 2 ^ 63 -> r < 2 ^ 63 -> natural_bin op l r = Some v ->
  v < 2 ^ 63 /\ gettext_bin op l r = Some v /\ bin_value op (Z.of_N l) (Z.of_N r) = Some (Z.of_N v).
Proof.
  intros Hl Hr H. destruct op; cbn [natural_bin gettext_bin bin_value] in *.
  - apply below63_some in H as [-> H]. split; [exact H|]. split.
    + f_equal. apply N.mod_small. change (2 ^ 64) with (2 ^ 63 * 2). lia.
    + rewrite <- N2Z.inj_add. apply fits_nat, H.
  - destruct (N.leb_spec r l) as [L|L]; [|discriminate]. injection H as <-. split; [lia|]. split.
    + f_equal. replace (l + (2 ^ 64 - r)) with ((l - r) + 1 * 2 ^ 64) by (change (2 ^ 64) with (2 ^ 63 * 2); lia).
      rewrite N.mod_add by discriminate. apply N.mod_small. change (2 ^ 64) with (2 ^ 63 * 2). lia.
    + rewrite <- N2Z.inj_sub by exact L. apply fits_nat. lia.
  - apply below63_some in H as [-> H]. split; [exact H|]. split.
    + f_equal. apply N.mod_small. change (2 ^ 64) with (2 ^ 63 * 2). lia.
    + rewrite <- N2Z.inj_mul. apply fits_nat, H.
  - rewrite of_N_eqb0. destruct (N.eqb_spec r 0) as [|Nr]; [discriminate|]. injection H as <-.
    assert (l / r < 2 ^ 63) as Lt by (eapply N.le_lt_trans; [apply N.div_le_upper_bound with (q := l); [exact Nr|nia]|exact Hl]).
    split; [exact Lt|]. split; [reflexivity|]. rewrite Z.quot_div_nonneg by lia. rewrite <- N2Z.inj_div. apply fits_nat, Lt.
  - rewrite of_N_eqb0. destruct (N.eqb_spec r 0) as [|Nr]; [discriminate|]. injection H as <-.
    pose proof (N.mod_lt l r Nr). split; [lia|]. split; [reflexivity|]. rewrite Z.rem_mod_nonneg by lia. rewrite <- N2Z.inj_mod. reflexivity.
  - injection H as <-. split; [apply truth_small|]. split; [reflexivity|]. rewrite truth_b2z, !of_N_eqb0. reflexivity.
  - injection H as <-. split; [apply truth_small|]. split; [reflexivity|]. rewrite truth_b2z, !of_N_eqb0. reflexivity.
  - injection H as <-. split; [apply truth_small|]. split; [reflexivity|]. rewrite truth_b2z, of_N_eqb. reflexivity.
  - injection H as <-. split; [apply truth_small|]. split; [reflexivity|]. rewrite truth_b2z, of_N_eqb. reflexivity.
  - injection H as <-. split; [apply truth_small|]. split; [reflexivity|]. rewrite truth_b2z. do 2 f_equal. destruct (N.ltb_spec l r), (Z.ltb_spec (Z.of_N l) (Z.of_N r)); lia || reflexivity.
  - injection H as <-. split; [apply truth_small|]. split; [reflexivity|]. rewrite truth_b2z. do 2 f_equal. destruct (N.leb_spec l r), (Z.leb_spec (Z.of_N l) (Z.of_N r)); lia || reflexivity.
  - injection H as <-. split; [apply truth_small|]. split; [reflexivity|]. rewrite truth_b2z, Z.gtb_ltb. do 2 f_equal. destruct (N.ltb_spec r l), (Z.ltb_spec (Z.of_N r) (Z.of_N l)); lia || reflexivity.
  - injection H as <-. split; [apply truth_small|]. split; [reflexivity|]. rewrite truth_b2z, Z.geb_leb. do 2 f_equal. destruct (N.leb_spec r l), (Z.leb_spec (Z.of_N r) (Z.of_N l)); lia || reflexivity.
Qed.

(** Where all numbers are natural and below 2^63 the two evaluations agree. *)
Theorem natural_agree e : literals_ok e -> forall n v, natural e n = Some v ->
  v < 2 ^ 63 /\ gettext_eval e n = Some v /\ value e (Z.of_N n) = Some (Z.of_N v).
Proof.
  induction e as [|z|op x IHx|op x IHx y IHy|x IHx y IHy z IHz]; intros Lk n v H; cbn [natural gettext_eval value literals_ok] in *.
  - apply below63_some in H as [-> H]. repeat split; auto. apply fits_nat, H.
  - apply below63_some in H as [-> H]. repeat split; auto. rewrite Z2N.id by lia. rewrite <- (Z2N.id z) by lia. apply fits_nat, H.
  - destruct op; [discriminate|]. destruct (natural x n) as [w|] eqn:E; [|discriminate]. injection H as <-.
    destruct (IHx Lk n w E) as (B & -> & ->). split; [apply truth_small|]. split; [reflexivity|]. rewrite truth_b2z, of_N_eqb0. reflexivity.
  - destruct Lk as [Lx Ly]. destruct (natural x n) as [l|] eqn:El; [|discriminate]. destruct (IHx Lx n l El) as (Bl & Gl & Vl). rewrite Gl, Vl.
    assert (forall r, natural y n = Some r -> r < 2 ^ 63 /\ gettext_eval y n = Some r /\ value y (Z.of_N n) = Some (Z.of_N r)) as Hy by (intros r; apply IHy, Ly).
    destruct op;
      try (destruct (natural y n) as [r|] eqn:Er; [|destruct (l =? 0); discriminate];
           destruct (Hy r eq_refl) as (Br & -> & ->);
           assert (natural_bin _ l r = Some v) as Hb by (destruct (l =? 0); exact H);
           destruct (natural_bin_agree _ l r v Bl Br Hb) as (Bv & G & V);
           split; [exact Bv|]; split; [destruct (l =? 0); exact G|exact V]).
    + rewrite of_N_eqb0. destruct (l =? 0) eqn:Z0.
      * injection H as <-. repeat split.
      * destruct (natural y n) as [r|] eqn:Er; [|discriminate]. destruct (Hy r eq_refl) as (Br & -> & ->).
        destruct (natural_bin_agree BAnd l r v Bl Br H) as (Bv & G & V). split; [exact Bv|]. split; [exact G|].
        cbn [bin_value] in V. rewrite !of_N_eqb0, Z0 in V. cbn [negb andb] in V. rewrite of_N_eqb0. exact V.
    + rewrite of_N_eqb0. destruct (l =? 0) eqn:Z0; cbn [negb].
      * destruct (natural y n) as [r|] eqn:Er; [|discriminate]. destruct (Hy r eq_refl) as (Br & -> & ->).
        destruct (natural_bin_agree BOr l r v Bl Br H) as (Bv & G & V). split; [exact Bv|]. split; [exact G|].
        cbn [bin_value] in V. rewrite !of_N_eqb0, Z0 in V. cbn [negb orb] in V. rewrite of_N_eqb0. exact V.
      * injection H as <-. repeat split.
  - destruct Lk as (Lx & Ly & Lz). destruct (natural x n) as [c|] eqn:Ec; [|discriminate]. destruct (IHx Lx n c Ec) as (_ & -> & ->). rewrite of_N_eqb0.
    destruct (c =? 0); [apply IHz|apply IHy]; assumption.
Qed.

(** * The header *)
Lemma app_eq_length {A} (a b c d : list A) : a ++ b = c ++ d -> length a = length c -> b = d.
Proof. revert c. induction a as [|x a IH]; intros [|y c] E L; try discriminate; [exact E|]. injection E as _ E. injection L as L. apply (IH c); assumption. Qed.
Lemma follows_first_det w s r r' : follows_first w s r -> follows_first w s r' -> r = r'.
Proof.
  intros (a & E & M) (a' & E' & M'). pose proof (M _ _ E'). pose proof (M' _ _ E). rewrite E in E'.
  apply app_eq_length in E'; [|lia]. apply app_inv_head in E'. exact E'.
Qed.
Lemma digits_first (a b r r' : str) : (forall c, In c a -> 48 <= c <= 57) -> (forall c, In c b -> 48 <= c <= 57) ->
  (forall c q, r = c :: q -> ~ (48 <= c <= 57)) -> (forall c q, r' = c :: q -> ~ (48 <= c <= 57)) -> a ++ r = b ++ r' -> a = b.
Proof.
  intros Da Db Hr Hr'. revert b Db. induction a as [|x a IH]; intros [|y b] Db E.
  - reflexivity.
  - exfalso. apply (Hr y (b ++ r')); [exact E|]. apply Db. left. reflexivity.
  - exfalso. apply (Hr' x (a ++ r)); [symmetry; exact E|]. apply Da. left. reflexivity.
  - injection E as -> E. f_equal. apply IH; [|intros c I; apply Db; right; exact I|exact E]. intros c I. apply Da. right. exact I.
Qed.
Lemma blanks_first (w w' r r' : str) : blanks w -> blanks w' -> (forall c q, r = c :: q -> ~ white c) -> (forall c q, r' = c :: q -> ~ white c) -> w ++ r = w' ++ r' -> w = w'.
Proof.
  intros B B' Hr Hr'. revert w' B'. induction w as [|x w IH]; intros [|y w'] B' E.
  - reflexivity.
  - exfalso. apply (Hr y (w' ++ r')); [exact E|]. apply B'. left. reflexivity.
  - exfalso. apply (Hr' x (w ++ r)); [symmetry; exact E|]. apply B. left. reflexivity.
  - injection E as -> E. f_equal. apply IH; [|intros c I; apply B'; right; exact I|exact E]. intros c I. apply B. right. exact I.
Qed.
Lemma stops_first (a b r r' : str) : ~ In 59 a -> ~ In 10 a -> ~ In 59 b -> ~ In 10 b -> (forall c q, r = c :: q -> c = 59 \/ c = 10) -> (forall c q, r' = c :: q -> c = 59 \/ c = 10) ->
  a ++ r = b ++ r' -> a = b.
Proof.
  intros A1 A2 B1 B2 Hr Hr'. revert b B1 B2. induction a as [|x a IH]; intros [|y b] B1 B2 E.
  - reflexivity.
  - exfalso. destruct (Hr y (b ++ r') E) as [->| ->]; [apply B1|apply B2]; left; reflexivity.
  - exfalso. destruct (Hr' x (a ++ r) (eq_sym E)) as [->| ->]; [apply A1|apply A2]; left; reflexivity.
  - injection E as -> E. f_equal. apply IH; try exact E; intros I; [apply A1|apply A2|apply B1|apply B2]; right; exact I.
Qed.
Lemma digit_not_white c : 48 <= c <= 57 -> ~ white c.
Proof. intros H W. unfold white, white_points in W. cbn in W. lia. Qed.
Lemma isspace_blanks w : (forall c, In c w -> isspace c) -> blanks w.
Proof.
  intros H c I. destruct (H c I) as [->|L]; [vm_compute; tauto|].
  assert (c = 9 \/ c = 10 \/ c = 11 \/ c = 12 \/ c = 13) as X by lia. destruct X as [->|[->|[->|[->| ->]]]]; vm_compute; tauto.
Qed.
Theorem gettext_header_det s k e k' e' : gettext_header s k e -> gettext_header s k' e' -> k = k' /\ e = e'.
Proof.
  intros [(w & ds & r & F & B & NE & D & R & V) (src & q & ts & F2 & A1 & A2 & Q & _ & T & G)] [(w' & ds' & r' & F' & B' & NE' & D' & R' & V') (src' & q' & ts' & F2' & A1' & A2' & Q' & _ & T' & G')].
  pose proof (follows_first_det _ _ _ _ F F') as E. pose proof (follows_first_det _ _ _ _ F2 F2') as E2.
  split.
  - assert (w = w') as <-.
    { apply (blanks_first w w' (ds ++ r) (ds' ++ r') (isspace_blanks w B) (isspace_blanks w' B')); [intros c x Ec|intros c x Ec|exact E]; apply digit_not_white.
      - destruct ds; [congruence|]. injection Ec as -> _. apply D. left. reflexivity.
      - destruct ds'; [congruence|]. injection Ec as -> _. apply D'. left. reflexivity. }
    apply app_inv_head in E. apply (digits_first ds ds' r r' D D' R R') in E as <-. lia.
  - apply (stops_first src src' q q' A1 A2 A1' A2' Q Q') in E2 as <-. rewrite (tokens_of_det _ _ _ T T') in G. apply (gnu_unambiguous ts' e e' G G').
Qed.

(** * The selection *)
Theorem gettext_agrees lib pf evs c v p f n x : read_catalogue lib pf evs = Ok c -> In (UOk v) (c_items c) -> u_message v = MPlural p -> pl_forms p = Some f ->
  gettext_header (pf_definition f) (pf_count f) (pf_formula f) -> N.of_nat (length (pl_values p)) = pf_count f -> 0 < pf_count f ->
  word64 pf -> n < 2 ^ 63 -> natural (pf_formula f) n = Some x ->
  exists s, gettext_text c p n s /\ (forall s', gettext_text c p n s' -> s' = s)
    /\ (x < pf_count f -> msg_get_plural_text pf (u_message v) n = Some (Some s))
    /\ (pf_count f <= x -> nth_error (pl_values p) 0 = Some s /\ msg_get_plural_text pf (u_message v) n = Some None).
Proof.
  intros R I Em Ef G L Pos W Ln X.
  destruct (plural_forms_shown lib pf evs c R) as (forms & Sh & All). pose proof (All v p I (or_introl Em)) as E. rewrite Ef in E. subst forms.
  assert (opt_str (sm_get (lit "Plural-Forms") (c_properties c)) = pf_definition f) as Ed.
  { unfold forms_shown in Sh. destruct (sm_get _ _) as [def|]; [|discriminate]. destruct Sh as [[_ N0]|[_ (g & Eg & Hf)]]; [discriminate|]. injection Eg as <-.
    destruct Hf as (bs & _ & _ & D & _). cbn [opt_str]. congruence. }
  pose proof (delivered_literals lib pf evs c v p f R I Em Ef) as Lk.
  destruct (natural_agree _ Lk n x X) as (Bx & Gx & Vx).
  assert (gettext_form (pf_count f) (pf_formula f) n = Some (if x <? pf_count f then x else 0)) as GF by (unfold gettext_form; rewrite Gx; reflexivity).
  set (i := if x <? pf_count f then x else 0) in *.
  assert (i < pf_count f) as Li by (subst i; destruct (N.ltb_spec x (pf_count f)); lia).
  destruct (nth_error (pl_values p) (N.to_nat i)) as [s|] eqn:Es; [|apply nth_error_None in Es; lia].
  exists s. split; [exists (pf_count f), (pf_formula f), i; rewrite Ed; split; [left; exact G|split; [exact GF|exact Es]]|].
  split.
  { intros s' (k & e & j & Ch & GF' & Es'). rewrite Ed in Ch. destruct Ch as [Ch|[No _]]; [|exfalso; exact (No _ _ G)].
    destruct (gettext_header_det _ _ _ _ _ Ch G) as [-> ->]. congruence. }
  rewrite Em. cbn [msg_get_plural_text]. unfold plural_get. rewrite Ef. rewrite (get_value_math pf f n (Z.of_N x) W Lk Ln Vx). split.
  - intros Lt. subst i. replace (x <? pf_count f) with true in Es by (symmetry; apply N.ltb_lt; exact Lt).
    replace ((0 <=? Z.of_N x)%Z && (Z.of_N x <? Z.of_N (pf_count f))%Z) with true by (symmetry; apply andb_true_iff; split; [apply Z.leb_le; lia|apply Z.ltb_lt; lia]).
    rewrite N2Z.id, Es. reflexivity.
  - intros Ge. subst i. replace (x <? pf_count f) with false in Es by (symmetry; apply N.ltb_ge; exact Ge). split; [exact Es|].
    replace ((0 <=? Z.of_N x)%Z && (Z.of_N x <? Z.of_N (pf_count f))%Z) with false by (symmetry; apply andb_false_iff; right; apply Z.ltb_ge; lia). reflexivity.
Qed.

(** * Definitions as they are usually written *)
Lemma prefix_here (w r a s : str) : w ++ r = a ++ s -> (length a < length w)%nat -> exists w2, w = a ++ w2 /\ s = w2 ++ r /\ w2 <> [].
Proof.
  revert w. induction a as [|x a IH]; intros [|y w] E L; cbn [length] in L; try lia.
  - exists (y :: w). repeat split; [symmetry; exact E|discriminate].
  - injection E as -> E. destruct (IH w E) as (w2 & -> & -> & NE); [lia|]. exists w2. auto.
Qed.
Theorem usual_definition_more kd src count ts e z : decimal count kd -> ~ In 59 src -> one_line src -> (forall c, In c src -> white c -> c = 32 \/ c = 9) ->
  tokens_of src ts -> gnu CExpr ts e -> gettext_header (forms_definition kd src ++ z) count e.
Proof.
  intros Dc N O Sp T G.
  assert (kd <> [] /\ (forall c, In c kd -> 48 <= c <= 57) /\ Z.of_N count = digits_value kd) as (NE & Dg & Dv).
  { clear -Dc. induction Dc as [d Hd|m d s Hm Hd D IH].
    - split; [discriminate|]. split; [intros c I; destruct I as [<-|[]]; lia|]. unfold digits_value. cbn [fold_left]. lia.
    - destruct IH as (NE & Dg & Dv). split; [destruct s; discriminate|]. split.
      + intros c I. apply in_app_or in I as [I|[<-|[]]]; [apply Dg, I|lia].
      + unfold digits_value in *. rewrite fold_left_app. cbn [fold_left]. unfold str, char in *. rewrite <- Dv. lia. }
  split.
  - exists [], kd, (lit "; plural=" ++ src ++ lit ";" ++ z). split; [exists []; split; [unfold forms_definition; rewrite <- !app_assoc; reflexivity|intros; cbn; lia]|].
    split; [intros c []|]. split; [exact NE|]. split; [exact Dg|]. split; [|exact Dv]. intros c r' E. injection E as <- _. lia.
  - exists src, (lit ";" ++ z), ts. split.
    + exists (lit "nplurals=" ++ kd ++ lit "; "). split; [unfold forms_definition; rewrite <- !app_assoc; reflexivity|].
      intros a' r' E. destruct (Nat.le_gt_cases (length (lit "nplurals=" ++ kd ++ lit "; ")) (length a')) as [L|L]; [exact L|exfalso].
      replace (forms_definition kd src ++ z) with ((lit "nplurals=" ++ kd ++ lit "; ") ++ lit "plural=" ++ src ++ lit ";" ++ z) in E by (unfold forms_definition; rewrite <- !app_assoc; reflexivity).
      apply prefix_here in E as (w2 & E1 & E2 & NE2); [|exact L].
      (* the place begins with p and six letters of the keyword *)
      destruct w2 as [|x w2]; [congruence|]. assert (x = 112) as -> by (injection E2 as <- _; reflexivity).
      destruct a' as [|a0 a']; [discriminate E1|]. injection E1 as _ E1.
      destruct a' as [|a1 a'].
      { injection E1 as <-. discriminate E2. }
      injection E1 as _ E1. assert (lit "lurals=" ++ kd ++ lit "; " = a' ++ 112 :: w2) as E1' by exact E1. assert (In 112 (lit "lurals=" ++ kd ++ lit "; ")) as I by (rewrite E1'; apply in_or_app; right; left; reflexivity).
      repeat (apply in_app_or in I as [I|I]); [cbn in I; intuition discriminate|specialize (Dg _ I); lia|cbn in I; intuition discriminate].
    + split; [exact N|]. split; [exact O|]. split; [|split; [exact Sp|split; assumption]]. intros c r' E. injection E as <- _. left. reflexivity.
Qed.
Theorem usual_definition kd src count ts e : decimal count kd -> ~ In 59 src -> one_line src -> (forall c, In c src -> white c -> c = 32 \/ c = 9) ->
  tokens_of src ts -> gnu CExpr ts e -> gettext_header (forms_definition kd src) count e.
Proof. intros Dc N O Sp T G. rewrite <- (app_nil_r (forms_definition kd src)). apply (usual_definition_more kd src count ts e []); assumption. Qed.

(** * Witnesses *)
Lemma spaces_only s : forallb (fun c => implb (existsb (N.eqb c) white_points) ((c =? 32) || (c =? 9))) s = true -> forall c, In c s -> white c -> c = 32 \/ c = 9.
Proof.
  intros H c I W. rewrite forallb_forall in H. specialize (H c I).
  replace (existsb (N.eqb c) white_points) with true in H by (symmetry; apply existsb_exists; exists c; split; [exact W|apply N.eqb_refl]).
  apply orb_prop in H as [H|H]; apply N.eqb_eq in H; auto.
Qed.
Lemma lexed s ts : (length s <? 20)%nat = true -> lex 20 s = Some ts -> tokens_of s ts.
Proof. intros L. apply LexFacts.lex_iff. apply Nat.ltb_lt, L. Qed.
Lemma tokens_n : tokens_of (lit "n") [TVar].
Proof. apply lexed; vm_compute; reflexivity. Qed.
Lemma two_digit : decimal 2 (lit "2"). Proof. apply (dc_digit 2). lia. Qed.
Lemma gnu_n : gnu CUn [TVar] NVar. Proof. constructor. Qed.
Lemma gnu_lift ts e : gnu CUn ts e -> gnu CMul ts e /\ gnu CAdd ts e /\ gnu CRel ts e /\ gnu CEq ts e /\ gnu CExpr ts e.
Proof.
  intros H. apply g_mul in H. split; [exact H|]. apply g_add in H. split; [exact H|]. apply g_rel in H. split; [exact H|]. apply g_eq0 in H. split; [exact H|].
  apply g_expr, g_or, g_and, H.
Qed.
Lemma gnu_digit d : 48 <= d <= 57 -> gnu CUn [TNum [d]] (NNum (Z.of_N d - 48)).
Proof. intros H. apply (g_num [d]); [discriminate|intros c [<-|[]]; exact H|]. unfold digits_value, max64. cbn [fold_left]. lia. Qed.

(** The value is not below the number of forms. *)
Theorem too_large_refuted : exists evs c v p f n x s, read_catalogue demo_lib demo_pf evs = Ok c /\ c_items c = [UOk v] /\ u_message v = MPlural p
  /\ pl_forms p = Some f /\ natural (pf_formula f) n = Some x /\ pf_count f <= x
  /\ gettext_text c p n s /\ msg_get_plural_text demo_pf (u_message v) n = Some None.
Proof.
  exists (lf_stream (select_lines "nplurals=2; plural=n;")). do 2 eexists. exists (Plural (Some (PluralForms NVar 2 (lit "nplurals=2; plural=n;") (lit "n"))) (lit "a") (lit "b") [lit "x"; lit "y"]).
  eexists. exists 5, 5, (lit "x").
  split; [vm_compute; reflexivity|]. split; [reflexivity|]. split; [reflexivity|]. split; [reflexivity|]. split; [reflexivity|]. split; [cbn; discriminate|].
  split; [|vm_compute; reflexivity].
  exists 2, NVar, 0. split; [left|split; reflexivity].
  refine (usual_definition (lit "2") (lit "n") 2 [TVar] NVar two_digit _ _ _ tokens_n _); [intros [H|[]]; discriminate|intros [H|[]]; discriminate|apply spaces_only; reflexivity|apply gnu_lift, gnu_n].
Qed.
(** A difference is negative. *)
Definition less_formula : node := NBin BLt (NBin BSub NVar (NNum 2)) (NNum 5).
Theorem difference_refuted : exists evs c v p f n s t, read_catalogue demo_lib demo_pf evs = Ok c /\ c_items c = [UOk v] /\ u_message v = MPlural p
  /\ pl_forms p = Some f /\ natural (pf_formula f) n = None
  /\ gettext_text c p n s /\ msg_get_plural_text demo_pf (u_message v) n = Some (Some t) /\ s <> t.
Proof.
  exists (lf_stream (select_lines "nplurals=2; plural=n-2<5;")). do 2 eexists.
  exists (Plural (Some (PluralForms less_formula 2 (lit "nplurals=2; plural=n-2<5;") (lit "n-2<5"))) (lit "a") (lit "b") [lit "x"; lit "y"]).
  eexists. exists 1, (lit "x"), (lit "y").
  split; [vm_compute; reflexivity|]. split; [reflexivity|]. split; [reflexivity|]. split; [reflexivity|]. split; [reflexivity|]. split; [|split; [vm_compute; reflexivity|discriminate]].
  exists 2, less_formula, 0. split; [left|split; vm_compute; reflexivity].
  refine (usual_definition (lit "2") (lit "n-2<5") 2 [TVar; TMinus; TNum [50]; TLt; TNum [53]] less_formula two_digit _ _ _ _ _).
  - intros H. cbn in H. intuition discriminate.
  - intros H. cbn in H. intuition discriminate.
  - apply spaces_only. reflexivity.
  - apply lexed; vm_compute; reflexivity.
  - apply g_expr, g_or, g_and, g_eq0. apply (g_lt [TVar; TMinus; TNum [50]] [TNum [53]] (NBin BSub NVar (NNum 2)) (NNum 5)).
    + apply g_rel. apply (g_minus [TVar] [TNum [50]] NVar (NNum 2)); [apply gnu_lift, gnu_n|apply (gnu_lift _ _ (gnu_digit 50 ltac:(lia)))].
    + apply (gnu_lift _ _ (gnu_digit 53 ltac:(lia))).
Qed.
(** The last semicolon is missing: nothing at all can be read. *)
Definition unended : str := lit "nplurals=2; plural=n != 1".
Lemma unended_header : gettext_header unended 2 (NBin BNe NVar (NNum 1)).
Proof.
  assert (gettext_header (forms_definition (lit "2") (lit "n != 1")) 2 (NBin BNe NVar (NNum 1))) as H.
  { refine (usual_definition (lit "2") (lit "n != 1") 2 [TVar; TNe; TNum [49]] _ two_digit _ _ _ _ _).
    - intros H. cbn in H. intuition discriminate.
    - intros H. cbn in H. intuition discriminate.
    - apply spaces_only. reflexivity.
    - apply lexed; vm_compute; reflexivity.
    - apply g_expr, g_or, g_and. apply (g_ne [TVar] [TNum [49]] NVar (NNum 1)); [apply gnu_lift, gnu_n|apply (gnu_lift _ _ (gnu_digit 49 ltac:(lia)))]. }
  destruct H as [(w & ds & r & (a & E & M) & B & NE & D & R & V) (src & q & ts & (a2 & E2 & M2) & A1 & A2 & Q & _ & T & G)]. 
  split.
  - exists [], (lit "2"), (lit "; plural=n != 1"). split; [exists []; split; [reflexivity|intros; cbn; lia]|].
    split; [intros c []|]. split; [discriminate|]. split; [intros c [<-|[]]; split; discriminate|]. split; [|reflexivity]. intros c r' Ec. injection Ec as <- _. intros [_ H]. exact (H eq_refl).
  - exists (lit "n != 1"), [], [TVar; TNe; TNum [49]]. split.
    + exists (lit "nplurals=2; "). split; [reflexivity|]. intros a' r' Ea.
      assert (forms_definition (lit "2") (lit "n != 1") = a' ++ lit "plural=" ++ (r' ++ [59])) as Ea'.
      { change (forms_definition (lit "2") (lit "n != 1")) with (unended ++ [59]). rewrite Ea, <- !app_assoc. reflexivity. }
      assert (length a2 = 12%nat) as L2; [|pose proof (M2 _ _ Ea') as M3; rewrite L2 in M3; exact M3].
      pose proof (M2 (lit "nplurals=2; ") (lit "n != 1;") eq_refl) as L. cbn in L.
      do 13 (destruct a2 as [|? a2]; [try discriminate E2; try reflexivity|injection E2 as _ E2]). cbn in L. lia.
    + split; [intros H; cbn in H; intuition discriminate|]. split; [intros H; cbn in H; intuition discriminate|]. split; [discriminate|]. split; [apply spaces_only; reflexivity|]. split.
      * apply lexed; vm_compute; reflexivity.
      * apply g_expr, g_or, g_and. apply (g_ne [TVar] [TNum [49]] NVar (NNum 1)); [apply gnu_lift, gnu_n|apply (gnu_lift _ _ (gnu_digit 49 ltac:(lia)))].
Qed.
Definition unended_lines : list string := ["msgid """""; "msgstr ""Plural-Forms: nplurals=2; plural=n != 1\n"""; "msgid ""a"""; "msgstr ""b"""]%string.
Theorem unended_refuted : exists h u ps r count e def, file (lf_stream unended_lines) (map lit unended_lines) None (h ++ r) None /\ first_entry h r None u /\ header u ps
  /\ property ps (lit "Plural-Forms") = Some def /\ gettext_header def count e
  /\ forall lib pf, exists x, read_catalogue lib pf (lf_stream unended_lines) = Err x.
Proof.
  set (t := lit "Plural-Forms: nplurals=2; plural=n != 1" ++ [10]). pose proof (simple_entry None 1 2 [] t) as En.
  assert (~ has_source (simple_unit [] t)) as S by (intros S; exact (S _ eq_refl)). destruct (header_exists (simple_unit [] t) S) as (ps & H).
  destruct (header_shown_of demo_lib (simple_unit [] t) ps [] H) as (_ & _ & P & _). cbn [c_properties] in P.
  exists (simple_block 1 2 [] t), (simple_unit [] t), ps, (simple_block 3 4 (lit "a") (lit "b")), 2, (NBin BNe NVar (NNum 1)), unended.
  split; [apply lf_file; [discriminate|reflexivity|vm_compute; reflexivity]|].
  split; [apply fe_entry; [exact En|apply (starter_ends None _ _ _ _ None En); right; do 4 eexists; split; [reflexivity|]; vm_compute; auto]|]. split; [exact H|].
  rewrite <- P. split; [vm_compute; reflexivity|]. split; [exact unended_header|]. intros lib pf. eexists. vm_compute. reflexivity.
Qed.
(** There is no definition. *)
Lemma no_header_text k x : ~ gettext_header [] k x.
Proof. intros [(w & ds & r & (a & E & _) & _) _]. destruct a; discriminate E. Qed.
Theorem default_refuted : exists evs u p s, (forall lib pf, exists c, read_catalogue lib pf evs = Ok c /\ c_items c = [UOk u] /\ gettext_text c p 1 s)
  /\ u_message u = MPlural p /\ forall pf n, msg_get_plural_text pf (u_message u) n = Some None.
Proof.
  exists (lf_stream ["msgid ""a"""; "msgid_plural ""b"""; "msgstr[0] ""x"""; "msgstr[1] ""y"""]%string).
  eexists. exists (Plural None (lit "a") (lit "b") [lit "x"; lit "y"]), (lit "x"). split.
  - intros lib pf. eexists. split; [vm_compute; reflexivity|]. split; [reflexivity|].
    exists 2, (NBin BNe NVar (NNum 1)), 0. split; [|split; reflexivity]. right. split; [exact no_header_text|auto].
  - split; [reflexivity|]. intros pf n. reflexivity.
Qed.
