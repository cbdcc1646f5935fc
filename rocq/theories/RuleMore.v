(** Plural rules in other spellings. *)
From Coq Require Import String Arith NArith ZArith Bool List Lia.
From Verif Require Import ModelBase ModelUtf8 ModelLine ModelFormula ModelData ModelSource ModelReader
  SpecLine SpecFormula SpecSource SpecReader SpecBlock SpecHeader SpecFile SpecWriter SpecRuntime SpecRule SpecRuleMore FileIntro BaseFacts CommentFacts LexFacts FormulaThms EvalFacts AccessFacts UseFacts SelectFacts
  HeaderThms BlockThms BlockFacts FileFacts HeaderFacts BlockWitness HeaderWitness RoundWitness RuntimeFacts RuleFacts.
Import ListNotations.
Local Open Scope N_scope.

Lemma gaps_blanks w : gaps w -> blanks w.
Proof. intros G c I. destruct (G c I) as [-> | ->]; vm_compute; tauto. Qed.
Lemma spelled_not_white t w c : spelled t w -> In c w -> ~ white c /\ c <> 115 /\ c <> 112 /\ c <> 59 /\ c <> 10.
Proof.
  intros S I. assert (forall b, existsb (N.eqb b) (115 :: 112 :: 59 :: 10 :: white_points) = false -> ~ white b /\ b <> 115 /\ b <> 112 /\ b <> 59 /\ b <> 10) as X.
  { intros b E. assert (forall x, In x (115 :: 112 :: 59 :: 10 :: white_points) -> b <> x) as Y.
    { intros x Ix ->. assert (existsb (N.eqb x) (115 :: 112 :: 59 :: 10 :: white_points) = true) by (apply existsb_exists; exists x; split; [exact Ix|apply N.eqb_refl]). congruence. }
    repeat split; try (apply Y; cbn; tauto). intros W. exact (Y b (or_intror (or_intror (or_intror (or_intror W)))) eq_refl). }
  destruct S; cbn in I; repeat destruct I as [<-|I]; try (apply X; reflexivity); try destruct I.
  match goal with Q : forall x, In x _ -> 48 <= x <= 57 |- _ => specialize (Q c I) end. apply X. assert (In c [48; 49; 50; 51; 52; 53; 54; 55; 56; 57]) as J by (cbn; lia). clear -J. cbn in J. intuition (subst; reflexivity).
Qed.
Lemma tokens_chars s ts c : tokens_of s ts -> In c s -> white c \/ (c <> 115 /\ c <> 112 /\ c <> 59 /\ c <> 10).
Proof.
  induction 1 as [|b s ts W T IH|t w s ts S L T IH]; intros I.
  - destruct I.
  - destruct I as [<-|I]; [left; exact W|exact (IH I)].
  - apply in_app_or in I as [I|I]; [right; apply (spelled_not_white _ _ _ S I)|exact (IH I)].
Qed.
Lemma follows_blanks (w x s r : str) : w <> [] -> (forall c, In c w -> ~ white c) -> blanks x -> follows_first w s r -> follows_first w (x ++ s) r.
Proof.
  intros NE Nw B F. induction x as [|c x IH]; [exact F|]. apply (follows_skip w [] (x ++ s) r c NE).
  - intros I. apply (Nw c I), B. left; reflexivity.
  - intros (a & q & E). destruct a; [|discriminate]. cbn in E. destruct w; [congruence|discriminate].
  - apply IH. intros z I. apply B. right; exact I.
Qed.
Lemma follows_here (w r : str) : follows_first w (w ++ r) r.
Proof. exists []. split; [reflexivity|]. intros. cbn. lia. Qed.
Lemma word_not_white w : existsb (fun c => existsb (N.eqb c) white_points) w = false -> forall c, In c w -> ~ white c.
Proof.
  intros E c I W. assert (existsb (fun c => existsb (N.eqb c) white_points) w = true); [|congruence].
  apply existsb_exists. exists c. split; [exact I|]. apply existsb_exists. exists c. split; [exact W|apply N.eqb_refl].
Qed.
Lemma no_mention_count w1 kd w2 : gaps w1 -> (forall c, In c kd -> 48 <= c <= 57) -> gaps w2 -> ~ mentions (lit "plural=") (lit "nplurals=" ++ w1 ++ kd ++ w2).
Proof.
  intros G1 D G2 (a & r & E).
  assert (N61 : ~ In 61 (w1 ++ kd ++ w2)) by (rewrite !in_app_iff; intros [I|[I|I]]; [destruct (G1 _ I); discriminate|specialize (D _ I); lia|destruct (G2 _ I); discriminate]).
  assert (split : forall (x y p q : str), ~ In 61 x -> ~ In 61 y -> x ++ 61 :: y = p ++ 61 :: q -> x = p).
  { clear. induction x as [|c x IH]; intros y p q Nx Ny E.
    - destruct p as [|d p]; [reflexivity|]. injection E as _ E. exfalso. apply Ny. rewrite E. apply in_or_app. right; left; reflexivity.
    - destruct p as [|d p]; injection E as -> E; [exfalso; apply Nx; left; reflexivity|]. f_equal. apply (IH y p q); [intros I; apply Nx; right; exact I|exact Ny|exact E]. }
  assert (X := split (lit "nplurals") (w1 ++ kd ++ w2) (a ++ lit "plural") r).
  assert (lit "nplurals" = a ++ lit "plural") as Y.
  { apply X; [cbn; intuition discriminate|exact N61|]. rewrite <- app_assoc. exact E. }
  change (lit "nplurals") with (lit "nplural" ++ [115]) in Y. change (lit "plural") with (lit "plura" ++ [108]) in Y. rewrite app_assoc in Y. apply app_inj_tail in Y as [_ Y]. discriminate.
Qed.
Lemma no_mention_formula w4 src w5 ts : gaps w4 -> tokens_of src ts -> gaps w5 -> ~ mentions (lit "nplurals=") (lit "plural=" ++ w4 ++ src ++ w5).
Proof.
  intros G4 T G5 (a & r & E). assert (In 115 (lit "plural=" ++ w4 ++ src ++ w5)) as I by (rewrite E, !in_app_iff; right; left; cbn; tauto).
  rewrite !in_app_iff in I. destruct I as [I|[I|[I|I]]]; [cbn in I; intuition discriminate|destruct (G4 _ I); discriminate| |destruct (G5 _ I); discriminate].
  destruct (tokens_chars _ _ _ T I) as [W|(W & _)]; [vm_compute in W; intuition discriminate|congruence].
Qed.
Lemma decimal_facts count kd : decimal count kd -> kd <> [] /\ (forall c, In c kd -> 48 <= c <= 57) /\ Z.of_N count = digits_value kd.
Proof.
  intros Dc. induction Dc as [d Hd|m d s Hm Hd D IH].
  - split; [discriminate|]. split; [intros c I; destruct I as [<-|[]]; lia|]. unfold digits_value. cbn [fold_left]. lia.
  - destruct IH as (NE & Dg & Dv). split; [destruct s; discriminate|]. split.
    + intros c I. apply in_app_or in I as [I|[<-|[]]]; [apply Dg, I|lia].
    + unfold digits_value in *. rewrite fold_left_app. cbn [fold_left]. unfold str, char in *. rewrite <- Dv. lia.
Qed.
Lemma gaps_space w : gaps w -> forall c, In c w -> isspace c.
Proof. intros G c I. destruct (G c I) as [-> | ->]; [left; reflexivity|right; lia]. Qed.
Theorem written_found kd src def count ts e z : written_rule kd src def -> decimal count kd -> ~ In 59 src -> one_line src -> (forall c, In c src -> white c -> c = 32 \/ c = 9) ->
  tokens_of src ts -> gnu CExpr ts e -> gettext_header (def ++ z) count e.
Proof.
  intros Wr Dc N O Sp T G. destruct (decimal_facts _ _ Dc) as (NE & Dg & Dv).
  assert (P1 : forall c, In c (lit "plural=") -> ~ white c) by (apply word_not_white; reflexivity).
  assert (P2 : forall c, In c (lit "nplurals=") -> ~ white c) by (apply word_not_white; reflexivity).
  assert (count_here : forall w1 w2 y s, gaps w1 -> gaps w2 -> follows_first (lit "nplurals=") s (w1 ++ kd ++ w2 ++ lit ";" ++ y) ->
    exists w ds r, follows_first (lit "nplurals=") s (w ++ ds ++ r) /\ (forall c, In c w -> isspace c) /\ ds <> [] /\ (forall c, In c ds -> 48 <= c <= 57)
     /\ (forall c r', r = c :: r' -> ~ (48 <= c <= 57)) /\ Z.of_N count = digits_value ds).
  { intros w1 w2 y s G1 G2 F. exists w1, kd, (w2 ++ lit ";" ++ y). split; [exact F|]. split; [apply gaps_space, G1|]. split; [exact NE|]. split; [exact Dg|]. split; [|exact Dv].
    intros c r' E. destruct w2 as [|x w2]; injection E as <- _; [lia|]. destruct (G2 x (or_introl eq_refl)) as [-> | ->]; lia. }
  assert (formula_here : forall w4 w5 y s, gaps w4 -> gaps w5 -> follows_first (lit "plural=") s (w4 ++ src ++ w5 ++ lit ";" ++ y) ->
    exists src r ts, follows_first (lit "plural=") s (src ++ r) /\ ~ In 59 src /\ ~ In 10 src /\ (forall c r', r = c :: r' -> c = 59 \/ c = 10)
     /\ (forall c, In c src -> white c -> c = 32 \/ c = 9) /\ tokens_of src ts /\ gnu CExpr ts e).
  { intros w4 w5 y s G4 G5 F. exists (w4 ++ src ++ w5), (lit ";" ++ y), ts. split; [rewrite <- !app_assoc; exact F|].
    split; [rewrite !in_app_iff; intros [I|[I|I]]; [destruct (G4 _ I); discriminate|exact (N I)|destruct (G5 _ I); discriminate]|].
    split; [rewrite !in_app_iff; intros [I|[I|I]]; [destruct (G4 _ I); discriminate|exact (O I)|destruct (G5 _ I); discriminate]|].
    split; [intros c r' E; injection E as <- _; left; reflexivity|].
    split; [intros c I W; rewrite !in_app_iff in I; destruct I as [I|[I|I]]; [exact (G4 _ I)|exact (Sp _ I W)|exact (G5 _ I)]|].
    split; [|exact G]. apply tokens_of_skips; [apply gaps_blanks, G4|]. apply tokens_of_app_blanks; [apply gaps_blanks, G5|exact T]. }
  destruct Wr as [w1 w2 w3 w4 w5 G1 G2 G3 G4 G5|w1 w2 w3 w4 w5 G1 G2 G3 G4 G5]; split.
  - apply (count_here w1 w2 (w3 ++ lit "plural=" ++ w4 ++ src ++ w5 ++ lit ";" ++ z)); try assumption. rewrite <- !app_assoc. apply follows_here.
  - apply (formula_here w4 w5 z); try assumption. rewrite <- !app_assoc.
    replace (lit "nplurals=" ++ w1 ++ kd ++ w2 ++ lit ";" ++ w3 ++ lit "plural=" ++ w4 ++ src ++ w5 ++ lit ";" ++ z)
      with ((lit "nplurals=" ++ w1 ++ kd ++ w2) ++ 59 :: w3 ++ lit "plural=" ++ w4 ++ src ++ w5 ++ lit ";" ++ z) by (rewrite <- !app_assoc; reflexivity).
    apply follows_skip; [discriminate|cbn; intuition discriminate|apply no_mention_count; assumption|].
    apply follows_blanks; [discriminate|exact P1|apply gaps_blanks, G3|apply follows_here].
  - apply (count_here w1 w2 z); try assumption. rewrite <- !app_assoc.
    replace (lit "plural=" ++ w4 ++ src ++ w5 ++ lit ";" ++ w3 ++ lit "nplurals=" ++ w1 ++ kd ++ w2 ++ lit ";" ++ z)
      with ((lit "plural=" ++ w4 ++ src ++ w5) ++ 59 :: w3 ++ lit "nplurals=" ++ w1 ++ kd ++ w2 ++ lit ";" ++ z) by (rewrite <- !app_assoc; reflexivity).
    apply follows_skip; [discriminate|cbn; intuition discriminate|eapply no_mention_formula; eassumption|].
    apply follows_blanks; [discriminate|exact P2|apply gaps_blanks, G3|apply follows_here].
  - apply (formula_here w4 w5 (w3 ++ lit "nplurals=" ++ w1 ++ kd ++ w2 ++ lit ";" ++ z)); try assumption. rewrite <- !app_assoc. apply follows_here.
Qed.
Lemma gaps_line w : gaps w -> one_line w.
Proof. intros G I. destruct (G _ I); discriminate. Qed.
Lemma written_definitions kd src def count : written_rule kd src def -> decimal count kd -> ~ In 59 src -> not_white_first src -> not_white_last src ->
  definitions def [(lit "nplurals", kd); (lit "plural", src)] \/ definitions def [(lit "plural", src); (lit "nplurals", kd)].
Proof.
  intros Wr Dc N A B. destruct (decimal_facts _ _ Dc) as (NE & Dg & _).
  assert (Bn : blanks []) by (intros c []).
  assert (Kn : forall c, In c (lit "nplurals") -> ~ white c /\ c <> 61) by (intros c I; split; [revert c I; apply word_not_white; reflexivity|cbn in I; intuition congruence]).
  assert (Kp : forall c, In c (lit "plural") -> ~ white c /\ c <> 61) by (intros c I; split; [revert c I; apply word_not_white; reflexivity|cbn in I; intuition congruence]).
  assert (Wd : forall c, 48 <= c <= 57 -> ~ white c).
  { intros c R W. assert (In c [48; 49; 50; 51; 52; 53; 54; 55; 56; 57]) as J by (cbn; lia). clear R. cbn in J. intuition (subst; vm_compute in W; intuition discriminate). }
  assert (Tk : forall a b, gaps a -> gaps b -> trims_to (a ++ kd ++ b) kd).
  { intros a b Ga Gb. exists a, b. split; [reflexivity|]. split; [apply gaps_blanks, Ga|]. split; [apply gaps_blanks, Gb|]. split.
    - intros c s E. apply Wd, Dg. rewrite E. left; reflexivity.
    - intros c s E. apply Wd, Dg. rewrite E. apply in_or_app. right; left; reflexivity. }
  assert (Ts : forall a b, gaps a -> gaps b -> trims_to (a ++ src ++ b) src).
  { intros a b Ga Gb. exists a, b. split; [reflexivity|]. split; [apply gaps_blanks, Ga|]. split; [apply gaps_blanks, Gb|]. split; assumption. }
  assert (Nk : forall a b, gaps a -> gaps b -> ~ In 59 (a ++ kd ++ b)).
  { intros a b Ga Gb. rewrite !in_app_iff. intros [I|[I|I]]; [destruct (Ga _ I); discriminate|specialize (Dg _ I); lia|destruct (Gb _ I); discriminate]. }
  assert (Ns : forall a b, gaps a -> gaps b -> ~ In 59 (a ++ src ++ b)).
  { intros a b Ga Gb. rewrite !in_app_iff. intros [I|[I|I]]; [destruct (Ga _ I); discriminate|exact (N I)|destruct (Gb _ I); discriminate]. }
  destruct Wr as [w1 w2 w3 w4 w5 G1 G2 G3 G4 G5|w1 w2 w3 w4 w5 G1 G2 G3 G4 G5]; [left|right].
  - pose proof (df_more [] (lit "nplurals") [] (w1 ++ kd ++ w2) kd _ _ Bn ltac:(discriminate) Kn Bn (Nk _ _ G1 G2) (Tk _ _ G1 G2)
      (df_more w3 (lit "plural") [] (w4 ++ src ++ w5) src [] [] (gaps_blanks _ G3) ltac:(discriminate) Kp Bn (Ns _ _ G4 G5) (Ts _ _ G4 G5) (df_end [] Bn))) as D.
    rewrite <- !app_assoc in D. exact D.
  - pose proof (df_more [] (lit "plural") [] (w4 ++ src ++ w5) src _ _ Bn ltac:(discriminate) Kp Bn (Ns _ _ G4 G5) (Ts _ _ G4 G5)
      (df_more w3 (lit "nplurals") [] (w1 ++ kd ++ w2) kd [] [] (gaps_blanks _ G3) ltac:(discriminate) Kn Bn (Nk _ _ G1 G2) (Tk _ _ G1 G2) (df_end [] Bn))) as D.
    rewrite <- !app_assoc in D. exact D.
Qed.
Lemma written_line kd src def count : written_rule kd src def -> decimal count kd -> one_line src -> one_line def.
Proof.
  intros Wr Dc O. destruct (decimal_facts _ _ Dc) as (_ & Dg & _). assert (Ok : one_line kd) by (intros I; specialize (Dg _ I); lia).
  assert (L1 : one_line (lit "nplurals=")) by (intros I; cbn in I; intuition discriminate). assert (L2 : one_line (lit "plural=")) by (intros I; cbn in I; intuition discriminate). assert (L3 : one_line (lit ";")) by (intros I; cbn in I; intuition discriminate).
  destruct Wr as [w1 w2 w3 w4 w5 G1 G2 G3 G4 G5|w1 w2 w3 w4 w5 G1 G2 G3 G4 G5];
    apply gaps_line in G1, G2, G3, G4, G5; unfold one_line in *; rewrite !in_app_iff; tauto.
Qed.
Lemma written_ends kd src def : written_rule kd src def -> not_white_first def /\ not_white_last def.
Proof.
  intros [w1 w2 w3 w4 w5 G1 G2 G3 G4 G5|w1 w2 w3 w4 w5 G1 G2 G3 G4 G5]; (split; [intros c s E; injection E as <- _; intros W; cbn in W; intuition discriminate|]);
    intros c s E; rewrite !app_assoc in E; apply app_inj_tail in E as [_ <-]; intros W; cbn in W; intuition discriminate.
Qed.
Theorem written_read pf count kd src def ts e : written_rule kd src def -> decimal count kd -> count < 2 ^ usize_bits pf -> one_line src -> ~ In 59 src -> not_white_first src -> not_white_last src ->
  ~ blanks src -> tokens_of src ts -> derives GExpr ts e ->
  forall f, forms_of pf def f <-> f = PluralForms e count def src.
Proof.
  intros Wr Dc Lt O N A B NB T De f. destruct (decimal_facts _ _ Dc) as (NE & Dg & Dv).
  pose proof (written_line _ _ _ _ Wr Dc O) as OL.
  assert (G : forms_of pf def (PluralForms e count def src)).
  { destruct (written_definitions _ _ _ _ Wr Dc N A B) as [Df|Df].
    - exists [(lit "nplurals", kd); (lit "plural", src)]. split.
      + apply definition_list_accepted; [exact OL|]. destruct (definitions_read _ _ OL Df) as (m & E & _). exists m. exact E.
      + split; [apply definitions_bindings, Df|]. split; [reflexivity|]. split; [reflexivity|]. split.
        * right. split; [exact NB|]. exists ts. split; [exact T|exact De].
        * change (last_value (lit "nplurals") [(lit "nplurals", kd); (lit "plural", src)]) with (Some kd). exists kd. auto.
    - exists [(lit "plural", src); (lit "nplurals", kd)]. split.
      + apply definition_list_accepted; [exact OL|]. destruct (definitions_read _ _ OL Df) as (m & E & _). exists m. exact E.
      + split; [apply definitions_bindings, Df|]. split; [reflexivity|]. split; [reflexivity|]. split.
        * right. split; [exact NB|]. exists ts. split; [exact T|exact De].
        * change (last_value (lit "nplurals") [(lit "plural", src); (lit "nplurals", kd)]) with (Some kd). exists kd. auto. }
  split; [|intros ->; exact G]. intros H. apply (forms_parse_iff pf _ _ OL) in H, G. congruence.
Qed.
Lemma line_property t def ps : rule_line t def -> one_line def -> not_white_first def -> not_white_last def -> header_pairs t ps -> property ps (lit "Plural-Forms") = Some def.
Proof.
  intros (ls & k & w & w' & ls' & -> & K & Ok & B & Ow & B' & Ow' & L & _) OL W1 W2 H. apply header_pairs_iff in H.
  assert (~ In 58 k) as Nk.
  { destruct K as (a & b & -> & A & C & _). rewrite !in_app_iff.
    intros [I|[I|I]]; [specialize (A _ I); cbn in A; intuition discriminate|cbn in I; intuition discriminate|specialize (C _ I); cbn in C; intuition discriminate]. }
  rewrite split_separated in H.
  - subst ps. rewrite flat_map_app. cbn [flat_map]. unfold property.
    assert (values_of (lit "Plural-Forms") (flat_map line_pairs ls ++ line_pairs (k ++ 58 :: w ++ def ++ w') ++ flat_map line_pairs ls') = [def]) as Q; [|unfold str, char in *; rewrite Q; reflexivity].
    rewrite !values_of_app. rewrite (no_key_values _ ls) by (intros l I; apply L, in_or_app; auto). rewrite (no_key_values _ ls') by (intros l I; apply L, in_or_app; auto).
    unfold line_pairs. rewrite (proj2 (find_pairs _ k (w ++ def ++ w'))) by auto.
    apply trims_to_iff in K. rewrite <- K.
    assert (trims_to (w ++ def ++ w') def) as T by (exists w, w'; auto).
    apply trims_to_iff in T. rewrite <- T. reflexivity.
  - destruct ls; discriminate.
  - intros l I. apply in_app_or in I as [I|[<-|I]]; [apply L, in_or_app; auto| |apply L, in_or_app; auto].
    unfold one_line in *. rewrite !in_app_iff. cbn [In]. rewrite !in_app_iff. intuition discriminate.
Qed.
Theorem line_found t kd src def count ts e : rule_line t def -> written_rule kd src def -> decimal count kd -> ~ In 59 src -> one_line src -> (forall c, In c src -> white c -> c = 32 \/ c = 9) ->
  tokens_of src ts -> gnu CExpr ts e -> gettext_header t count e.
Proof.
  intros (ls & k & w & w' & ls' & -> & K & _ & B & _ & _ & _ & _ & M) Wr D N O Sp T G. apply header_after_lines; [exact M|].
  assert (exists z, separated 10 ((k ++ 58 :: w ++ def ++ w') :: ls') = k ++ 58 :: w ++ def ++ z) as [z Z].
  { destruct ls' as [|l ls']; [exists w'; reflexivity|]. exists (w' ++ 10 :: separated 10 (l :: ls')).
    change (separated 10 ((k ++ 58 :: w ++ def ++ w') :: l :: ls')) with ((k ++ 58 :: w ++ def ++ w') ++ 10 :: separated 10 (l :: ls')).
    rewrite <- !app_assoc. cbn [app]. rewrite <- !app_assoc. reflexivity. }
  unfold str, char in *. rewrite Z. apply header_skip.
  - split; intros I; cbn in I; intuition discriminate.
  - apply no_equals. destruct K as (a & b & -> & A & C & _). rewrite !in_app_iff.
    intros [I|[I|I]]; [specialize (A _ I); cbn in A; intuition discriminate|cbn in I; intuition discriminate|specialize (C _ I); cbn in C; intuition discriminate].
  - apply header_after_blanks; [exact B|]. eapply written_found; eassumption.
Qed.
Theorem written_agrees lib pf evs ls er pl tl h u t def r c kd src count ts e :
  file evs ls er pl tl -> pl = h ++ r -> first_entry h r tl u -> u_message u = MSimple [] (Some t) -> rule_line t def -> written_rule kd src def ->
  decimal count kd -> count < 2 ^ usize_bits pf -> one_line src -> ~ In 59 src -> not_white_first src -> not_white_last src -> (forall x, In x src -> white x -> x = 32 \/ x = 9) ->
  tokens_of src ts -> common MExpr ts e -> read_catalogue lib pf evs = Ok c ->
  gettext_header t count e /\ forall v p, In (UOk v) (c_items c) -> plural_in v p -> exists f, pl_forms p = Some f /\ pf_count f = count /\ pf_formula f = e.
Proof.
  intros Fi E Fe Um Rt Wr Dc Lt O N A B Sp T Cm R.
  destruct (common_agreement _ _ Cm) as (_ & Gn & _). pose proof (common_derives _ _ _ Cm) as De. cbn [m_to_g] in De.
  split; [eapply line_found; eassumption|].
  destruct (header_pairs_total t) as [ps Hp]. assert (header u ps) as H by (exists (Some t); auto).
  destruct (header_properties_read lib pf evs ls er pl tl h u ps r c Fi E Fe H R) as (P & _).
  destruct (written_ends _ _ _ Wr) as [E1 E2].
  pose proof (line_property t def ps Rt (written_line _ _ _ _ Wr Dc O) E1 E2 Hp) as Pp. rewrite <- P in Pp.
  destruct (plural_forms_shown lib pf evs c R) as (forms & Sh & All). intros v p I Pl. rewrite (All v p I Pl).
  assert (~ blanks src) as NB.
  { intros Bs. apply no_tokens in Bs. rewrite (tokens_of_det _ _ _ T Bs) in Cm. exfalso. clear -De T Bs Cm.
    assert (forall nt l x, derives nt l x -> l <> []) as K by (induction 1; try assumption; try discriminate; intros Z; apply app_eq_nil in Z as [_ Z]; discriminate Z).
    apply common_derives in Cm. apply (K _ _ _ Cm). reflexivity. }
  unfold forms_shown in Sh. rewrite Pp in Sh. destruct Sh as [[Em _]|[_ (f & -> & Hf)]]; [destruct Wr; discriminate Em|].
  apply (written_read pf count kd src def ts e Wr Dc Lt O N A B NB T De) in Hf. subst f. eexists. split; [reflexivity|]. split; reflexivity.
Qed.
(** A definition with the formula in front. *)
Definition turned_text : str := lit "Language: de
Plural-Forms: plural= n != 1 ; nplurals=	2;
".
Theorem turned_rule : exists def, rule_line turned_text def /\ written_rule (lit "2") (lit "n != 1") def.
Proof.
  exists (lit "plural= n != 1 ; nplurals=	2;"). split.
  - exists [lit "Language: de"], (lit "Plural-Forms"), [32], [], [[]].
    assert (forall c, In c (lit "Plural-Forms") -> ~ white c) as K by (intros c I W; cbn in I; cbn in W; intuition congruence).
    split; [reflexivity|]. split; [exists [], []; split; [reflexivity|]; split; [intros c []|]; split; [intros c []|]; split; intros c s E; apply K; rewrite E; [left; reflexivity|apply in_or_app; right; left; reflexivity]|].
    split; [intros I; cbn in I; intuition discriminate|]. split; [intros c [<-|[]]; vm_compute; tauto|]. split; [intros [I|[]]; discriminate|].
    split; [intros c []|]. split; [intros []|]. split.
    + intros l [<-|[<-|[]]]; (split; [intros I; cbn in I; intuition discriminate|]); intros (k & v & E & N & T).
      * assert (find_char 58 (lit "Language: de") = Some (k, v)) as F by (apply find_pairs; auto). vm_compute in F. injection F as <- <-. apply trims_to_iff in T. vm_compute in T. discriminate.
      * destruct k; discriminate.
    + intros l [<-|[]]. apply no_equals. intros I; cbn in I; intuition discriminate.
  - apply (wr_formula_first (lit "2") (lit "n != 1") [9] [] [32] [32] [32]); intros c I; cbn in I; intuition (subst; auto).
Qed.
