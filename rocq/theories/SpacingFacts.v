(** White space and parentheses in plural formulas. *)
From Coq Require Import String Arith NArith ZArith Bool List Lia.
From Verif Require Import ModelBase ModelLine ModelFormula ModelData ModelParser SpecLine SpecFormula SpecSource SpecParser SpecSpacing
  BaseFacts LineFacts FormulaFacts LexFacts FormulaThms ParserFacts ParserThms.
Import ListNotations.

(** * White space ends tokens *)
Lemma spelled_no_white t w c : spelled t w -> In c w -> ~ white c.
Proof.
  intros Sp I W. apply is_ws_white in W. apply spelled_cases in Sp as [L|(_ & _ & D)].
  - assert (F : forallb (fun p => forallb (fun x => negb (is_ws x)) (fst p)) lit_tokens = true) by reflexivity.
    rewrite forallb_forall in F. specialize (F _ L). cbn [fst] in F. rewrite forallb_forall in F. specialize (F _ I). rewrite W in F. discriminate F.
  - specialize (D c I). apply is_ws_white in W. unfold white in W. cbn in W. lia.
Qed.
Lemma app_prefix {A} (a b c d : list A) : a ++ b = c ++ d -> length a <= length c -> exists e, c = a ++ e /\ b = e ++ d.
Proof.
  revert c. induction a as [|x a IH]; intros c E L; [exists c; auto|]. destruct c as [|y c]; [cbn in L; lia|]. injection E as <- E. cbn [length] in L.
  destruct (IH c E ltac:(lia)) as (e & -> & ->). exists e. auto.
Qed.
Lemma longest_insert w a b v : blanks v -> longest w (a ++ b) -> longest w (a ++ v ++ b).
Proof.
  intros B Lg t w' s' Sp E. destruct v as [|c v]; [exact (Lg t w' s' Sp E)|].
  assert (Le : length w' <= length (w ++ a)).
  { destruct (Nat.le_gt_cases (length w') (length (w ++ a))) as [|G]; [assumption|exfalso]. rewrite app_assoc in E.
    destruct (app_prefix _ _ _ _ E (Nat.lt_le_incl _ _ G)) as (e & -> & E'). rewrite !app_length in G. destruct e as [|x e]; [cbn in G; lia|]. injection E' as <- _.
    refine (spelled_no_white _ _ c Sp _ (B c (or_introl eq_refl))). apply in_or_app. right. left. reflexivity. }
  rewrite app_assoc in E. symmetry in E. destruct (app_prefix _ _ _ _ E Le) as (e & E1 & _). apply (Lg t w' (e ++ b) Sp). rewrite !app_assoc, E1. reflexivity.
Qed.
Lemma begins_suffix s ts r : begins s ts r -> exists a, s = a ++ r.
Proof. induction 1 as [s|c s ts r W B (a & ->)|t w s ts r Sp Lg B (a & ->)]; [exists []; reflexivity|exists (c :: a); reflexivity|exists (w ++ a); apply app_assoc]. Qed.
Lemma begins_insert s ts r : begins s ts r -> forall a v, s = a ++ r -> blanks v -> begins (a ++ v ++ r) ts (v ++ r).
Proof.
  induction 1 as [s|c s ts r W B IH|t w s ts r Sp Lg B IH]; intros a v E Bv.
  - change s with ([] ++ s) in E at 1. apply app_inv_tail in E. subst a. constructor.
  - destruct (begins_suffix _ _ _ B) as (a' & ->). change (c :: a' ++ r) with ((c :: a') ++ r) in E. apply app_inv_tail in E. subst a. cbn [app]. apply bg_white; [exact W|apply IH; auto].
  - destruct (begins_suffix _ _ _ B) as (a' & ->). rewrite app_assoc in E. apply app_inv_tail in E. subst a. rewrite <- app_assoc. apply bg_token; [exact Sp|apply longest_insert; assumption|apply IH; auto].
Qed.

(** * The same tokens, the later ones moved *)
Lemma scanned_blanks_back w : forall u s l b, blanks w -> scanned u (w ++ s) l b -> scanned (u ++ w) s l b.
Proof.
  induction w as [|c w IH]; intros u s l b B H; [rewrite app_nil_r; exact H|]. cbn [app] in H. apply scanned_white in H; [|apply B; left; reflexivity].
  apply IH in H; [|intros x I; apply B; right; exact I]. rewrite <- app_assoc in H. exact H.
Qed.
Lemma scanned_det u s l b : scanned u s l b -> forall l' b', scanned u s l' b' -> l = l' /\ b = b'.
Proof.
  induction 1 as [u|u c s Nw Nt|u c s l b W H IH|u w s t l b Sp Lg H IH]; intros l' b' H'.
  - remember [] as e eqn:E. destruct H' as [| | |u w s t l b Sp Lg H]; try discriminate E; [auto|].
    apply app_eq_nil in E as [-> _]. destruct (spelled_head _ _ Sp) as (x & r & Q & _). discriminate Q.
  - remember (c :: s) as cs eqn:E. destruct H' as [u|u c0 s0 N T|u c0 s0 l b W H|u w s0 t l b Sp Lg H]; try discriminate E; [auto|injection E as -> ->; contradiction|].
    exfalso. exact (Nt _ _ _ Sp eq_refl).
  - apply scanned_white in H'; [|exact W]. exact (IH _ _ H').
  - apply (scanned_token _ t w) in H' as (l0 & -> & H'); [|exact Sp|exact Lg]. destruct (IH _ _ H') as [-> ->]. auto.
Qed.
Definition later (d : N) (p : place) : place := Place (p_start p + d) (p_tok p) (p_text p) (p_end p + d).
Lemma scanned_later u s l b : scanned u s l b -> forall v d, size v = (size u + d)%N -> scanned v s (map (later d) l) (option_map (fun x => x + d)%N b).
Proof.
  induction 1 as [u|u c s Nw Nt|u c s l b W H IH|u w s t l b Sp Lg H IH]; intros v d E; cbn [map option_map later p_start p_tok p_text p_end].
  - constructor.
  - rewrite <- E. constructor; assumption.
  - constructor; [exact W|]. apply IH. rewrite !size_app, E. lia.
  - unfold later at 1. cbn [p_start p_tok p_text p_end]. assert (E1 : (size (u ++ w) + d = size (v ++ w))%N) by (rewrite !size_app, E; lia). rewrite E1, <- E. constructor; [exact Sp|exact Lg|]. apply IH. lia.
Qed.
Definition before (k : N) (p : place) : Prop := (p_start p < k /\ p_end p <= k)%N.
Lemma size_pos t w : spelled t w -> (0 < size w)%N.
Proof.
  intros Sp. destruct (spelled_head _ _ Sp) as (x & r & -> & _). change (x :: r) with ([x] ++ r). rewrite size_app.
  assert (0 < size [x])%N; [|lia]. rewrite <- bytes_size. cbn [bytes fold_right]. unfold char_bytes. destruct (x <? 128)%N, (x <? 2048)%N, (x <? 65536)%N; reflexivity.
Qed.
Lemma scanned_after u s l b : scanned u s l b -> Forall (fun p => size u <= p_start p /\ size u < p_end p)%N l /\ forall x, b = Some x -> (size u <= x)%N.
Proof.
  induction 1 as [u|u c s Nw Nt|u c s l b W H [IH1 IH2]|u w s t l b Sp Lg H [IH1 IH2]]; (split; [try constructor|]).
  - discriminate.
  - intros x [= <-]. lia.
  - eapply Forall_impl; [|exact IH1]. cbv beta. intros p. rewrite size_app. lia.
  - intros x E. specialize (IH2 x E). rewrite size_app in IH2. lia.
  - cbn [p_start p_end]. rewrite size_app. pose proof (size_pos _ _ Sp). lia.
  - eapply Forall_impl; [|exact IH1]. cbv beta. intros p. rewrite size_app. lia.
  - intros x E. specialize (IH2 x E). rewrite size_app in IH2. lia.
Qed.
Lemma insert_scanned s ts r : begins s ts r -> forall a v u l b, s = a ++ r -> blanks v -> scanned u s l b ->
  exists l1 l2, l = l1 ++ l2 /\ Forall (before (size (u ++ a))) l1 /\ Forall (fun p => size (u ++ a) <= p_start p /\ size (u ++ a) < p_end p)%N l2
    /\ (forall x, b = Some x -> (size (u ++ a) <= x)%N)
    /\ scanned u (a ++ v ++ r) (l1 ++ map (later (size v)) l2) (option_map (fun x => x + size v)%N b).
Proof.
  induction 1 as [s|c s ts r W B IH|t w s ts r Sp Lg B IH]; intros a v u l b E Bv H.
  - change s with ([] ++ s) in E at 1. apply app_inv_tail in E. subst a. rewrite app_nil_r. exists [], l. destruct (scanned_after _ _ _ _ H) as [F1 F2].
    split; [reflexivity|]. split; [constructor|]. split; [exact F1|]. split; [exact F2|]. cbn [app]. apply scanned_blanks; [exact Bv|]. apply (scanned_later _ _ _ _ H). apply size_app.
  - destruct (begins_suffix _ _ _ B) as (a' & ->). change (c :: a' ++ r) with ((c :: a') ++ r) in E. apply app_inv_tail in E. subst a.
    apply scanned_white in H; [|exact W]. destruct (IH a' v _ _ _ eq_refl Bv H) as (l1 & l2 & -> & F1 & F2 & F3 & H'). exists l1, l2. rewrite <- app_assoc in *.
    split; [reflexivity|]. split; [exact F1|]. split; [exact F2|]. split; [exact F3|]. cbn [app]. apply sc_white; [exact W|exact H'].
  - destruct (begins_suffix _ _ _ B) as (a' & ->). rewrite app_assoc in E. apply app_inv_tail in E. subst a.
    apply (scanned_token _ t w) in H as (l0 & -> & H); [|exact Sp|exact Lg]. destruct (IH a' v _ _ _ eq_refl Bv H) as (l1 & l2 & -> & F1 & F2 & F3 & H').
    exists (Place (size u) t w (size (u ++ w)) :: l1), l2. rewrite <- !app_assoc in *. split; [reflexivity|]. split; [constructor; [|exact F1]|].
    { unfold before. cbn [p_start p_end]. rewrite !size_app. pose proof (size_pos _ _ Sp). lia. }
    split; [exact F2|]. split; [exact F3|]. cbn [app]. apply sc_tok; [exact Sp|apply longest_insert; assumption|exact H'].
Qed.

(** * Results *)
Definition result_of (early : list symbol -> option tok -> bool) (l : list place) (bad : option N) : option (node + fault) :=
  match run early (match bad with Some _ => true | None => false end) (S (11 * length l)) [] (map p_tok l) with
  | Accepted e => Some (inl e)
  | Large => Some (inr FLarge)
  | Unread => Some (inr (FInvalid (match bad with Some n => n | None => 0%N end)))
  | Refused ts =>
      match nth_error l (length l - length ts) with
      | Some p => Some (inr (FToken (p_start p) (p_text p) (p_end p)))
      | None => Some (inr (FEof (last (map p_end l) 0%N)))
      end
  | Out => None
  end.
Lemma tokens_blank_end w : blanks w -> forall s, s <> [] -> forall t v r, spelled t v -> s ++ w = v ++ r -> length v <= length s.
Proof.
  intros B s Ns t v r Sp E. destruct (Nat.le_gt_cases (length v) (length s)) as [|G]; [assumption|exfalso].
  destruct (app_prefix _ _ _ _ E (Nat.lt_le_incl _ _ G)) as (e & -> & ->). rewrite !app_length in G. destruct e as [|x e]; [cbn in G; lia|].
  refine (spelled_no_white _ _ x Sp _ (B x _)); [apply in_or_app; right|]; left; reflexivity.
Qed.
Lemma scanned_trail w : blanks w -> forall u s l b, scanned u s l b -> scanned u (s ++ w) l b.
Proof.
  intros B u s l b H. induction H as [u|u c s Nw Nt|u c s l b W H IH|u v s t l b Sp Lg H IH].
  - cbn [app]. rewrite <- (app_nil_r w). apply scanned_blanks; [exact B|constructor].
  - cbn [app]. constructor; [exact Nw|]. intros t v r Sp E. change (c :: s ++ w) with ((c :: s) ++ w) in E. pose proof (tokens_blank_end w B (c :: s) ltac:(discriminate) t v r Sp E) as L.
    symmetry in E. destruct (app_prefix _ _ _ _ E L) as (e & E1 & _). exact (Nt _ _ _ Sp E1).
  - cbn [app]. constructor; assumption.
  - rewrite <- app_assoc. constructor; [exact Sp| |exact IH]. pose proof (longest_insert v s [] w B) as Li. rewrite !app_nil_r in Li. exact (Li Lg).
Qed.
Lemma result_scanned early s l b : not_white_first s -> s <> [] -> scanned [] s l b -> formula_result early s = result_of early l b.
Proof.
  intros Nf Ns H. destruct (trim_decomp s) as (w1 & w2 & E & B1 & B2 & _). apply blanks_forallb in B1, B2.
  assert (w1 = []) as -> by (destruct w1 as [|c w1]; [reflexivity|]; exfalso; exact (Nf c _ E (B1 c (or_introl eq_refl)))). cbn [app] in E.
  assert (Nt : trim s <> []).
  { intros Q. rewrite Q in E. cbn [app] in E. destruct s as [|c s]; [congruence|]. apply (Nf c s eq_refl), B2. rewrite <- E. left. reflexivity. }
  destruct (any_scanned (trim s)) as (l' & b' & H'). pose proof (scanned_trail _ B2 _ _ _ _ H') as H2. rewrite <- E in H2. destruct (scanned_det _ _ _ _ H _ _ H2) as [-> ->].
  unfold formula_result. destruct (trim s) as [|c m] eqn:Et; [congruence|]. cbn [is_empty]. rewrite <- Et in *.
  destruct (scan (S (length (trim s))) 0 (trim s)) as [l0 b0] eqn:Es. change 0%N with (size []) in Es. pose proof (scan_scanned _ _ _ _ _ (Nat.lt_succ_diag_r _) Es) as H0.
  destruct (scanned_det _ _ _ _ H' _ _ H0) as [<- <-]. reflexivity.
Qed.
Lemma last_end l d : last (map p_end l) d = match l with [] => d | _ => p_end (last l (Place 0 TVar [] 0)) end.
Proof. induction l as [|p [|q l] IH]; try reflexivity. change (last (map p_end (q :: l)) d = p_end (last (q :: l) (Place 0 TVar [] 0))). rewrite IH. reflexivity. Qed.
Theorem spaced_result early a b w : not_white_first a -> a <> [] -> between a b -> blanks w ->
  formula_result early (a ++ w ++ b) = option_map (moved_result (size a) (size w)) (formula_result early (a ++ b)).
Proof.
  intros Nf Na (ts & Bg) Bw. destruct (any_scanned (a ++ b)) as (l & bad & H).
  destruct (insert_scanned _ _ _ Bg a w [] l bad eq_refl Bw H) as (l1 & l2 & -> & F1 & F2 & F3 & H'). cbn [app] in *.
  assert (Nf' : forall q, not_white_first (a ++ q)) by (intros q; destruct a as [|c a]; [congruence|]; intros x r [= <- _]; exact (Nf c a eq_refl)).
  rewrite (result_scanned early _ _ _ (Nf' b) ltac:(destruct a; [congruence|discriminate]) H).
  rewrite (result_scanned early _ _ _ (Nf' (w ++ b)) ltac:(destruct a; [congruence|discriminate]) H').
  unfold result_of.
  assert (Em : map p_tok (l1 ++ map (later (size w)) l2) = map p_tok (l1 ++ l2)) by (rewrite !map_app, map_map; reflexivity).
  assert (El : length (l1 ++ map (later (size w)) l2) = length (l1 ++ l2)) by (rewrite !app_length, map_length; reflexivity).
  assert (Eb : match option_map (fun x => (x + size w)%N) bad with Some _ => true | None => false end = match bad with Some _ => true | None => false end) by (destruct bad; reflexivity).
  rewrite Em, El, Eb. destruct (run early _ _ [] _) as [e|rest| | |] eqn:R; try reflexivity.
  - set (i := length (l1 ++ l2) - length rest). destruct (Nat.lt_ge_cases i (length l1)) as [Hi|Hi].
    + rewrite !nth_error_app1 by exact Hi. destruct (nth_error l1 i) as [p|] eqn:Ep; [|apply nth_error_None in Ep; lia].
      rewrite Forall_forall in F1. destruct (F1 p (nth_error_In _ _ Ep)) as [P1 P2]. cbn. unfold move_start, move_end.
      rewrite (proj2 (N.ltb_lt _ _) P1), (proj2 (N.leb_le _ _) P2). reflexivity.
    + rewrite !nth_error_app2 by exact Hi. rewrite nth_error_map. destruct (nth_error l2 (i - length l1)) as [p|] eqn:Ep; cbn [option_map].
      * rewrite Forall_forall in F2. destruct (F2 p (nth_error_In _ _ Ep)) as [P1 P2]. cbn. unfold move_start, move_end.
        rewrite (proj2 (N.ltb_ge _ _) P1), (proj2 (N.leb_gt _ _) P2). reflexivity.
      * cbn [moved_result moved]. do 3 f_equal. unfold move_end. rewrite !last_end. destruct l2 as [|p l2] using rev_ind.
        -- cbn [map]. rewrite app_nil_r. destruct l1 as [|q l1] using rev_ind; [cbn [app]; rewrite (proj2 (N.leb_le 0 _) (N.le_0_l _)); reflexivity|]. rewrite last_last. destruct (l1 ++ [q]) eqn:Q; [destruct l1; discriminate Q|].
           rewrite <- Q in *. apply Forall_app in F1 as [_ F1]. inversion F1 as [|? ? [_ P] _]; subst. rewrite (proj2 (N.leb_le _ _) P). reflexivity.
        -- rewrite map_app. cbn [map]. rewrite !app_assoc, !last_last. apply Forall_app in F2 as [_ F2]. inversion F2 as [|? ? [_ P] _]; subst.
           destruct ((l1 ++ map (later (size w)) l2) ++ [later (size w) p]) eqn:Q1; [destruct (l1 ++ map (later (size w)) l2); discriminate Q1|].
           destruct ((l1 ++ l2) ++ [p]) eqn:Q2; [destruct (l1 ++ l2); discriminate Q2|]. rewrite (proj2 (N.leb_gt _ _) P). reflexivity.
  - destruct bad as [n|]; cbn [option_map moved_result moved].
    + specialize (F3 n eq_refl). unfold move_start. rewrite (proj2 (N.ltb_ge _ _) F3). reflexivity.
    + exfalso. revert R. generalize (S (11 * length (l1 ++ l2))) (@nil symbol) (map p_tok (l1 ++ l2)). clear. intros fuel. induction fuel as [|fuel IH]; intros g ts; cbn [run]; [discriminate|].
      assert (forall x : verdict, x = x) by reflexivity. destruct ts as [|t ts]; destruct (early g _); try discriminate; destruct (act g _); try discriminate; try apply IH; destruct g as [|[|[]] []]; discriminate.
Qed.

(** * The same formula *)
Lemma begins_tokens s ts r : begins s ts r -> forall ts', tokens_of s ts' <-> exists ts2, ts' = ts ++ ts2 /\ tokens_of r ts2.
Proof.
  induction 1 as [s|c s ts r W B IH|t w s ts r Sp Lg B IH]; intros ts'.
  - split; [exists ts'; auto|intros (ts2 & -> & T); exact T].
  - rewrite <- IH. split; [apply tokens_of_skip, W|intros T; apply to_white; assumption].
  - split.
    + intros T. destruct (any_scanned (w ++ s)) as (l & b & H). destruct (tokens_scanned _ _ T _ _ _ H) as [<- ->]. apply (scanned_token _ t w) in H as (l' & -> & H); [|exact Sp|exact Lg].
      apply scanned_tokens in H; [|reflexivity]. apply IH in H as (ts2 & E & T2). exists ts2. cbn [map p_tok app]. rewrite E. auto.
    + intros (ts2 & -> & T). cbn [app]. apply to_token; [exact Sp|exact Lg|]. apply IH. eauto.
Qed.
Lemma tokens_blanks w s ts : blanks w -> tokens_of (w ++ s) ts <-> tokens_of s ts.
Proof.
  induction w as [|c w IH]; intros B; [reflexivity|]. rewrite <- IH by (intros x I; apply B; right; exact I). assert (W : white c) by (apply B; left; reflexivity).
  split; [apply tokens_of_skip, W|intros T; apply to_white; assumption].
Qed.
Lemma spaced_tokens a b w ts : between a b -> blanks w -> tokens_of (a ++ w ++ b) ts <-> tokens_of (a ++ b) ts.
Proof.
  intros (ts1 & B) Bw. rewrite (begins_tokens _ _ _ B), (begins_tokens _ _ _ (begins_insert _ _ _ B a w eq_refl Bw)).
  split; intros (ts2 & -> & T); exists ts2; (split; [reflexivity|]); apply (tokens_blanks w b ts2 Bw); exact T.
Qed.
Theorem spaced_parse a b w : between a b -> blanks w -> formula_parse (a ++ w ++ b) = formula_parse (a ++ b).
Proof.
  intros Bt Bw.
  assert (H : forall e, formula_parse (a ++ w ++ b) = Some e <-> formula_parse (a ++ b) = Some e).
  { intros e. rewrite !formula_parse_iff.
    assert (Eb : blanks (a ++ w ++ b) <-> blanks (a ++ b)).
    { unfold blanks. split; intros H c I; [apply H|]; rewrite ?in_app_iff in *; [tauto|]. destruct I as [I|[I|I]]; [apply H|apply Bw; exact I|apply H]; rewrite ?in_app_iff; tauto. }
    rewrite Eb. assert (Et : (exists ts, tokens_of (a ++ w ++ b) ts /\ derives GExpr ts e) <-> (exists ts, tokens_of (a ++ b) ts /\ derives GExpr ts e)); [|tauto].
    split; intros (ts & T & D); exists ts; (split; [apply (spaced_tokens a b w ts Bt Bw); exact T|exact D]). }
  destruct (formula_parse (a ++ w ++ b)) as [e|]; [symmetry; apply H; reflexivity|]. destruct (formula_parse (a ++ b)) as [e|]; [apply H; reflexivity|reflexivity].
Qed.

(** * Parentheses *)
Lemma spelled_paren t w : spelled t w -> In 41%N w -> w = [41%N].
Proof.
  intros Sp I. apply spelled_cases in Sp as [L|(_ & _ & D)]; [|specialize (D _ I); lia].
  assert (F : forallb (fun p => negb (existsb (N.eqb 41) (fst p)) || str_eqb (fst p) [41%N]) lit_tokens = true) by reflexivity.
  rewrite forallb_forall in F. specialize (F _ L). cbn [fst] in F. apply orb_true_iff in F as [F|F]; [|apply str_eqb_eq in F; exact F].
  apply negb_true_iff in F. assert (existsb (N.eqb 41) w = true) by (apply existsb_exists; exists 41%N; auto using N.eqb_refl). congruence.
Qed.
Lemma longest_paren w a : w <> [] -> longest w a -> longest w (a ++ [41%N]).
Proof.
  intros Nw Lg t w' s' Sp E. assert (Le : length w' <= length (w ++ a)).
  { destruct (Nat.le_gt_cases (length w') (length (w ++ a))) as [|G]; [assumption|exfalso]. rewrite app_assoc in E.
    destruct (app_prefix _ _ _ _ E (Nat.lt_le_incl _ _ G)) as (e & -> & E'). destruct e as [|x e]; [rewrite app_nil_r in G; lia|]. injection E' as <- _.
    apply spelled_paren in Sp; [|apply in_or_app; right; left; reflexivity]. destruct w as [|y w]; [congruence|]. destruct w, a; discriminate Sp. }
  rewrite app_assoc in E. symmetry in E. destruct (app_prefix _ _ _ _ E Le) as (e & E1 & _). exact (Lg t w' e Sp E1).
Qed.
Theorem parenthesised s e : formula_parse s = Some e -> ~ blanks s -> formula_parse (40%N :: s ++ [41%N]) = Some e.
Proof.
  intros H Nb. apply formula_parse_iff in H as [[B _]|(_ & ts & T & D)]; [contradiction|]. apply formula_parse_iff. right. split.
  { intros B. specialize (B 40%N (or_introl eq_refl)). apply is_ws_white in B. discriminate B. }
  exists (TLParen :: ts ++ [TRParen]). split.
  - apply (to_token TLParen [40%N]); [constructor| |].
    { intros t w s' Sp E. apply spelled_cases in Sp as [L|(_ & Nw & Dg)]; [|destruct w as [|x w]; [congruence|]; injection E as <- _; specialize (Dg _ (or_introl eq_refl)); lia].
      assert (F : forallb (fun p => match fst p with x :: _ => negb (N.eqb x 40) || Nat.eqb (length (fst p)) 1 | [] => true end) lit_tokens = true) by reflexivity.
      rewrite forallb_forall in F. specialize (F _ L). cbn [fst] in F. destruct w as [|x w]; [cbn; lia|]. injection E as <- _. rewrite N.eqb_refl in F; cbn [negb orb] in F; apply Nat.eqb_eq in F. exact (Nat.eq_le_incl _ _ F). }
    clear D Nb. induction T as [|c s ts W T IH|t w s ts Sp Lg T IH].
    + apply (to_token TRParen [41%N] [] []); [constructor| |constructor]. intros t w s' Sp E. apply (f_equal (@length _)) in E. rewrite !app_length in E. cbn [length] in *. lia.
    + cbn [app]. apply to_white; assumption.
    + rewrite <- app_assoc. cbn [app]. apply to_token; [exact Sp| |exact IH]. apply longest_paren; [|exact Lg]. destruct (spelled_head _ _ Sp) as (x & r & -> & _). discriminate.
  - apply d_expr, d_or, d_and, d_logical, d_not, d_add, d_mul, d_factor, d_paren. exact D.
Qed.


(** * Examples *)
Lemma begins_literal s t r ts q : match s with c :: _ => is_digit c = false | [] => True end -> lex_literal s = Some (t, r) -> begins r ts q -> begins s (t :: ts) q.
Proof.
  intros D E B. apply lex_literal_iff in E as (w & -> & Sp & Lg); [apply bg_token; assumption|]. intros c s' Es. rewrite Es in D. exact D.
Qed.
Lemma between_examples : between (lit "n>") (lit " =1") /\ between (lit "n") (lit ">=1") /\ between (lit "n ") (lit ">=1") /\ between (lit "n>=") (lit "1").
Proof.
  assert (W : white 32%N) by (apply is_ws_white; reflexivity).
  split; [|split; [|split]]; eexists; (eapply begins_literal; [reflexivity|vm_compute; reflexivity|]).
  - eapply begins_literal; [reflexivity|vm_compute; reflexivity|constructor].
  - constructor.
  - apply bg_white; [exact W|constructor].
  - eapply begins_literal; [reflexivity|vm_compute; reflexivity|constructor].
Qed.
