(** Debug texts on several lines. *)
From Coq Require Import String Arith NArith ZArith Bool List Lia Permutation.
From Verif Require Import ModelBase ModelLine ModelFormula ModelData ModelDebug ModelPretty SpecPretty SpecLine BaseFacts DecFacts DebugFacts DebugThms.
Import ListNotations.
Local Open Scope N_scope.

(** * Induction *)
Lemma data_induction (P : data -> Prop) : (forall s, P (DAtom s)) -> (forall name fs, Forall (fun f => P (snd f)) fs -> P (DFields name fs)) ->
  (forall name vs, Forall P vs -> P (DArgs name vs)) -> (forall vs, Forall P vs -> P (DList vs)) -> (forall vs, Forall P vs -> P (DSet vs)) -> forall d, P d.
Proof.
  intros HA HF HG HL HS. fix IH 1. intros [s|name fs|name vs|vs|vs].
  - apply HA.
  - apply HF. induction fs as [|f fs IHf]; constructor; [apply IH|exact IHf].
  - apply HG. induction vs as [|v vs IHv]; constructor; [apply IH|exact IHv].
  - apply HL. induction vs as [|v vs IHv]; constructor; [apply IH|exact IHv].
  - apply HS. induction vs as [|v vs IHv]; constructor; [apply IH|exact IHv].
Qed.

(** * Padding *)
Lemma pad_free s : ~ In 10 s -> forall r, pad false (s ++ r) = s ++ pad false r.
Proof.
  induction s as [|c s IH]; intros N r; [reflexivity|]. cbn [app pad]. destruct (N.eqb_spec c 10) as [->|_]; [exfalso; apply N; left; reflexivity|].
  rewrite IH; [reflexivity|]. intros I. apply N. right. exact I.
Qed.
Lemma pad_feed s : pad false (10 :: s) = 10 :: pad true s.
Proof. reflexivity. Qed.
Lemma pad_fresh s : s <> [] -> pad true s = lit "    " ++ pad false s.
Proof. destruct s as [|c s]; [contradiction|]. reflexivity. Qed.
Lemma indent_free k : ~ In 10 (indent k).
Proof. intros I. apply repeat_spec in I. discriminate. Qed.
Lemma indent_more k : lit "    " ++ indent k = indent (S k).
Proof. unfold indent. replace (4 * S k)%nat with (4 + 4 * k)%nat by lia. reflexivity. Qed.
(** What is padded again is moved to the right. *)
Definition moves (p p' : str) : Prop := forall q, pad false (p ++ q) = p' ++ pad false q.
Lemma free_moves s : ~ In 10 s -> moves s s.
Proof. intros N q. exact (pad_free s N q). Qed.
Lemma moves_app a a' b b' : moves a a' -> moves b b' -> moves (a ++ b) (a' ++ b').
Proof. intros A B q. rewrite <- app_assoc, A, B, app_assoc. reflexivity. Qed.
Lemma on_lines_moves k ps ps' close : Forall2 moves ps ps' -> ~ In 10 close -> close <> [] -> moves (on_lines k ps ++ close) (on_lines (S k) ps' ++ close).
Proof.
  intros F N NE. assert (forall x, x <> [] -> pad true (indent k ++ x) = indent (S k) ++ pad false x) as G.
  { intros x X. rewrite pad_fresh by (intros E; apply app_eq_nil in E as [_ E]; contradiction). rewrite pad_free by apply indent_free. rewrite app_assoc, indent_more. reflexivity. }
  destruct F as [|p0 p0' ps ps' M F]; [exact (free_moves _ N)|]. intros q. unfold on_lines. cbn [app]. rewrite pad_feed. f_equal.
  assert (Forall2 moves (p0 :: ps) (p0' :: ps')) as F' by (constructor; assumption). revert F'. generalize (p0 :: ps) (p0' :: ps'). clear - G N NE.
  intros ps ps' F. induction F as [|p p' ps ps' M F IH]; cbn [flat_map app].
  - rewrite <- !app_assoc. rewrite G by (intros E; apply app_eq_nil in E as [E _]; contradiction). rewrite pad_free by exact N. reflexivity.
  - rewrite <- !app_assoc. rewrite pad_fresh by discriminate. rewrite pad_free by apply indent_free. rewrite M.
    change (pad false (lit "," ++ [10] ++ ?x)) with (lit "," ++ [10] ++ pad true x).
    rewrite <- !app_assoc in IH. rewrite IH. rewrite (app_assoc (lit "    ")), indent_more. reflexivity.
Qed.
Lemma word_free s : word_text s -> ~ In 10 s.
Proof. intros [_ H] I. apply H in I. unfold word_char in I. lia. Qed.
Lemma inside_free q s : inside q s -> ~ In 10 s.
Proof. intros H. induction H as [|c s N1 N2 N3 _ IH|c s N _ IH]; intros I; cbn in I; intuition congruence. Qed.
Lemma atom_free s : atom_text s -> ~ In 10 s.
Proof.
  intros [s' W|q s' Q I]; [apply word_free; exact W|]. intros J. assert (q <> 10) as N by (cbn in Q; intuition congruence).
  cbn [In] in J. destruct J as [J|J]; [congruence|]. apply in_app_or in J as [J|[J|[]]]; [exact (inside_free _ _ I J)|congruence].
Qed.
Lemma lit_free s : forallb (fun c => negb (c =? 10)) (lit s) = true -> ~ In 10 (lit s).
Proof. exact (oneline_lit (lit s)). Qed.
Lemma Forall2_maps {A B C} (P : B -> C -> Prop) (f : A -> B) (g : A -> C) l : Forall (fun x => P (f x) (g x)) l -> Forall2 P (map f l) (map g l).
Proof. intros H. induction H; constructor; assumption. Qed.
Lemma lined_moves d : proper d -> forall k, moves (lined_text k d) (lined_text (S k) d).
Proof.
  induction d as [s|name fs IH|name vs IH|vs IH|vs IH] using data_induction; intros P k; inversion P as [s' A|n' f' W NE Wf Pf|n' v' W NE Pv|v' Pv|v' Pv]; subst; cbn [lined_text].
  - apply free_moves, atom_free, A.
  - apply moves_app; [apply free_moves, word_free, W|]. apply moves_app; [apply free_moves, lit_free; reflexivity|]. apply on_lines_moves; [|apply lit_free; reflexivity|discriminate].
    apply Forall2_maps. rewrite Forall_forall in *. intros f I. apply moves_app; [apply free_moves, word_free, Wf, I|]. apply moves_app; [apply free_moves, lit_free; reflexivity|].
    apply IH; [exact I|apply Pf; exact I].
  - apply moves_app; [apply free_moves, word_free, W|]. apply moves_app; [apply free_moves, lit_free; reflexivity|]. apply on_lines_moves; [|apply lit_free; reflexivity|discriminate].
    apply Forall2_maps. rewrite Forall_forall in *. intros f I. apply IH; [exact I|apply Pv; exact I].
  - apply moves_app; [apply free_moves, lit_free; reflexivity|]. apply on_lines_moves; [|apply lit_free; reflexivity|discriminate].
    apply Forall2_maps. rewrite Forall_forall in *. intros f I. apply IH; [exact I|apply Pv; exact I].
  - apply moves_app; [apply free_moves, lit_free; reflexivity|]. apply on_lines_moves; [|apply lit_free; reflexivity|discriminate].
    apply Forall2_maps. rewrite Forall_forall in *. intros f I. apply IH; [exact I|apply Pv; exact I].
Qed.
(** So the builders of std make the text on several lines. *)
Lemma pad_part d p : proper d -> ~ In 10 p -> pad true (p ++ lined_text 0 d ++ comma_lf) = indent 1 ++ (p ++ lined_text 1 d) ++ lit "," ++ [10].
Proof.
  intros P N. rewrite pad_fresh by (intros E; apply app_eq_nil in E as [_ E]; apply app_eq_nil in E as [_ E]; discriminate).
  rewrite pad_free by exact N. rewrite (lined_moves d P 0). rewrite <- app_assoc. reflexivity.
Qed.
Lemma flat_map_ext_in' {A B} (f g : A -> list B) l : (forall x, In x l -> f x = g x) -> flat_map f l = flat_map g l.
Proof. induction l as [|x l IH]; intros H; [reflexivity|]. cbn [flat_map]. rewrite H by (left; reflexivity). rewrite IH; [reflexivity|]. intros y I. apply H. right. exact I. Qed.
Lemma flat_map_map' {A B C} (f : A -> B) (g : B -> list C) l : flat_map g (map f l) = flat_map (fun x => g (f x)) l.
Proof. induction l as [|x l IH]; [reflexivity|]. cbn [map flat_map]. rewrite IH. reflexivity. Qed.
Lemma struct_lined name fs : proper (DFields name fs) -> pretty_struct name (map (fun f => (fst f, lined_text 0 (snd f))) fs) = lined_text 0 (DFields name fs).
Proof.
  intros P. inversion P as [|n' f' W NE Wf Pf| | |]; subst. cbn [lined_text]. unfold pretty_struct, on_lines. rewrite Forall_forall in *.
  destruct fs as [|f0 fs0]; [contradiction|]. cbn [map]. f_equal. f_equal. rewrite <- app_assoc. f_equal. rewrite <- app_assoc. f_equal.
  change ((fst f0, lined_text 0 (snd f0)) :: map (fun f => (fst f, lined_text 0 (snd f))) fs0) with (map (fun f => (fst f, lined_text 0 (snd f))) (f0 :: fs0)).
  change ((fst f0 ++ lit ": " ++ lined_text 1 (snd f0)) :: map (fun f => fst f ++ lit ": " ++ lined_text 1 (snd f)) fs0) with (map (fun f => fst f ++ lit ": " ++ lined_text 1 (snd f)) (f0 :: fs0)).
  rewrite !flat_map_map'. apply flat_map_ext_in'. intros f I. cbn [fst snd].
  assert (~ In 10 (fst f ++ lit ": ")) as N by (intros J; apply in_app_or in J as [J|J]; [exact (word_free _ (Wf f I) J)|cbn in J; intuition discriminate]).
  pose proof (pad_part (snd f) (fst f ++ lit ": ") (Pf f I) N) as X. rewrite <- !app_assoc in X. rewrite <- !app_assoc. exact X.
Qed.
Lemma parts_lined vs : Forall proper vs -> flat_map (fun v => pad true (v ++ comma_lf)) (map (lined_text 0) vs) = flat_map (fun p => indent 1 ++ p ++ lit "," ++ [10]) (map (lined_text 1) vs).
Proof.
  intros P. rewrite Forall_forall in P. rewrite !flat_map_map'. apply flat_map_ext_in'. intros v I. exact (pad_part v [] (P v I) (fun J => J)).
Qed.
Lemma args_lined name vs : proper (DArgs name vs) -> pretty_tuple name (map (lined_text 0) vs) = lined_text 0 (DArgs name vs).
Proof.
  intros P. inversion P as [| |n' v' W NE Pv| |]; subst. cbn [lined_text]. unfold pretty_tuple, on_lines. rewrite parts_lined by exact Pv.
  destruct vs as [|v vs]; [contradiction|]. cbn [map]. rewrite <- !app_assoc. reflexivity.
Qed.
Lemma items_lined open close vs : Forall proper vs -> pretty_items open close (map (lined_text 0) vs) = open ++ on_lines 0 (map (lined_text 1) vs) ++ close.
Proof. intros P. unfold pretty_items, on_lines. rewrite parts_lined by exact P. destruct vs as [|v vs]; [reflexivity|]. cbn [map]. rewrite <- !app_assoc. reflexivity. Qed.

(** * Reading a text on several lines *)
(** What comes after a value: a comma, or nothing. *)
Definition after (r : str) : Prop := match r with [] => True | c :: _ => c = 44 end.
Lemma word_cut a : forall b r s, (forall c, In c a -> word_char c) -> (forall c, In c b -> word_char c) -> (forall c t, r = c :: t -> ~ word_char c) -> (forall c t, s = c :: t -> ~ word_char c) ->
  a ++ r = b ++ s -> a = b /\ r = s.
Proof.
  induction a as [|x a IH]; intros [|y b] r s A B R S E; cbn [app] in E.
  - auto.
  - exfalso. apply (R y (b ++ s) E). apply B. left. reflexivity.
  - exfalso. symmetry in E. apply (S x (a ++ r) E). apply A. left. reflexivity.
  - injection E as -> E. destruct (IH b r s) as [-> ->]; auto; intros c I; [apply A|apply B]; right; exact I.
Qed.
Lemma inside_cut q a : q <> 92 -> inside q a -> forall b r s, inside q b -> a ++ q :: r = b ++ q :: s -> a = b /\ r = s.
Proof.
  intros Q A. induction A as [|c a N1 N2 N3 A IH|c a N A IH]; intros b r s [|c' b' M1 M2 M3 B|c' b' M B] E; cbn [app] in E; injection E; intros; subst; try congruence; auto.
  - destruct (IH b' r s B) as [-> ->]; auto.
  - destruct (IH b' r s B) as [-> ->]; auto.
Qed.
Lemma not_word c : In c [32; 40; 44; 58] -> ~ word_char c.
Proof. intros I W. unfold word_char in W. cbn in I. intuition lia. Qed.
Lemma quote_not_word c : In c [34; 39; 91; 123] -> ~ word_char c.
Proof. intros I W. unfold word_char in W. cbn in I. intuition lia. Qed.
Lemma word_starts w r c t : word_text w -> w ++ r = c :: t -> word_char c.
Proof. intros [NE H] E. destruct w as [|x w]; [contradiction|]. injection E as -> _. apply H. left. reflexivity. Qed.
Lemma lines_cut {A} (f : A -> str) k close (Q : A -> Prop) : ~ In close [32; 10] ->
  forall l m r s, l <> [] -> m <> [] -> (forall x, In x l -> forall y t u, Q y -> after t -> after u -> f x ++ t = f y ++ u -> x = y /\ t = u) -> Forall Q m ->
  on_lines k (map f l) ++ close :: r = on_lines k (map f m) ++ close :: s -> l = m /\ r = s.
Proof.
  intros C l m r s Nl Nm H HQ E. assert (forall l, l <> [] -> on_lines k (map f l) = [10] ++ flat_map (fun p => indent (S k) ++ p ++ lit "," ++ [10]) (map f l) ++ indent k) as U by (intros [|x l']; [contradiction|reflexivity]).
  rewrite !U in E by assumption. rewrite <- !app_assoc in E. apply (app_inv_head [10]) in E. clear U Nl Nm.
  assert (forall x b, indent (S k) ++ x <> indent k ++ close :: b) as N.
  { intros x b E'. rewrite <- indent_more in E'. change (lit "    ") with (repeat 32 4) in E'. unfold indent in E'. rewrite <- repeat_app in E'. replace (4 + 4 * k)%nat with (4 * k + 4)%nat in E' by lia.
    rewrite repeat_app, <- app_assoc in E'. apply app_inv_head in E'. injection E' as E' _. apply C. left. exact E'. }
  revert m HQ E. induction l as [|x l IH]; intros [|y m] HQ E; cbn [map flat_map] in E; rewrite <- ?app_assoc in E.
  - apply (app_inv_head (indent k)) in E. injection E as ->. auto.
  - exfalso. symmetry in E. exact (N _ _ E).
  - exfalso. exact (N _ _ E).
  - apply (app_inv_head (indent (S k))) in E. inversion HQ as [|y' m' Qy Qm]; subst. destruct (H x (or_introl eq_refl) y _ _ Qy (eq_refl : after (44 :: _)) (eq_refl : after (44 :: _)) E) as [-> E2].
    apply (app_inv_head (lit ",")) in E2. apply (app_inv_head [10]) in E2. destruct (IH (fun x I => H x (or_intror I)) m Qm E2) as [-> ->]. auto.
Qed.
Lemma lines_empty {A} (f : A -> str) k close : ~ In close [32; 10] -> forall l r s, close :: r = on_lines k (map f l) ++ close :: s -> l = [] /\ r = s.
Proof.
  intros C [|x l] r s E; cbn [map on_lines app] in E; [injection E as ->; auto|]. injection E as E _. exfalso. apply C. right. left. auto.
Qed.
Lemma seq_cut {A} (f : A -> str) k close (Q : A -> Prop) : ~ In close [32; 10] ->
  forall l m r s, (forall x, In x l -> forall y t u, Q y -> after t -> after u -> f x ++ t = f y ++ u -> x = y /\ t = u) -> Forall Q m ->
  on_lines k (map f l) ++ close :: r = on_lines k (map f m) ++ close :: s -> l = m /\ r = s.
Proof.
  intros C l m r s H HQ E. destruct l as [|x l], m as [|y m].
  - cbn in E. injection E as ->. auto.
  - apply lines_empty in E as [E _]; [discriminate|exact C].
  - symmetry in E. apply lines_empty in E as [E _]; [discriminate|exact C].
  - apply (lines_cut f k close Q C) in E; [exact E|discriminate|discriminate|exact H|exact HQ].
Qed.
(** The kinds of texts: with a quote, with a bracket, or with a word and what comes after it. *)
Lemma lined_cut d : proper d -> forall k d' r s, proper d' -> after r -> after s -> lined_text k d ++ r = lined_text k d' ++ s -> d = d' /\ r = s.
Proof.
  assert (forall r, after r -> forall c t, r = c :: t -> ~ word_char c) as AW by (intros r R c t ->; apply not_word; cbn in *; auto).
  assert (forall w w' x y, word_text w -> word_text w' -> (forall c t, x = c :: t -> ~ word_char c) -> (forall c t, y = c :: t -> ~ word_char c) -> w ++ x = w' ++ y -> w = w' /\ x = y) as WC.
  { intros w w' x y W W' X Y E. exact (word_cut w w' x y (proj2 W) (proj2 W') X Y E). }
  assert (forall c x, In c [32; 40; 44; 58] -> forall c' t, c :: x = c' :: t -> ~ word_char c') as HW by (intros c x I c' t [= <- _]; apply not_word; exact I).
  assert (forall w x c t, word_text w -> In c [34; 39; 91; 123] -> w ++ x <> c :: t) as WN by (intros w x c t W I E; exact (quote_not_word c I (word_starts w x c t W E))).
  assert (forall x, In 40 [32; 40; 44; 58] -> forall c t, lit "(" ++ x = c :: t -> ~ word_char c) as H40 by (intros x I; exact (HW 40 x I)).
  assert (forall x c t, lit " {" ++ x = c :: t -> ~ word_char c) as H32 by (intros x; exact (HW 32 (lit "{" ++ x) (or_introl eq_refl))).
  assert (forall x c t, lit ": " ++ x = c :: t -> ~ word_char c) as H58 by (intros x; exact (HW 58 (lit " " ++ x) ltac:(cbn; auto))).
  specialize (fun x => H40 x ltac:(cbn; auto)).
  induction d as [a|name fs IH|name vs IH|vs IH|vs IH] using data_induction; intros P k d' r s P' R S E;
    inversion P as [a' A|n1 f1 W NE Wf Pf|n1 v1 W NE Pv|v1 Pv|v1 Pv]; subst; inversion P' as [b B|n2 f2 W' NE' Wf' Pf'|n2 v2 W' NE' Pv'|v2 Pv'|v2 Pv']; subst; cbn [lined_text] in E; rewrite <- ?app_assoc in E.
  - (* atoms *) destruct A as [a W|q a Q A], B as [b W'|q' b Q' B].
    + destruct (WC a b r s W W' (AW r R) (AW s S) E) as [-> ->]; auto.
    + exfalso. refine (WN a r q' _ W _ E). cbn in *. tauto.
    + exfalso. symmetry in E. refine (WN b s q _ W' _ E). cbn in *. tauto.
    + cbn [app] in E. rewrite <- !app_assoc in E. injection E as -> E. assert (q' <> 92) as N by (cbn in Q'; intuition congruence).
      destruct (inside_cut q' a N A b r s B E) as [-> ->]. auto.
  - exfalso. destruct A as [a W|q a Q A].
    + destruct (WC a n2 r _ W W' (AW r R) (H32 _) E) as [_ ->]. cbn in R. discriminate.
    + symmetry in E. refine (WN n2 _ q _ W' _ E). cbn in *. tauto.
  - exfalso. destruct A as [a W|q a Q A].
    + destruct (WC a n2 r _ W W' (AW r R) (H40 _) E) as [_ ->]. cbn in R. discriminate.
    + symmetry in E. refine (WN n2 _ q _ W' _ E). cbn in *. tauto.
  - exfalso. destruct A as [a W|q a Q A].
    + refine (WN a _ 91 _ W _ E). cbn. tauto.
    + injection E as -> _. cbn in Q. intuition discriminate.
  - exfalso. destruct A as [a W|q a Q A].
    + refine (WN a _ 123 _ W _ E). cbn. tauto.
    + injection E as -> _. cbn in Q. intuition discriminate.
  - (* fields *) exfalso. destruct B as [b W'|q b Q B].
    + destruct (WC name b _ s W W' (H32 _) (AW s S) E) as [_ <-]. cbn in S. discriminate.
    + refine (WN name _ q _ W _ E). cbn in *. tauto.
  - destruct (WC name n2 _ _ W W' (H32 _) (H32 _) E) as [-> E2]. apply (app_inv_head (lit " {")) in E2.
    destruct (seq_cut (fun f => fst f ++ lit ": " ++ lined_text (Datatypes.S k) (snd f)) k 125 (fun f => word_text (fst f) /\ proper (snd f)) ltac:(cbn; intuition discriminate) fs f2 r s) as [-> ->]; [| |exact E2|auto].
    + intros [k1 v1] I [k2 v2] t u [Q1 Q2] T U E3. cbn [fst snd] in *. rewrite Forall_forall in *. rewrite <- !app_assoc in E3.
      destruct (WC k1 k2 _ _ (Wf _ I) Q1 (H58 _) (H58 _) E3) as [-> E4]. apply (app_inv_head (lit ": ")) in E4.
      destruct (IH _ I (Pf _ I) (Datatypes.S k) v2 t u Q2 T U E4) as [E5 ->]. cbn in E5. subst. auto.
    + rewrite Forall_forall in *. auto.
  - exfalso. destruct (WC name n2 _ _ W W' (H32 _) (H40 _) E) as [_ E2]. discriminate.
  - exfalso. refine (WN name _ 91 _ W _ E). cbn. tauto.
  - exfalso. refine (WN name _ 123 _ W _ E). cbn. tauto.
  - (* arguments *) exfalso. destruct B as [b W'|q b Q B].
    + destruct (WC name b _ s W W' (H40 _) (AW s S) E) as [_ <-]. cbn in S. discriminate.
    + refine (WN name _ q _ W _ E). cbn in *. tauto.
  - exfalso. destruct (WC name n2 _ _ W W' (H40 _) (H32 _) E) as [_ E2]. discriminate.
  - destruct (WC name n2 _ _ W W' (H40 _) (H40 _) E) as [-> E2]. apply (app_inv_head (lit "(")) in E2.
    destruct (seq_cut (lined_text (Datatypes.S k)) k 41 proper ltac:(cbn; intuition discriminate) vs v2 r s) as [-> ->]; [|exact Pv'|exact E2|auto].
    intros x I y t u Q1 T U E3. rewrite Forall_forall in *. exact (IH _ I (Pv _ I) _ y t u Q1 T U E3).
  - exfalso. refine (WN name _ 91 _ W _ E). cbn. tauto.
  - exfalso. refine (WN name _ 123 _ W _ E). cbn. tauto.
  - (* lists *) exfalso. destruct B as [b W'|q b Q B].
    + symmetry in E. refine (WN b _ 91 _ W' _ E). cbn. tauto.
    + injection E as <- _. cbn in Q. intuition discriminate.
  - exfalso. symmetry in E. refine (WN n2 _ 91 _ W' _ E). cbn. tauto.
  - exfalso. symmetry in E. refine (WN n2 _ 91 _ W' _ E). cbn. tauto.
  - apply (app_inv_head (lit "[")) in E.
    destruct (seq_cut (lined_text (Datatypes.S k)) k 93 proper ltac:(cbn; intuition discriminate) vs v2 r s) as [-> ->]; [|exact Pv'|exact E|auto].
    intros x I y t u Q1 T U E3. rewrite Forall_forall in *. exact (IH _ I (Pv _ I) _ y t u Q1 T U E3).
  - exfalso. discriminate.
  - (* sets *) exfalso. destruct B as [b W'|q b Q B].
    + symmetry in E. refine (WN b _ 123 _ W' _ E). cbn. tauto.
    + injection E as <- _. cbn in Q. intuition discriminate.
  - exfalso. symmetry in E. refine (WN n2 _ 123 _ W' _ E). cbn. tauto.
  - exfalso. symmetry in E. refine (WN n2 _ 123 _ W' _ E). cbn. tauto.
  - exfalso. discriminate.
  - apply (app_inv_head (lit "{")) in E.
    destruct (seq_cut (lined_text (Datatypes.S k)) k 125 proper ltac:(cbn; intuition discriminate) vs v2 r s) as [-> ->]; [|exact Pv'|exact E|auto].
    intros x I y t u Q1 T U E3. rewrite Forall_forall in *. exact (IH _ I (Pv _ I) _ y t u Q1 T U E3).
Qed.
