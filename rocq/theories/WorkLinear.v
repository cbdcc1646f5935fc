(** The work of the reader is linear in the size of what is read, for a given number of forms (C49). *)
From Coq Require Import String Arith NArith Bool List Lia.
From Verif Require Import ModelBase ModelUtf8 ModelLine ModelFormula ModelData ModelSource ModelReader ModelWork
  SpecLine SpecSource SpecReader SpecBlock SpecFile SpecWork BaseFacts LineFacts SourceFacts IterFacts CallFacts PieceFacts SpecSize SizeFacts StreamThms ReaderFacts WorkFacts WorkThms.
Import ListNotations.
Local Open Scope nat_scope.

Section Linear.
  Variable w : po_line -> nat.
  (** The weight of what is still to be read, and of the line that comes next. *)
  Definition weight1 (x : option item) : nat := match x with Some (ILine l) => 2 + w l | _ => 3 end.
  Definition weight (ls : lines) : nat := total (map weight1 ls).
  Definition hdw (ls : lines) : nat := match ls with Some (ILine l) :: _ => w l | _ => 0 end.
  (** [k] looks at the next line, besides what is paid for the lines taken. *)
  Definition lin {A} (ls : lines) (k : nat) (m : A * lines * nat) : Prop :=
    let ls' := snd (fst m) in
    exists D, weight ls = D + weight ls' /\ ((D = 0 /\ ls' = ls) \/ hdw ls <= D) /\ snd m <= (k + 1) * D + k * (3 + hdw ls').
  Lemma hdw_le ls : hdw ls <= weight ls.
  Proof. destruct ls as [|[[l|e]|] ls]; cbn; lia. Qed.
  Lemma weight_cons x ls : weight (x :: ls) = weight1 x + weight ls.
  Proof. reflexivity. Qed.

  Lemma lin_bind {A B} ls k1 k2 (m : wres A) (f : A -> lines -> wres B) :
    lin ls k1 m -> (forall a ls', lin ls' k2 (f a ls')) -> lin ls (k1 + k2) (wbind m f).
  Proof.
    intros (D & E & H & C) F. destruct m as [[[a|e|] ls'] c]; cbn [wbind fst snd] in *.
    - destruct (F a ls') as (D' & E' & H' & C'). destruct (f a ls') as [[x ls2] c']. cbn [fst snd] in *. exists (D + D'). cbn [fst snd].
      assert (hdw ls' <= D' + hdw ls2) as L by (destruct H' as [[-> ->]|H']; lia).
      split; [lia|]. split.
      + destruct H as [[-> ->]|H]; [|right; lia]. destruct H' as [[-> ->]|H']; [left; auto|right; lia].
      + assert (k1 * (3 + hdw ls') <= k1 * (3 + hdw ls2) + k1 * D') by nia. nia.
    - exists D. cbn [fst snd]. split; [exact E|]. split; [exact H|]. nia.
    - exists D. cbn [fst snd]. split; [exact E|]. split; [exact H|]. nia.
  Qed.
  Lemma lin_ret {A} (a : A) ls k : lin ls k (a, ls, 0).
  Proof. exists 0. cbn. split; [reflexivity|]. split; [left; auto|lia]. Qed.
  Lemma lin_more {A} ls k k' (m : A * lines * nat) : lin ls k m -> k <= k' -> lin ls k' m.
  Proof. intros (D & E & H & C) L. exists D. split; [exact E|]. split; [exact H|]. nia. Qed.

  Lemma append_conts_lin prefix ls : forall string, exists D, let m := append_conts_w w prefix string ls in
    weight ls = D + weight (snd (fst m)) /\ ((D = 0 /\ snd (fst m) = ls) \/ hdw ls <= D) /\ snd m <= D + 2 + hdw (snd (fst m)).
  Proof.
    induction ls as [|[[l|e]|] ls IH]; intros string; cbn [append_conts_w].
    - exists 0. cbn. split; [reflexivity|]. split; [left; auto|lia].
    - assert (forall x : outcome (option str), exists D, weight (Some (ILine l) :: ls) = D + weight (snd (fst (x, Some (ILine l) :: ls, 1 + w l)))
        /\ ((D = 0 /\ snd (fst (x, Some (ILine l) :: ls, 1 + w l)) = Some (ILine l) :: ls) \/ hdw (Some (ILine l) :: ls) <= D)
        /\ snd (x, Some (ILine l) :: ls, 1 + w l) <= D + 2 + hdw (snd (fst (x, Some (ILine l) :: ls, 1 + w l)))) as K.
      { intros x. exists 0. cbn [fst snd hdw]. split; [reflexivity|]. split; [left; auto|lia]. }
      destruct l as [|n k c|n q t c|n q c]; try apply K. destruct (str_eqb _ _); [|apply K].
      destruct (IH (string ++ c)) as (D & E & H & C). exists (2 + w (PCont n q c) + D). unfold tick. cbn [fst snd]. cbn [hdw].
      rewrite weight_cons. cbn [weight1]. split; [lia|]. split; [right; lia|lia].
    - exists 3. cbn [fst snd hdw]. rewrite weight_cons. cbn [weight1]. split; [lia|]. split; [right; lia|lia].
    - exists 3. cbn [fst snd hdw]. rewrite weight_cons. cbn [weight1]. split; [lia|]. split; [right; lia|lia].
  Qed.
  Lemma parse_msg_lin obs tag ls : lin ls 1 (parse_msg_w w obs tag ls).
  Proof.
    unfold parse_msg_w, lin. destruct ls as [|[[l|e]|] ls]; cbn [fetch_next_w peek hd next tl wbind].
    - exists 0. cbn. split; [reflexivity|]. split; [left; auto|lia].
    - assert (forall x : outcome (option str), lin (Some (ILine l) :: ls) 1 (x, Some (ILine l) :: ls, 1 + w l + 0)) as K.
      { intros x. exists 0. cbn [fst snd hdw]. split; [reflexivity|]. split; [left; auto|lia]. }
      destruct l as [|n k c|n q t c|n q c]; try apply K. destruct (_ && _); [|apply K].
      destruct (append_conts_lin q ls c) as (D & E & H & C). unfold tick. destruct (append_conts_w w q c ls) as [[x ls'] c']. cbn [fst snd] in *.
      exists (2 + w (PMessage n q t c) + D). cbn [fst snd hdw]. rewrite weight_cons. cbn [weight1]. split; [lia|]. split; [right; lia|lia].
    - exists 3. cbn [fst snd hdw]. rewrite weight_cons. cbn [weight1]. split; [lia|]. split; [right; lia|lia].
    - exists 3. cbn [fst snd hdw]. rewrite weight_cons. cbn [weight1]. split; [lia|]. split; [right; lia|lia].
  Qed.
  Lemma parse_msg_takes obs tag ls v ls' : fst (parse_msg_w w obs tag ls) = (Ok (Some v), ls') -> weight ls' < weight ls.
  Proof.
    unfold parse_msg_w. destruct ls as [|[[l|e]|] ls]; cbn [fetch_next_w peek hd next tl wbind fst]; try discriminate.
    destruct l as [|n k c|n q t c|n q c]; cbn [fst]; try discriminate. destruct (_ && _); [|discriminate].
    destruct (append_conts_lin q ls c) as (D & E & H & C). unfold tick. destruct (append_conts_w w q c ls) as [[x ls2] c']. cbn [fst snd] in *.
    intros [= -> ->]. rewrite weight_cons. cbn [weight1]. lia.
  Qed.
  Lemma expected_lin exp ls : lin ls 1 (expected_w exp ls).
  Proof.
    unfold expected_w. destruct ls as [|[[l|e]|] ls].
    - exists 0. cbn. split; [reflexivity|]. split; [left; auto|lia].
    - exists 0. destruct l; cbn [peek expected hd fst snd hdw]; (split; [reflexivity|]); (split; [left; auto|lia]).
    - exists 3. cbn [peek expected hd next tl fst snd hdw]. rewrite weight_cons. cbn [weight1]. split; [lia|]. split; [right; lia|lia].
    - exists 0. cbn [peek expected hd fst snd hdw]. split; [reflexivity|]. split; [left; auto|lia].
  Qed.
  Lemma parse_values_lin obs k : forall i vs ls, lin ls k (parse_values_w w obs k i vs ls).
  Proof.
    induction k as [|k IH]; intros i vs ls; cbn [parse_values_w]; [apply lin_ret|].
    change (S k) with (1 + k). apply lin_bind; [apply parse_msg_lin|]. intros v ls'. apply IH.
  Qed.
  Lemma new_message_lin forms obs id pl ls K : N.to_nat (forms_count forms) <= K -> 1 <= K -> lin ls (K + 1) (new_message_w w forms obs id pl ls).
  Proof.
    intros HK K1. unfold new_message_w. destruct id as [id|]; [|apply lin_ret]. destruct pl as [pl|].
    - apply lin_more with (N.to_nat (forms_count forms) + 1); [|lia]. apply lin_bind; [apply parse_values_lin|]. intros vs ls'.
      destruct (is_empty vs); [|apply lin_ret]. apply (lin_bind ls' 1 0); [apply expected_lin|]. intros a ls2. apply lin_ret.
    - apply lin_more with (1 + 1); [|lia]. apply lin_bind; [apply parse_msg_lin|]. intros [t|] ls'; [apply lin_ret|].
      apply (lin_bind ls' 1 0); [apply expected_lin|]. intros a ls2. apply lin_ret.
  Qed.
  Lemma parse_message_fields_lin forms first u ls K : N.to_nat (forms_count forms) <= K -> 1 <= K ->
    lin ls (K + 7) (parse_message_fields_w w forms first u ls).
  Proof.
    intros HK K1. unfold parse_message_fields_w. cbv zeta. replace (K + 7) with (1 + (1 + (1 + (1 + (1 + (K + 2)))))) by lia.
    apply lin_bind; [apply parse_msg_lin|]. clear ls. intros pc ls.
    apply lin_bind; [apply parse_msg_lin|]. clear ls. intros pm ls.
    apply lin_bind; [destruct pm; [apply parse_msg_lin|apply lin_ret]|]. clear ls. intros pp ls.
    apply lin_bind; [apply parse_msg_lin|]. clear ls. intros c ls.
    apply lin_bind; [apply parse_msg_lin|]. clear ls. intros id ls. destruct (_ && _).
    - apply lin_more with (1 + 0); [|lia]. apply lin_bind; [apply expected_lin|]. clear ls. intros a ls. apply lin_ret.
    - replace (K + 2) with (1 + ((K + 1) + 0)) by lia. apply lin_bind; [apply parse_msg_lin|]. clear ls. intros pl ls.
      apply lin_bind; [apply new_message_lin; assumption|]. clear ls. intros [m|] ls; apply lin_ret.
  Qed.
  Lemma lin_le {A} ls k (m : A * lines * nat) a ls' : lin ls k m -> fst m = (a, ls') -> weight ls' <= weight ls.
  Proof. intros (D & E & _) H. rewrite H in E. cbn [snd] in E. lia. Qed.
  Lemma parse_message_fields_takes forms u ls v ls' : fst (parse_message_fields_w w forms false u ls) = (Ok (Some v), ls') -> weight ls' < weight ls.
  Proof.
    unfold parse_message_fields_w. cbv zeta. intros H.
    apply wbind_ok in H as (pc & l1 & H1 & H & _). apply wbind_ok in H as (pm & l2 & H2 & H & _). apply wbind_ok in H as (pp & l3 & H3 & H & _).
    apply wbind_ok in H as (c & l4 & H4 & H & _). apply wbind_ok in H as (id & l5 & H5 & H & _).
    destruct id as [id|]; cbn [negb andb] in H; [|apply wbind_ok in H as (a & l6 & _ & H & _); discriminate].
    apply wbind_ok in H as (pl & l6 & H6 & H & _). apply wbind_ok in H as (m & l7 & H7 & H & _).
    assert (ls' = l7) as -> by (destruct m; injection H; auto).
    apply (lin_le _ _ _ _ _ (parse_msg_lin _ _ _)) in H1, H2, H4, H6. apply parse_msg_takes in H5.
    assert (weight l3 <= weight l2) as H3' by (destruct pm; [apply (lin_le _ _ _ _ _ (parse_msg_lin _ _ _)) in H3; exact H3|injection H3 as _ <-; lia]).
    assert (N.to_nat (forms_count forms) <= S (N.to_nat (forms_count forms))) as Q by lia.
    apply (lin_le _ _ _ _ _ (new_message_lin forms (u_obsolete u) (Some id) pl l6 _ Q (le_n_S _ _ (Nat.le_0_l _)))) in H7. lia.
  Qed.
  Lemma parse_comments_lin ls : forall u, lin ls 1 (parse_comments_w u ls).
  Proof.
    induction ls as [|x ls IH]; intros u; cbn [parse_comments_w].
    - exists 0. cbn. split; [reflexivity|]. split; [left; auto|lia].
    - assert (lin (x :: ls) 1 (Ok u, x :: ls, 2)) as K by (exists 0; cbn [fst snd]; split; [reflexivity|]; split; [left; auto|lia]).
      destruct x as [[[|n k c|n q t c|n q c]|e]|]; try exact K.
      + destruct (IH (apply_comment u k c)) as (D & E & H & C). unfold tick. exists (2 + w (PComment n k c) + D). cbn [fst snd hdw].
        rewrite weight_cons. unfold res in *. cbn [weight1]. split; [lia|]. split; [right; lia|destruct (parse_comments_w (apply_comment u k c) ls) as [[x ls2] c2]; cbn [fst snd] in *; lia].
      + exists 3. cbn [fst snd hdw]. rewrite weight_cons. cbn [weight1]. split; [lia|]. split; [right; lia|lia].
  Qed.

  (** For the functions on readers. *)
  Definition rlin {A} (r : reader) (k : nat) (m : A * reader * nat) : Prop :=
    rd_plural_forms (snd (fst m)) = rd_plural_forms r /\ lin (rd_lines r) k (fst (fst m), rd_lines (snd (fst m)), snd m).
  Lemma read_line_lin r : rlin r 1 (read_line_w r).
  Proof.
    unfold rlin, read_line_w, read_line. destruct (rd_lines r) as [|[[l|e]|] ls] eqn:E; cbn [peek hd next tl fst snd].
    - split; [reflexivity|]. exists 0. cbn [fst snd]. rewrite E. split; [reflexivity|]. split; [left; auto|cbn; lia].
    - split; [reflexivity|]. exists 0. cbn [fst snd]. rewrite E. split; [reflexivity|]. split; [left; auto|cbn [hdw]; lia].
    - destruct (rd_next_unit r) as [[u|e']|]; cbn [fst snd with_lines with_next_unit rd_plural_forms rd_lines]; (split; [reflexivity|]).
      + exists 3. cbn [fst snd hdw]. rewrite weight_cons. cbn [weight1]. split; [lia|]. split; [right; lia|lia].
      + exists 0. cbn [fst snd]. rewrite E. split; [reflexivity|]. split; [left; auto|cbn [hdw]; lia].
      + exists 3. cbn [fst snd hdw]. rewrite weight_cons. cbn [weight1]. split; [lia|]. split; [right; lia|lia].
    - split; [reflexivity|]. exists 0. cbn [fst snd]. rewrite E. split; [reflexivity|]. split; [left; auto|cbn [hdw]; lia].
  Qed.
  (** Two steps, the costs added. *)
  Lemma lin_seq {A B C} ls k1 k2 (m : A * lines * nat) (m' : B * lines * nat) (x : C) c :
    lin ls k1 m -> lin (snd (fst m)) k2 m' -> c <= snd m + snd m' -> lin ls (k1 + k2) (x, snd (fst m'), c).
  Proof.
    intros (D & E & H & L) (D' & E' & H' & L') Hc. exists (D + D'). cbn [fst snd].
    set (l1 := snd (fst m)) in *. set (l2 := snd (fst m')) in *.
    assert (hdw l1 <= D' + hdw l2) by (destruct H' as [[-> ->]|H']; lia).
    split; [lia|]. split.
    - destruct H as [[-> ->]|H]; [|right; lia]. destruct H' as [[-> H']|H']; [left; auto|right; lia].
    - assert (k1 * (3 + hdw l1) <= k1 * (3 + hdw l2) + k1 * D') by nia. nia.
  Qed.
  Lemma lin_any {A B} ls k (m : A * lines * nat) (x : B) : lin ls k m -> lin ls k (x, snd (fst m), snd m).
  Proof. intros H. exact H. Qed.
  Lemma read_unit_lin first r K : N.to_nat (forms_count (rd_plural_forms r)) <= K -> 1 <= K ->
    rlin r (K + 9) (read_unit_w w first r) /\ forall v r', first = false -> fst (read_unit_w w first r) = (Ok (Some v), r') -> weight (rd_lines r') < weight (rd_lines r).
  Proof.
    intros HK K1. unfold read_unit_w. pose proof (parse_comments_lin (rd_lines r) unit_default) as H1.
    destruct (parse_comments_w unit_default (rd_lines r)) as [[[u|e|] ls] c].
    2,3: split; [split; [reflexivity|]; cbn [fst snd with_lines rd_lines]; apply lin_more with 1; [exact (lin_any _ _ _ _ H1)|lia]|discriminate].
    destruct (read_line_lin (with_lines r ls)) as [F2 H2]. destruct (read_line_w (with_lines r ls)) as [[x r2] c2]. cbn [fst snd] in F2, H2. cbn [with_lines rd_plural_forms rd_lines] in F2, H2.
    assert (forall A (y : A), lin (rd_lines r) 2 (y, rd_lines r2, c + c2)) as H12 by (intros A y; exact (lin_seq (rd_lines r) 1 1 _ _ y (c + c2) H1 H2 (le_n _))).
    destruct x as [[[l obs]|]|e|]; unfold tick; cbn [fst snd].
    2,3,4: split; [split; [exact F2|]; cbn [fst snd]; apply lin_more with 2; [apply H12|lia]|discriminate].
    pose proof (parse_message_fields_lin (rd_plural_forms r2) first (set_obsolete u obs) (rd_lines r2) K) as H3. rewrite F2 in H3. specialize (H3 HK K1).
    rewrite F2.
    pose proof (parse_message_fields_takes (rd_plural_forms r) (set_obsolete u obs) (rd_lines r2)) as T.
    assert (forall A (y : A), lin (rd_lines r) (2 + (K + 7)) (y, snd (fst (parse_message_fields_w w (rd_plural_forms r) first (set_obsolete u obs) (rd_lines r2))),
      c + (c2 + snd (parse_message_fields_w w (rd_plural_forms r) first (set_obsolete u obs) (rd_lines r2))))) as G.
    { intros A y. apply (lin_seq (rd_lines r) 2 (K + 7) _ _ y _ (H12 _ tt) H3). cbn [snd]. rewrite Nat.add_assoc. apply le_n. }
    replace (2 + (K + 7)) with (K + 9) in G by lia.
    destruct (parse_message_fields_w w (rd_plural_forms r) first (set_obsolete u obs) (rd_lines r2)) as [[[[u'|]|e|] ls'] c3] eqn:E; cbn [fst snd] in *.
    2,3,4: split; [split; [exact F2|]; cbn [fst snd with_lines rd_lines]; apply G|discriminate].
    assert (first = false -> weight ls' < weight (rd_lines r)) as W.
    { intros ->. rewrite E in T. specialize (T u' ls' eq_refl). pose proof (H12 unit tt) as Z. apply lin_le with (a := tt) (ls' := rd_lines r2) in Z; [lia|reflexivity]. }
    destruct (_ && _); cbn [fst snd]; (split; [split; [exact F2|cbn [fst snd with_lines rd_lines]; apply G]|]); [discriminate|].
    intros v r' F [= _ <-]. cbn [with_lines rd_lines]. auto.
  Qed.
  Lemma next_unit_lin first r K : N.to_nat (forms_count (rd_plural_forms r)) <= K -> 1 <= K ->
    rlin r (K + 9) (next_unit_w w first r) /\ forall v r' c, first = false -> next_unit_w w first r = (Val (Some (UOk v)), r', c) -> hdw (rd_lines r) + weight (rd_lines r') <= weight (rd_lines r).
  Proof.
    intros HK K1. destruct (read_unit_lin first r K HK K1) as [[F H] T]. unfold next_unit_w. split.
    - destruct (read_unit_w w first r) as [[[[u|]|e|] r'] c]; split; try exact F; exact (lin_any _ _ _ _ H).
    - intros v r' c Ef E. destruct (read_unit_w w first r) as [[[[u|]|e|] r2] c2]; try discriminate. injection E as -> -> ->. cbn [fst snd] in *.
      specialize (T v r' Ef eq_refl). destruct H as (D & E & [[-> H]|H] & _); cbn [fst snd] in E; [lia|lia].
  Qed.

  (** All units. *)
  Lemma po_collect_lin K T : 1 <= K -> forall fuel r u, N.to_nat (forms_count (rd_plural_forms r)) <= K -> weight (rd_lines r) <= T -> rd_next_unit r = Some (UOk u) ->
    forall l, fst (po_collect_w w fuel r) = Some l ->
    snd (po_collect_w w fuel r) + (K + 9) * hdw (rd_lines r) <= (2 * (K + 9) + 1) * weight (rd_lines r) + 3 * (K + 9) * length l + 2 * (K + 9) * T.
  Proof.
    intros K1. induction fuel as [|fuel IH]; intros r u HK HT E l; cbn [po_collect_w]; [discriminate|]. unfold po_next_w. rewrite E.
    assert (rd_next_unit (snd (fst (next_unit_w w false r))) = Some (UOk u)) as Er by (rewrite next_unit_fst, next_unit_keeps; exact E).
    destruct (next_unit_lin false r K HK K1) as [[F H] Tk]. destruct (next_unit_w w false r) as [[[nu|] r'] c]; cbn [fst snd] in *; [|discriminate].
    rewrite Er. destruct H as (D & Ew & _ & Hc). cbn [fst snd] in Ew, Hc. pose proof (hdw_le (rd_lines r)) as Hh. pose proof (hdw_le (rd_lines r')) as Hh'.
    destruct nu as [[v|e]|].
    - specialize (Tk v r' c eq_refl eq_refl).
      specialize (IH (with_next_unit r' (Some (UOk v))) v). cbn [with_next_unit rd_plural_forms rd_lines rd_next_unit] in IH. rewrite F in IH.
      specialize (IH HK ltac:(lia) eq_refl). fold (with_next_unit r' (Some (UOk v))) in IH.
      destruct (po_collect_w w fuel _) as [[l'|] c'] eqn:Ec; cbn [fst snd option_map] in *; [|discriminate].
      intros [= <-]. specialize (IH l' eq_refl). cbn [length].
      assert (hdw (rd_lines r) <= D) as HD by lia. rewrite Ew.
      assert ((K + 9) * hdw (rd_lines r) <= (K + 9) * D) by nia. nia.
    - destruct fuel as [|fuel]; [discriminate|]. cbn [po_collect_w po_next_w with_next_unit rd_next_unit].
      destruct fuel as [|fuel]; [discriminate|]. cbn [po_collect_w po_next_w with_next_unit rd_next_unit fst snd option_map].
      intros [= <-]. cbn [length]. rewrite Ew in *. nia.
    - destruct fuel as [|fuel]; [discriminate|]. cbn [po_collect_w po_next_w with_next_unit rd_next_unit fst snd option_map].
      intros [= <-]. cbn [length]. rewrite Ew in *. nia.
  Qed.
  Lemma po_collect_rest fuel r l : (forall u, rd_next_unit r <> Some (UOk u)) -> fst (po_collect_w w fuel r) = Some l -> snd (po_collect_w w fuel r) = 0.
  Proof.
    intros N. destruct fuel as [|fuel]; [discriminate|]. cbn [po_collect_w]. unfold po_next_w. destruct (rd_next_unit r) as [[u|e]|]; [destruct (N u eq_refl)| |reflexivity].
    destruct fuel as [|fuel]; [discriminate|]. reflexivity.
  Qed.
  Lemma header_lines lib pf r x r' : parse_po_header lib pf r = (Ok x, r') -> rd_lines r' = rd_lines r.
  Proof.
    unfold parse_po_header. destruct (rd_next_unit r) as [[u|e]|]; try (intros [= _ <-]; reflexivity).
    destruct (sm_get _ _) as [fo|]; [|intros [= _ <-]; reflexivity]. destruct (is_empty fo); [intros [= _ <-]; reflexivity|].
    destruct (plural_forms_parse pf fo); try discriminate. intros [= _ <-]. reflexivity.
  Qed.
  Lemma reader_new_lin K lib pf ls r : 2 <= K -> fst (reader_new_w w lib pf ls) = Ok r -> N.to_nat (forms_count (rd_plural_forms r)) <= K ->
    weight (rd_lines r) <= weight ls /\ snd (reader_new_w w lib pf ls) <= (K + 10) * weight ls + 2 * (K + 9) * (3 + weight ls).
  Proof.
    intros K2. unfold reader_new_w. cbv zeta. destruct (next_unit_lin true (Reader ls None [] [] [] (lang_invariant lib) None) K K2 ltac:(lia)) as [[F (D & Ew & _ & Hc)] _].
    destruct (next_unit_w w true _) as [[nu r1] c]. cbn [fst snd rd_lines rd_plural_forms] in *. destruct nu as [nu|]; [|discriminate].
    pose proof (hdw_le (rd_lines r1)) as Hh.
    destruct nu as [[u|e]|]; [destruct (msg_is_empty _)|discriminate|].
    2,3: intros [= <-] _; cbn [with_next_unit rd_lines snd]; split; [lia|nia].
    destruct (parse_po_header lib pf (with_next_unit r1 (Some (UOk u)))) as [[x|e|] r3] eqn:EH; try discriminate.
    apply header_lines in EH. cbn [with_next_unit rd_lines] in EH. intros H HK. unfold tick in *. cbn [fst snd] in *.
    assert (N.to_nat (forms_count (rd_plural_forms r3)) <= K) as HK3.
    { pose proof (next_unit_within w 0 2) as _. destruct (next_unit_w w false r3) as [[[nu|] r4] c'] eqn:E4; [|discriminate]. cbn [fst] in H. injection H as <-.
      cbn [with_next_unit rd_plural_forms] in HK. destruct (next_unit_lin false r3 (S (N.to_nat (forms_count (rd_plural_forms r3)))) ltac:(lia) ltac:(lia)) as [[F' _] _].
      rewrite E4 in F'. cbn [fst snd] in F'. rewrite F' in HK. exact HK. }
    destruct (next_unit_lin false r3 K HK3 ltac:(lia)) as [[F' (D' & Ew' & _ & Hc')] _]. rewrite EH in Ew'.
    destruct (next_unit_w w false r3) as [[[nu|] r4] c']; cbn [fst snd] in *; [|discriminate]. injection H as <-. cbn [with_next_unit rd_lines].
    pose proof (hdw_le (rd_lines r4)) as Hh4. split; [lia|]. rewrite Ew, Ew'.
    assert ((K + 9) * (3 + hdw (rd_lines r1)) <= (K + 9) * (3 + weight (rd_lines r1))) by nia.
    assert ((K + 9) * (3 + hdw (rd_lines r4)) <= (K + 9) * (3 + weight (rd_lines r4))) by nia. nia.
  Qed.
  Lemma reader_new_err_lin lib pf ls x : fst (reader_new_w w lib pf ls) = Err x -> snd (reader_new_w w lib pf ls) <= 12 * weight ls + 11 * (3 + weight ls).
  Proof.
    unfold reader_new_w. cbv zeta. destruct (next_unit_lin true (Reader ls None [] [] [] (lang_invariant lib) None) 2 (le_n _) ltac:(lia)) as [[F (D & Ew & _ & Hc)] _].
    destruct (next_unit_w w true _) as [[nu r1] c]. cbn [fst snd rd_lines rd_plural_forms] in *. pose proof (hdw_le (rd_lines r1)) as Hh.
    assert (c <= 12 * weight ls + 11 * (3 + weight ls)) as G by lia.
    destruct nu as [[[u|e]|]|]; try discriminate; [|intros _; exact G].
    destruct (msg_is_empty _); [|discriminate]. destruct (parse_po_header _ _ _) as [[y|e|] r3]; try discriminate; [|intros _; exact G].
    destruct (next_unit_w w false r3) as [[[nu|] r4] c']; discriminate.
  Qed.
End Linear.

Lemma parsed_chars n ls e pl tl : parsed n ls e pl tl -> total (map line_chars pl) <= text_size ls.
Proof.
  unfold text_size. induction 1; cbn [map total] in *; try lia.
  match goal with H : line_of _ _ l |- _ => apply line_of_chars in H end. unfold str in *. lia.
Qed.
Definition item_chars (x : option item) : nat := match x with Some (ILine l) => line_chars l | _ => 0 end.
Lemma answers_total n bs f rs : answers n bs f rs -> total (map item_chars rs) <= length (concat bs).
Proof.
  assert (forall pl, map item_chars (map (fun l => Some (ILine l)) pl) = map line_chars pl) as M by (intros pl; rewrite map_map; reflexivity).
  induction 1 as [n b f ls e pl tl C P|n b b' bs f ls e pl x C P|n b bs f ls pl rs C P T A IH|n b bs f ls pl rs C P T A IH];
    apply contents_size in C; apply parsed_chars in P; rewrite map_app, total_app, M; cbn [concat]; rewrite ?app_length; cbn [map total item_chars]; try lia.
  destruct tl; cbn [map total item_chars concat length]; lia.
Qed.
Lemma weight_chars ls : weight line_chars ls <= total (map item_chars ls) + 3 * length ls.
Proof. unfold weight. induction ls as [|[[l|e]|] ls IH]; cbn [map total weight1 item_chars length]; lia. Qed.
Lemma data_le_events evs : data_size evs <= events_size evs.
Proof. induction evs as [|[d| |c] evs IH]; cbn [data_size events_size]; lia. Qed.
Lemma total_nth : forall a b : list (option item), (forall k, nth k a None = nth k b None) -> total (map item_chars a) = total (map item_chars b).
Proof.
  assert (forall b : list (option item), (forall k, None = nth k b None) -> total (map item_chars b) = 0) as Z.
  { induction b as [|y b IH]; intros H; [reflexivity|]. cbn [map total]. pose proof (H 0) as E. cbn [nth] in E. subst y. cbn [item_chars]. apply IH. intros k. exact (H (S k)). }
  induction a as [|x a IH]; intros b H.
  - symmetry. apply Z. intros k. rewrite <- H. destruct k; reflexivity.
  - destruct b as [|y b].
    + apply Z. intros k. rewrite H. destruct k; reflexivity.
    + cbn [map total]. pose proof (H 0) as E. cbn [nth] in E. subst y. f_equal. apply IH. intros k. exact (H (S k)).
Qed.
Lemma responses_total evs : total (map item_chars (responses (li_new evs))) <= data_size evs.
Proof.
  destruct (all_calls evs) as (bs & f & rs & P & A & H). rewrite (total_nth _ rs); [apply answers_total in A; apply pieces_size in P; lia|].
  intros k. rewrite responses_exact, H. reflexivity.
Qed.
Lemma responses_weight evs : weight line_chars (responses (li_new evs)) <= 4 * events_size evs + 3.
Proof. pose proof (weight_chars (responses (li_new evs))). pose proof (responses_total evs). pose proof (responses_count evs). pose proof (data_le_events evs). lia. Qed.

Theorem work_linear lib pf evs r c K : po_parse lib pf evs = Ok r -> N.to_nat (nforms (rd_plural_forms r)) <= K -> 2 <= K -> read_catalogue lib pf evs = Ok c ->
  work line_chars lib pf evs <= 32 * (K + 10) * (events_size evs + 1).
Proof.
  intros P HK K2 R. pose proof (responses_weight evs) as W. pose proof (iteration_bounded_any _ _ _ _ R) as B.
  pose proof (work_of_the_reader line_chars lib pf evs) as E. rewrite R in E. unfold work, read_catalogue_w in *.
  unfold po_parse in P. pose proof (reader_new_fst line_chars lib pf (responses (li_new evs))) as EP. rewrite P in EP.
  destruct (reader_new_lin line_chars K lib pf _ r K2 EP HK) as (W' & C).
  destruct (reader_new_w line_chars lib pf (responses (li_new evs))) as [x cost]. cbn [fst snd] in *. subst x.
  set (S0 := events_size evs) in *. set (T := weight line_chars (responses (li_new evs))) in *.
  assert (cost <= (K + 10) * (12 * S0 + 15)) as C0 by nia.
  pose proof (po_collect_lin line_chars K T ltac:(lia) (S (S (length (responses (li_new evs))))) r) as L.
  pose proof (po_collect_rest line_chars (S (S (length (responses (li_new evs))))) r) as Z.
  destruct (po_collect_w line_chars _ r) as [[l|] c']; cbn [fst snd] in *; [|discriminate]. injection E as <-. cbn [c_items] in *.
  assert (c' <= (K + 10) * (19 * S0 + 15)) as C1.
  { destruct (rd_next_unit r) as [[u|e]|].
    - specialize (L u HK W' eq_refl l eq_refl). 
      assert ((2 * (K + 9) + 1) * weight line_chars (rd_lines r) <= 2 * (K + 10) * (4 * S0 + 3)) by nia.
      assert (3 * (K + 9) * length l <= 3 * (K + 10) * (S S0)) by nia.
      assert (2 * (K + 9) * T <= 2 * (K + 10) * (4 * S0 + 3)) by nia. nia.
    - rewrite (Z l ltac:(discriminate) eq_refl). lia.
    - rewrite (Z l ltac:(discriminate) eq_refl). lia. }
  nia.
Qed.
Theorem work_linear_error lib pf evs x : po_parse lib pf evs = Err x -> work line_chars lib pf evs <= 102 * (events_size evs + 1).
Proof.
  intros P. pose proof (responses_weight evs) as W. unfold work, read_catalogue_w. unfold po_parse in P. rewrite <- (reader_new_fst line_chars) in P.
  pose proof (reader_new_err_lin line_chars lib pf _ x P) as C. destruct (reader_new_w line_chars lib pf (responses (li_new evs))) as [y c]. cbn [fst snd] in *. subst y. cbn [snd]. lia.
Qed.
