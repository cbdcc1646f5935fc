(** What has been read does not depend on what follows. *)
From Coq Require Import String Arith NArith ZArith Bool List Lia.
From Verif Require Import ModelBase ModelUtf8 ModelLine ModelFormula ModelData ModelSource ModelReader
  SpecLine SpecSource SpecReader BaseFacts ReaderFacts ReadsFacts.
Import ListNotations.

(** * Locality: an unread rest may be exchanged if at least one line before it is unread *)
Definition local {A} (f : lines -> res A) : Prop := forall c y o c2, c2 <> [] ->
  f (c ++ y) = (o, c2 ++ y) -> forall x, f (c ++ x) = (o, c2 ++ x).

Lemma suffix_app_inv {A} (c y r c2 : list A) : suffix r (c ++ y) -> suffix (c2 ++ y) r -> exists c1, r = c1 ++ y /\ suffix c1 c.
Proof.
  intros (p & E) (q & ->). exists (q ++ c2). split; [rewrite app_assoc; reflexivity|].
  exists p. rewrite !app_assoc in E. apply app_inv_tail in E. rewrite <- app_assoc in E. exact E.
Qed.
Lemma no_growth {A} (y c2 : list A) : suffix (c2 ++ y) y -> c2 = [].
Proof. intros S. apply suffix_length in S. rewrite app_length in S. destruct c2; [reflexivity|cbn in S; lia]. Qed.

Lemma bind_local {A B} (f : lines -> res A) (g : A -> lines -> res B) :
  local f -> (forall ls, suffix (snd (f ls)) ls) -> (forall a, local (g a)) -> (forall a ls, suffix (snd (g a ls)) ls) ->
  local (fun ls => bind (f ls) g).
Proof.
  intros Lf Sf Lg Sg c y o c2 N H x. cbn beta in *.
  pose proof (Sf (c ++ y)) as S1. destruct (f (c ++ y)) as [[a|e|] r] eqn:E; cbn [bind snd] in *.
  - pose proof (Sg a r) as S2. rewrite H in S2. cbn [snd] in S2.
    destruct (suffix_app_inv _ _ _ _ S1 S2) as (c1 & -> & _).
    assert (c1 <> []) as N1. { intros ->. cbn in S2. apply no_growth in S2. contradiction. }
    rewrite (Lf _ _ _ _ N1 E x). cbn [bind]. exact (Lg a _ _ _ _ N H x).
  - injection H as <- ->. rewrite (Lf _ _ _ _ N E x). reflexivity.
  - injection H as <- ->. rewrite (Lf _ _ _ _ N E x). reflexivity.
Qed.
Lemma ret_local {A} (o : outcome A) : local (fun ls => (o, ls)).
Proof. intros c y o' c2 _ H x. injection H as -> H. apply app_inv_tail in H as ->. reflexivity. Qed.

Lemma append_conts_local p s : local (append_conts p s).
Proof.
  intros c; revert s; induction c as [|i c IH]; intros s y o c2 N H x.
  - pose proof (append_conts_suffix p y s) as S. cbn [app] in H. rewrite H in S. apply no_growth in S. contradiction.
  - cbn [app append_conts] in *. destruct i as [[[|n k t|n q tag t|n q t]|e]|].
    1-3: injection H as <- H; rewrite app_comm_cons in H; apply app_inv_tail in H as <-; reflexivity.
    + destruct (str_eqb q p); [exact (IH _ _ _ _ N H x)|]. injection H as <- H; rewrite app_comm_cons in H; apply app_inv_tail in H as <-; reflexivity.
    + injection H as <- H; apply app_inv_tail in H as <-; reflexivity.
    + injection H as <- H; apply app_inv_tail in H as <-; reflexivity.
Qed.
Lemma cons_app_inv {A} (i : A) c y c2 : i :: c ++ y = c2 ++ y -> i :: c = c2.
Proof. rewrite app_comm_cons. apply app_inv_tail. Qed.
Lemma parse_msg_local o t : local (parse_msg o t).
Proof.
  intros c y r c2 N H x. destruct c as [|i c].
  - pose proof (parse_msg_suffix o t y) as S. cbn [app] in H. rewrite H in S. apply no_growth in S. contradiction.
  - rewrite parse_msg_eq in *. cbn [app] in *. destruct i as [[[|n k s|n q tag s|n q s]|e]|].
    1,2,4: injection H as <- H; apply cons_app_inv in H as <-; reflexivity.
    + destruct (_ && _).
      * exact (append_conts_local _ _ _ _ _ _ N H x).
      * injection H as <- H; apply cons_app_inv in H as <-; reflexivity.
    + injection H as <- H; apply app_inv_tail in H as <-; reflexivity.
    + injection H as <- H; apply app_inv_tail in H as <-; reflexivity.
Qed.
Lemma expected_local z : local (expected z).
Proof.
  intros c y r c2 N H x. destruct c as [|i c].
  - pose proof (expected_suffix z y) as S. cbn [app] in H. rewrite H in S. apply no_growth in S. contradiction.
  - unfold expected, peek, next in *. cbn [app hd tl] in *. destruct i as [[[|n k s|n q tag s|n q s]|e]|].
    1-4: injection H as <- H; apply cons_app_inv in H as <-; reflexivity.
    + injection H as <- H; apply app_inv_tail in H as <-; reflexivity.
    + injection H as <- H; apply cons_app_inv in H as <-; reflexivity.
Qed.
Lemma parse_values_local o k : forall i vs, local (parse_values o k i vs).
Proof.
  induction k as [|k IH]; intros i vs; cbn [parse_values]; [apply ret_local|].
  apply bind_local; [apply parse_msg_local|apply parse_msg_suffix|intros; apply IH|intros; apply parse_values_suffix].
Qed.
Lemma expected_none_suffix {A} z (o : outcome A) ls : suffix (snd (bind (expected z ls) (fun _ l => (o, l)))) ls.
Proof. apply bind_suffix; [apply expected_suffix|cbn; auto]. Qed.
Lemma expected_none_local {A} z (o : outcome A) : local (fun ls => bind (expected z ls) (fun _ l => (o, l))).
Proof. apply bind_local; [apply expected_local|apply expected_suffix|intros; apply ret_local|cbn; auto]. Qed.
Lemma new_message_local forms o id pl : local (new_message forms o id pl).
Proof.
  unfold new_message. destruct id as [id|]; [|apply ret_local]. destruct pl as [pl|].
  - apply bind_local; [apply parse_values_local|apply parse_values_suffix| |].
    + intros vs. destruct (is_empty vs); [apply expected_none_local|apply ret_local].
    + intros vs ls. destruct (is_empty vs); [apply expected_none_suffix|cbn; auto].
  - apply bind_local; [apply parse_msg_local|apply parse_msg_suffix| |].
    + intros [t|]; [apply ret_local|apply expected_none_local].
    + intros [t|] ls; [cbn; auto|apply expected_none_suffix].
Qed.
Lemma parse_message_fields_local forms first u : local (parse_message_fields forms first u).
Proof.
  unfold parse_message_fields.
  assert (forall pc pm c i, local (fun ls => if negb first && match i with None => true | Some _ => false end
            then do _, ls0 <- expected (lit "msgid") ls; (Ok None, ls0)
            else do pl, ls0 <- parse_msg (u_obsolete u) (lit "msgid_plural") ls;
                 do m, ls1 <- new_message forms (u_obsolete u) i pl ls0;
                 match m with None => (Ok None, ls1) | Some msg => (Ok (Some (set_message u pc pm c msg)), ls1) end)) as K.
  { intros pc pm c i. destruct (_ && _); [apply expected_none_local|].
    apply bind_local; [apply parse_msg_local|apply parse_msg_suffix| |].
    - intros pl. apply bind_local; [apply new_message_local|apply new_message_suffix|intros [m|]; apply ret_local|intros [m|]; cbn; auto].
    - intros pl ls. apply bind_suffix; [apply new_message_suffix|]. intros [m|] l _; cbn; auto. }
  assert (forall pc pm c i ls, suffix (snd (if negb first && match i with None => true | Some _ => false end
            then do _, ls0 <- expected (lit "msgid") ls; (Ok None, ls0)
            else do pl, ls0 <- parse_msg (u_obsolete u) (lit "msgid_plural") ls;
                 do m, ls1 <- new_message forms (u_obsolete u) i pl ls0;
                 match m with None => (Ok None, ls1) | Some msg => (Ok (Some (set_message u pc pm c msg)), ls1) end)) ls) as KS.
  { intros pc pm c i ls. destruct (_ && _); [apply expected_none_suffix|].
    apply bind_suffix; [apply parse_msg_suffix|]. intros pl l _.
    apply bind_suffix; [apply new_message_suffix|]. intros [m|] l' _; cbn; auto. }
  apply bind_local; [apply parse_msg_local|apply parse_msg_suffix| |].
  2: { intros pc ls. apply bind_suffix; [apply parse_msg_suffix|]. intros pi l2 _.
       apply bind_suffix; [destruct pi; [apply parse_msg_suffix|cbn; auto]|]. intros pp l3 _.
       apply bind_suffix; [apply parse_msg_suffix|]. intros c l4 _.
       apply bind_suffix; [apply parse_msg_suffix|]. intros i l5 _. apply KS. }
  intros pc. apply bind_local; [apply parse_msg_local|apply parse_msg_suffix| |].
  2: { intros pi ls. apply bind_suffix; [destruct pi; [apply parse_msg_suffix|cbn; auto]|]. intros pp l3 _.
       apply bind_suffix; [apply parse_msg_suffix|]. intros c l4 _.
       apply bind_suffix; [apply parse_msg_suffix|]. intros i l5 _. apply KS. }
  intros pi. apply bind_local.
  1: destruct pi; [apply parse_msg_local|apply ret_local].
  1: destruct pi; intros; [apply parse_msg_suffix|cbn; auto].
  2: { intros pp ls. apply bind_suffix; [apply parse_msg_suffix|]. intros c l4 _.
       apply bind_suffix; [apply parse_msg_suffix|]. intros i l5 _. apply KS. }
  intros pp. apply bind_local; [apply parse_msg_local|apply parse_msg_suffix| |].
  2: { intros c ls. apply bind_suffix; [apply parse_msg_suffix|]. intros i l5 _. apply KS. }
  intros c. apply bind_local; [apply parse_msg_local|apply parse_msg_suffix| |].
  - intros i. apply K.
  - intros i ls. apply KS.
Qed.
Lemma parse_comments_local u : local (parse_comments u).
Proof.
  intros c; revert u; induction c as [|i c IH]; intros u y o c2 N H x.
  - pose proof (parse_comments_suffix y u) as S. cbn [app] in H. rewrite H in S. apply no_growth in S. contradiction.
  - cbn [app parse_comments] in *. destruct i as [[[|n k t|n q tag t|n q t]|e]|].
    1,3,4,6: injection H as <- H; apply cons_app_inv in H as <-; reflexivity.
    + exact (IH _ _ _ _ N H x).
    + injection H as <- H; apply app_inv_tail in H as <-; reflexivity.
Qed.
Theorem runit_local forms first : local (runit forms first).
Proof.
  unfold runit. apply bind_local; [apply parse_comments_local|intros; apply parse_comments_suffix| |].
  - intros u c y o c2 N H x. destruct c as [|i c].
    + cbn [app] in H. exfalso. destruct (peek y) as [[l|e]|].
      * pose proof (parse_message_fields_suffix forms first (set_obsolete u (line_obsolete l)) y) as S.
        destruct (parse_message_fields _ _ _ y) as [[v|e|] ls']; cbn [bind snd] in *.
        -- apply (f_equal snd) in H. rewrite finish_unit_lines in H. cbn in H. subst. apply no_growth in S. contradiction.
        -- injection H as _ ->. apply no_growth in S. contradiction.
        -- injection H as _ ->. apply no_growth in S. contradiction.
      * injection H as _ H. apply (f_equal (@length _)) in H. rewrite app_length in H. destruct c2; [contradiction|cbn in H; lia].
      * injection H as _ H. apply (f_equal (@length _)) in H. rewrite app_length in H. destruct c2; [contradiction|cbn in H; lia].
    + unfold peek in *. cbn [app hd] in *. destruct i as [[l|e]|].
      * refine (bind_local (parse_message_fields forms first (set_obsolete u (line_obsolete l))) _ _ _ _ _ (Some (ILine l) :: c) y o c2 N H x).
        -- apply parse_message_fields_local.
        -- apply parse_message_fields_suffix.
        -- intros a c' y' o' c2' N' H' x'.
           pose proof (f_equal snd H') as E. rewrite finish_unit_lines in E. cbn [snd] in E. apply app_inv_tail in E as ->.
           destruct a as [v|]; cbn [finish_unit] in *; [|injection H' as <-; reflexivity].
           destruct (negb first && _); injection H' as <-; reflexivity.
        -- intros a ls. rewrite finish_unit_lines. auto.
      * injection H as <- H; apply cons_app_inv in H as <-; reflexivity.
      * injection H as <- H; apply cons_app_inv in H as <-; reflexivity.
  - intros u ls. destruct (peek ls) as [[l|e]|]; cbn [snd]; auto.
    apply bind_suffix; [apply parse_message_fields_suffix|]. intros a l' _. rewrite finish_unit_lines. auto.
Qed.

(** * A failure is not passed over *)
(** [failfree m]: a successful result leaves no failure at the front of the lines. *)
Definition seen {A} (m : res A) : Prop := forall a ls, m = (Ok a, ls) -> forall e, peek ls <> Some (IFail e).
Lemma bind_seen {A B} (m : res A) (f : A -> lines -> res B) :
  (forall a ls, m = (Ok a, ls) -> seen (f a ls)) -> seen (bind m f).
Proof. intros H b ls' E. apply bind_ok in E as (a & l & E1 & E2). exact (H a l E1 b ls' E2). Qed.
Lemma bind_seen_pass {A B} (m : res A) (f : A -> lines -> res B) :
  seen m -> (forall a ls, (forall e, peek ls <> Some (IFail e)) -> seen (f a ls)) -> seen (bind m f).
Proof. intros S H. apply bind_seen. intros a ls E. apply H. exact (S a ls E). Qed.
Lemma ret_seen {A} (o : outcome A) ls : (forall e, peek ls <> Some (IFail e)) -> seen (o, ls).
Proof. intros H a l [= _ <-]. exact H. Qed.
Lemma append_conts_seen p ls : forall s, (~ In None ls) -> seen (append_conts p s ls).
Proof.
  induction ls as [|i ls IH]; intros s N; cbn [append_conts].
  - intros a l [= _ <-] e. discriminate.
  - assert (~ In None ls) as N' by (cbn in N; tauto).
    destruct i as [[[|n k t|n q tag t|n q t]|e]|].
    1-3: apply ret_seen; cbn; discriminate.
    + destruct (str_eqb q p); [apply IH, N'|apply ret_seen; cbn; discriminate].
    + intros a l; discriminate.
    + exfalso; apply N; left; reflexivity.
Qed.
Definition solid (ls : lines) : Prop := ~ In None ls.
Lemma solid_suffix a b : suffix b a -> solid a -> solid b.
Proof. intros (p & ->) H I. apply H, in_or_app. right; exact I. Qed.
Lemma solid_app a b : solid (a ++ b) <-> solid a /\ solid b.
Proof.
  unfold solid. split.
  - intros H; split; intros I; apply H, in_or_app; tauto.
  - intros [H H'] I. apply in_app_or in I. tauto.
Qed.
Lemma parse_msg_seen o t ls : solid ls -> seen (parse_msg o t ls).
Proof.
  intros N. rewrite parse_msg_eq. destruct ls as [|[[[|n k s|n q tag s|n q s]|e]|] ls].
  1-3,5: apply ret_seen; cbn; discriminate.
  - assert (solid ls) as N' by (intros I; apply N; right; exact I).
    destruct (_ && _); [apply append_conts_seen, N'|apply ret_seen; cbn; discriminate].
  - intros a l; discriminate.
  - exfalso; apply N; left; reflexivity.
Qed.
Lemma expected_seen z ls : seen (expected z ls).
Proof.
  unfold expected, peek, next. destruct ls as [|[[[|n k s|n q tag s|n q s]|e]|] ls]; cbn [hd tl].
  1,2,7: apply ret_seen; cbn; discriminate.
  all: intros a l; discriminate.
Qed.
Lemma parse_values_seen o k : forall i vs ls, solid ls -> (forall e, peek ls <> Some (IFail e)) -> seen (parse_values o k i vs ls).
Proof.
  induction k as [|k IH]; intros i vs ls N P; cbn [parse_values]; [apply ret_seen, P|].
  apply bind_seen. intros a l E. apply IH; [|exact (parse_msg_seen _ _ _ N _ _ E)].
  eapply solid_suffix; [|exact N]. pose proof (parse_msg_suffix o (msgstr_tag i) ls) as S. rewrite E in S. exact S.
Qed.
Lemma new_message_seen forms o id pl ls : solid ls -> (forall e, peek ls <> Some (IFail e)) -> seen (new_message forms o id pl ls).
Proof.
  intros N P. unfold new_message. destruct id as [id|]; [|apply ret_seen, P]. destruct pl as [pl|].
  - apply bind_seen_pass; [apply parse_values_seen; assumption|]. intros vs l P'. destruct (is_empty vs); [|apply ret_seen, P'].
    apply bind_seen_pass; [apply expected_seen|]. intros; apply ret_seen; assumption.
  - apply bind_seen_pass; [apply parse_msg_seen, N|]. intros [t|] l P'; [apply ret_seen, P'|].
    apply bind_seen_pass; [apply expected_seen|]. intros; apply ret_seen; assumption.
Qed.
Lemma parse_message_fields_seen forms first u ls : solid ls -> seen (parse_message_fields forms first u ls).
Proof.
  intros N. unfold parse_message_fields.
  apply bind_seen. intros pc l1 E1.
  assert (solid l1) as N1 by (eapply solid_suffix; [|exact N]; pose proof (parse_msg_suffix (u_obsolete u) (lit "|msgctxt") ls) as S; rewrite E1 in S; exact S).
  apply bind_seen. intros pi l2 E2.
  assert (solid l2) as N2 by (eapply solid_suffix; [|exact N1]; pose proof (parse_msg_suffix (u_obsolete u) (lit "|msgid") l1) as S; rewrite E2 in S; exact S).
  apply bind_seen. intros pp l3 E3.
  assert (solid l3) as N3.
  { eapply solid_suffix; [|exact N2]. destruct pi; [|injection E3 as _ ->; auto].
    pose proof (parse_msg_suffix (u_obsolete u) (lit "|msgid_plural") l2) as S; rewrite E3 in S; exact S. }
  apply bind_seen. intros c l4 E4.
  assert (solid l4) as N4 by (eapply solid_suffix; [|exact N3]; pose proof (parse_msg_suffix (u_obsolete u) (lit "msgctxt") l3) as S; rewrite E4 in S; exact S).
  apply bind_seen. intros i l5 E5.
  assert (solid l5) as N5 by (eapply solid_suffix; [|exact N4]; pose proof (parse_msg_suffix (u_obsolete u) (lit "msgid") l4) as S; rewrite E5 in S; exact S).
  destruct (negb first && _).
  - apply bind_seen_pass; [apply expected_seen|]. intros; apply ret_seen; assumption.
  - apply bind_seen. intros pl l6 E6.
    assert (solid l6) as N6 by (eapply solid_suffix; [|exact N5]; pose proof (parse_msg_suffix (u_obsolete u) (lit "msgid_plural") l5) as S; rewrite E6 in S; exact S).
    apply bind_seen_pass; [apply new_message_seen; [exact N6|exact (parse_msg_seen _ _ _ N5 _ _ E6)]|].
    intros [m|] l P; apply ret_seen, P.
Qed.
Lemma runit_seen forms first ls : solid ls -> seen (runit forms first ls).
Proof.
  intros N. unfold runit. apply bind_seen. intros u l1 E1.
  assert (solid l1) as N1 by (eapply solid_suffix; [|exact N]; pose proof (parse_comments_suffix ls unit_default) as S; rewrite E1 in S; exact S).
  destruct (peek l1) as [[l|e]|] eqn:P.
  - apply bind_seen_pass; [apply parse_message_fields_seen, N1|]. intros [v|] l2 P2; cbn [finish_unit].
    + destruct (negb first && _); apply ret_seen, P2.
    + apply ret_seen, P2.
  - exfalso. exact (parse_comments_peek _ _ _ _ e E1 P).
  - apply ret_seen. rewrite P. discriminate.
Qed.

(** * Where errors come from *)
Definition clear (p : lines) : Prop := forall e, ~ In (Some (IFail e)) p.
Lemma clear_app a b : clear (a ++ b) <-> clear a /\ clear b.
Proof.
  unfold clear. split.
  - intros H; split; intros e I; apply (H e), in_or_app; tauto.
  - intros [H H'] e I. apply in_app_or in I as [I|I]; [exact (H e I)|exact (H' e I)].
Qed.
Lemma clear_nil : clear [].
Proof. intros e []. Qed.
Lemma clear_cons x p : (forall e, x <> Some (IFail e)) -> clear p -> clear (x :: p).
Proof. intros H C e [E|I]; [exact (H e E)|exact (C e I)]. Qed.
(** [passed ls r]: from [ls] to [r], over no failure *)
Definition passed (ls r : lines) : Prop := exists p, ls = p ++ r /\ clear p.
Lemma passed_refl ls : passed ls ls.
Proof. exists []. split; [reflexivity|apply clear_nil]. Qed.
Lemma passed_trans a b c : passed a b -> passed b c -> passed a c.
Proof. intros (p & -> & P) (q & -> & Q). exists (p ++ q). split; [apply app_assoc|apply clear_app; auto]. Qed.
Lemma passed_cons x ls r : (forall e, x <> Some (IFail e)) -> passed ls r -> passed (x :: ls) r.
Proof. intros H (p & -> & P). exists (x :: p). split; [reflexivity|apply clear_cons; auto]. Qed.
Definition tracks {A} (m : res A) (ls : lines) : Prop :=
  match m with
  | (Ok _, r) => passed ls r
  | (Err e, r) => (passed ls r /\ exists l, peek r = Some (ILine l)) \/ passed ls (Some (IFail e) :: r)
  | (Panic, r) => True
  end.
Lemma bind_tracks {A B} (m : res A) (f : A -> lines -> res B) ls :
  tracks m ls -> (forall a l, m = (Ok a, l) -> tracks (f a l) l) -> tracks (bind m f) ls.
Proof.
  destruct m as [[a|e|] l]; cbn [bind]; intros H Hf; [|exact H|exact I].
  specialize (Hf a l eq_refl). cbn [tracks] in H. destruct (f a l) as [[b|e|] r]; cbn [tracks] in *.
  - exact (passed_trans _ _ _ H Hf).
  - destruct Hf as [[Hf L]|Hf]; [left; split; [exact (passed_trans _ _ _ H Hf)|exact L]|right; exact (passed_trans _ _ _ H Hf)].
  - exact I.
Qed.
Lemma ret_tracks {A} (a : A) ls : tracks (Ok a, ls) ls.
Proof. apply passed_refl. Qed.
Lemma append_conts_tracks p ls : forall s, tracks (append_conts p s ls) ls.
Proof.
  induction ls as [|i ls IH]; intros s; cbn [append_conts]; [apply ret_tracks|].
  destruct i as [[[|n k t|n q tag t|n q t]|e]|].
  1-3: apply ret_tracks.
  - destruct (str_eqb q p); [|apply ret_tracks]. specialize (IH (s ++ t)).
    destruct (append_conts p (s ++ t) ls) as [[b|e|] r]; cbn [tracks] in *; [| |exact I].
    + apply passed_cons; [discriminate|exact IH].
    + destruct IH as [[IH L]|IH]; [left; split; [|exact L]|right]; (apply passed_cons; [discriminate|exact IH]).
  - right. apply passed_refl.
  - cbn. apply passed_cons; [discriminate|apply passed_refl].
Qed.
Lemma parse_msg_tracks o t ls : tracks (parse_msg o t ls) ls.
Proof.
  rewrite parse_msg_eq. destruct ls as [|[[[|n k s|n q tag s|n q s]|e]|] ls].
  1-3,5: apply ret_tracks.
  - destruct (_ && _); [|apply ret_tracks]. pose proof (append_conts_tracks q ls s) as H.
    destruct (append_conts q s ls) as [[b|e|] r]; cbn [tracks] in *; [| |exact I].
    + apply passed_cons; [discriminate|exact H].
    + destruct H as [[H L]|H]; [left; split; [|exact L]|right]; (apply passed_cons; [discriminate|exact H]).
  - right. apply passed_refl.
  - cbn. apply passed_cons; [discriminate|apply passed_refl].
Qed.
Lemma expected_tracks z ls : tracks (expected z ls) ls.
Proof.
  unfold expected, peek, next. destruct ls as [|[[[|n k s|n q tag s|n q s]|e]|] ls]; cbn [hd tl].
  1,2,7: apply ret_tracks.
  4: right; apply passed_refl.
  all: left; split; [apply passed_refl|eexists; reflexivity].
Qed.
#[export] Hint Resolve ret_tracks parse_msg_tracks expected_tracks : core.
Lemma parse_values_tracks o k : forall i vs ls, tracks (parse_values o k i vs ls) ls.
Proof. induction k as [|k IH]; intros i vs ls; cbn [parse_values]; [auto|]. apply bind_tracks; auto. Qed.
Lemma new_message_tracks forms o id pl ls : tracks (new_message forms o id pl ls) ls.
Proof.
  unfold new_message. destruct id as [id|]; [|auto]. destruct pl as [pl|].
  - apply bind_tracks; [apply parse_values_tracks|]. intros vs l _. destruct (is_empty vs); [|auto]. apply bind_tracks; auto.
  - apply bind_tracks; auto. intros [t|] l _; [auto|]. apply bind_tracks; auto.
Qed.
Lemma parse_message_fields_tracks forms first u ls : tracks (parse_message_fields forms first u ls) ls.
Proof.
  unfold parse_message_fields.
  apply bind_tracks; auto; intros pc l1 _.
  apply bind_tracks; auto; intros pi l2 _.
  apply bind_tracks; [destruct pi; auto|]; intros pp l3 _.
  apply bind_tracks; auto; intros c l4 _.
  apply bind_tracks; auto; intros i l5 _.
  destruct (negb first && _).
  - apply bind_tracks; auto.
  - apply bind_tracks; auto; intros pl l6 _.
    apply bind_tracks; [apply new_message_tracks|]. intros [m|] l7 _; auto.
Qed.
Lemma parse_comments_tracks ls : forall u, tracks (parse_comments u ls) ls.
Proof.
  induction ls as [|x ls IH]; intros u; cbn [parse_comments]; [auto|].
  destruct x as [[[|n k t|n q tag t|n q t]|e]|]; auto.
  - specialize (IH (apply_comment u k t)). destruct (parse_comments _ ls) as [[b|e|] r]; cbn [tracks] in *; [| |exact I].
    + apply passed_cons; [discriminate|exact IH].
    + destruct IH as [[IH L]|IH]; [left; split; [|exact L]|right]; (apply passed_cons; [discriminate|exact IH]).
  - right. apply passed_refl.
Qed.
(** The outcome of reading an entry: errors come from a failure, or leave the rest unread. *)
Lemma runit_tracks forms first ls o r : solid ls -> runit forms first ls = (o, r) ->
  (passed ls r /\ (forall e, peek r <> Some (IFail e)) /\ o <> Panic)
  \/ exists e, o = Err e /\ passed ls (Some (IFail e) :: r).
Proof.
  intros N E. pose proof (runit_seen forms first ls N) as S. pose proof (runit_no_panic forms first ls) as NP.
  unfold no_panic in NP. rewrite E in S, NP. cbn [fst] in NP.
  destruct o as [a|e|]; [|clear S|contradiction].
  - left. split; [|split; [exact (S a r eq_refl)|discriminate]]. clear S NP. unfold runit in E.
    apply bind_ok in E as (u & l1 & E1 & E). pose proof (parse_comments_tracks ls unit_default) as T. rewrite E1 in T. cbn [tracks] in T.
    refine (passed_trans _ _ _ T _). destruct (peek l1) as [[l|e]|]; try (injection E as _ <-; apply passed_refl).
    apply bind_ok in E as (v & l2 & E2 & E). pose proof (parse_message_fields_tracks forms first (set_obsolete u (line_obsolete l)) l1) as T2.
    rewrite E2 in T2. cbn [tracks] in T2. apply (f_equal snd) in E. rewrite finish_unit_lines in E. cbn in E. subst. exact T2.
  - unfold runit in E. apply bind_err in E as [E|(u & l1 & E1 & E)].
    + pose proof (parse_comments_tracks ls unit_default) as T. rewrite E in T. destruct T as [[T (l & L)]|T].
      * left. split; [exact T|]. split; [rewrite L|]; discriminate.
      * right. eauto.
    + pose proof (parse_comments_tracks ls unit_default) as T. rewrite E1 in T. cbn [tracks] in T.
      assert (solid l1) as N1 by (eapply solid_suffix; [|exact N]; pose proof (parse_comments_suffix ls unit_default) as S; rewrite E1 in S; exact S).
      destruct (peek l1) as [[l|e']|]; try discriminate.
      apply bind_err in E as [E|(v & l2 & E2 & E)].
      * pose proof (parse_message_fields_tracks forms first (set_obsolete u (line_obsolete l)) l1) as T2. rewrite E in T2.
        destruct T2 as [[T2 (l' & L)]|T2].
        -- left. split; [exact (passed_trans _ _ _ T T2)|]. split; [rewrite L|]; discriminate.
        -- right. exists e. split; [reflexivity|exact (passed_trans _ _ _ T T2)].
      * pose proof (parse_message_fields_tracks forms first (set_obsolete u (line_obsolete l)) l1) as T2. rewrite E2 in T2. cbn [tracks] in T2.
        pose proof (parse_message_fields_seen forms first (set_obsolete u (line_obsolete l)) l1 N1 _ _ E2) as S2.
        pose proof (f_equal snd E) as Er. rewrite finish_unit_lines in Er. cbn in Er. subst.
        left. split; [exact (passed_trans _ _ _ T T2)|]. split; [exact S2|discriminate].
Qed.

(** No entry: the end of the lines has been reached. *)
Lemma runit_none forms first ls r : ~ In (Some (ILine PBlank)) ls -> runit forms first ls = (Ok None, r) -> peek r = None.
Proof.
  intros C E. assert (forall z l l', expected z l = (Ok tt, l') -> suffix l ls -> peek l' = None) as X.
  { intros z l l' H (p & ->). unfold expected, peek, next in *. destruct l as [|[[[|n k s|n q tag s|n q s]|e]|] l]; try discriminate; injection H as <-; try reflexivity.
    exfalso. apply C, in_or_app. right; left; reflexivity. }
  unfold runit in E. apply bind_ok in E as (u & l1 & E1 & E).
  pose proof (parse_comments_suffix ls unit_default) as S1. rewrite E1 in S1. cbn [snd] in S1.
  destruct (peek l1) as [[l|e]|] eqn:P.
  2: { exfalso. exact (parse_comments_peek _ _ _ _ e E1 P). }
  2: { injection E as <-. exact P. }
  apply bind_ok in E as (v & l2 & E2 & E). destruct v as [v|]; cbn [finish_unit] in E.
  { destruct (negb first && _); discriminate. }
  injection E as <-. unfold parse_message_fields in E2. revert E2. generalize (u_obsolete (set_obsolete u (line_obsolete l))). intros o E2.
  apply bind_ok in E2 as (pc & m1 & F1 & E2). pose proof (parse_msg_suffix o (lit "|msgctxt") l1) as T1. rewrite F1 in T1. cbn [snd] in T1.
  apply bind_ok in E2 as (pi & m2 & F2 & E2). pose proof (parse_msg_suffix o (lit "|msgid") m1) as T2. rewrite F2 in T2. cbn [snd] in T2.
  apply bind_ok in E2 as (pp & m3 & F3 & E2).
  assert (suffix m3 m2) as T3.
  { destruct pi; [pose proof (parse_msg_suffix o (lit "|msgid_plural") m2) as T3; rewrite F3 in T3; exact T3|injection F3 as _ ->; auto]. }
  apply bind_ok in E2 as (c & m4 & F4 & E2). pose proof (parse_msg_suffix o (lit "msgctxt") m3) as T4. rewrite F4 in T4. cbn [snd] in T4.
  apply bind_ok in E2 as (i & m5 & F5 & E2). pose proof (parse_msg_suffix o (lit "msgid") m4) as T5. rewrite F5 in T5. cbn [snd] in T5.
  assert (suffix m5 ls) as S5 by (eapply suffix_trans; [|exact S1]; eapply suffix_trans; [|exact T1]; eapply suffix_trans; [|exact T2]; eapply suffix_trans; [|exact T3]; eapply suffix_trans; [|exact T4]; exact T5).
  destruct (negb first && _).
  - apply bind_ok in E2 as ([] & m6 & F6 & E2). injection E2 as <-. exact (X _ _ _ F6 S5).
  - apply bind_ok in E2 as (pl & m6 & F6 & E2). pose proof (parse_msg_suffix o (lit "msgid_plural") m5) as T6. rewrite F6 in T6. cbn [snd] in T6.
    assert (suffix m6 ls) as S6 by (eapply suffix_trans; [exact T6|exact S5]).
    apply bind_ok in E2 as (m & m7 & F7 & E2). destruct m; [discriminate|]. injection E2 as <-.
    unfold new_message in F7. destruct i as [i|]; [|discriminate]. destruct pl as [pl|].
    + apply bind_ok in F7 as (vs & m8 & F8 & F7). destruct (is_empty vs); [|discriminate].
      apply bind_ok in F7 as ([] & m9 & F9 & F7). injection F7 as <-. apply (X _ _ _ F9).
      eapply suffix_trans; [|exact S6]. pose proof (parse_values_suffix o (N.to_nat (forms_count forms)) 0 [] m6) as T8. rewrite F8 in T8. exact T8.
    + apply bind_ok in F7 as (t & m8 & F8 & F7). destruct t; [discriminate|].
      apply bind_ok in F7 as ([] & m9 & F9 & F7). injection F7 as <-. apply (X _ _ _ F9).
      eapply suffix_trans; [|exact S6]. pose proof (parse_msg_suffix o (lit "msgstr") m6) as T8. rewrite F8 in T8. exact T8.
Qed.

(** * Lines followed by a failure *)
Lemma passed_fail c e r : clear c -> passed (c ++ [Some (IFail e)]) r -> exists c2, r = c2 ++ [Some (IFail e)].
Proof.
  intros C (p & E & P). assert (r = [] \/ exists r' z, r = r' ++ [z]) as [->|(r' & z & ->)].
  { destruct r as [|x r] using rev_ind; eauto. }
  - rewrite app_nil_r in E. subst p. exfalso. apply clear_app in P as [_ P]. apply (P e). left; reflexivity.
  - rewrite app_assoc in E. apply app_inj_tail in E as [_ <-]. eauto.
Qed.
Lemma passed_to_fail c e e' r : clear c -> passed (c ++ [Some (IFail e)]) (Some (IFail e') :: r) -> e' = e /\ r = [].
Proof.
  intros C P. pose proof (passed_fail _ _ _ C P) as (c2 & E). destruct c2 as [|x c2]; [injection E as <- ->; auto|].
  exfalso. injection E as <- ->. destruct P as (p & E & _). rewrite app_comm_cons, app_assoc in E. apply app_inj_tail in E as [-> _].
  apply clear_app in C as [_ C]. apply (C e'). left; reflexivity.
Qed.
Theorem runit_fail forms first c e o r : solid c -> clear c -> ~ In (Some (ILine PBlank)) c ->
  runit forms first (c ++ [Some (IFail e)]) = (o, r) ->
  (o = Err e /\ r = []) \/
  (o <> Ok None /\ o <> Panic /\ exists c2, c2 <> [] /\ suffix c2 c /\ r = c2 ++ [Some (IFail e)]
   /\ forall x, runit forms first (c ++ x) = (o, c2 ++ x)).
Proof.
  intros N C B E. assert (solid (c ++ [Some (IFail e)])) as NS.
  { apply solid_app. split; [exact N|]. intros [I|[]]; discriminate. }
  destruct (runit_tracks _ _ _ _ _ NS E) as [(P & Q & NP)|(e' & -> & P)].
  - right. destruct (passed_fail _ _ _ C P) as (c2 & ->).
    assert (c2 <> []) as N2 by (intros ->; exact (Q e eq_refl)).
    split; [|split; [exact NP|]].
    + intros ->. apply runit_none in E; [|intros I; apply in_app_or in I as [I|[I|[]]]; [contradiction|discriminate]].
      destruct c2 as [|[y|] c2]; try contradiction; [discriminate|]. destruct P as (p & E' & _).
      apply NS. rewrite E'. apply in_or_app. right; left; reflexivity.
    + exists c2. split; [exact N2|]. split; [|split; [reflexivity|]].
      * destruct P as (p & E' & _). rewrite app_assoc in E'. apply app_inj_tail in E' as [-> _]. exists p; reflexivity.
      * exact (runit_local forms first _ _ _ _ N2 E).
  - left. apply passed_to_fail in P as [-> ->]; auto.
Qed.
Lemma reads_fail forms k : forall c e l, (length c <= k)%nat -> solid c -> clear c -> ~ In (Some (ILine PBlank)) c ->
  reads forms (c ++ [Some (IFail e)]) l ->
  (exists us, l = map UOk us ++ [UErr e] /\ forall x, exists rest, reads forms (c ++ x) (map UOk us ++ rest))
  \/ (exists us e', l = map UOk us ++ [UErr e'] /\ forall x, reads forms (c ++ x) l).
Proof.
  induction k as [|k IH]; intros c e l L N C B H.
  { destruct c; [|cbn in L; lia]. cbn [app] in H.
    assert (forall f, runit forms f [Some (IFail e)] = (Err e, [])) as R by reflexivity.
    inversion H as [ls ls' E|ls e' ls' E|ls u ls' l' E H']; subst; rewrite R in E; try discriminate. injection E as <- <-.
    left. exists []. split; [reflexivity|]. intros x. destruct (reads_total forms ([] ++ x)) as (rest & Hr & _). exists rest; exact Hr. }
  inversion H as [ls ls' E|ls e' ls' E|ls u ls' l' E H']; subst;
    destruct (runit_fail _ _ _ _ _ _ N C B E) as [[E1 E2]|(NN & NP & c2 & N2 & S2 & -> & HX)]; try discriminate; try congruence.
  - injection E1 as ->. left. exists []. split; [reflexivity|]. intros x. destruct (reads_total forms (c ++ x)) as (rest & Hr & _). exists rest; exact Hr.
  - right. exists [], e'. split; [reflexivity|]. intros x. eapply reads_err, HX.
  - assert ((length c2 <= k)%nat) as L2.
    { pose proof (runit_count _ _ _ _ E) as K. rewrite !some_count_app in K. cbn [some_count] in K.
      destruct S2 as (p & ->). rewrite app_length in L. destruct p; [rewrite app_nil_l in K; lia|cbn in L; lia]. }
    assert (solid c2) as N2' by (eapply solid_suffix; eassumption).
    assert (clear c2) as C2 by (destruct S2 as (p & ->); apply clear_app in C as [_ C]; exact C).
    assert (~ In (Some (ILine PBlank)) c2) as B2 by (intros I; apply B; destruct S2 as (p & ->); apply in_or_app; right; exact I).
    destruct (IH c2 e l' L2 N2' C2 B2 H') as [(us & -> & HR)|(us & e' & -> & HR)].
    + left. exists (u :: us). split; [reflexivity|]. intros x. destruct (HR x) as (rest & Hr). exists rest. exact (reads_unit _ _ _ _ _ (HX x) Hr).
    + right. exists (u :: us), e'. split; [reflexivity|]. intros x. exact (reads_unit _ _ _ _ _ (HX x) (HR x)).
Qed.

(** The catalogue read from lines followed by a failure [e]: either [e] is reported, and
    what was read before is read from every continuation; or another error is reported,
    and the whole catalogue is read from every continuation. *)
Theorem catalogue_fail lib pf c e o : solid c -> clear c -> ~ In (Some (ILine PBlank)) c ->
  catalogue_of lib pf (c ++ [Some (IFail e)]) o ->
  o = Err e
  \/ (exists a b p t us, o = Ok (Catalogue a b p t (map UOk us ++ [UErr e]))
       /\ forall x, exists rest, catalogue_of lib pf (c ++ x) (Ok (Catalogue a b p t (map UOk us ++ rest))))
  \/ (((exists e', o = Err e') \/ (exists a b p t us e', o = Ok (Catalogue a b p t (map UOk us ++ [UErr e']))))
      /\ forall x, catalogue_of lib pf (c ++ x) o).
Proof.
  intros N C B H.
  assert (forall c2, suffix c2 c -> solid c2 /\ clear c2 /\ ~ In (Some (ILine PBlank)) c2) as SUB.
  { intros c2 S2. split; [eapply solid_suffix; eassumption|]. destruct S2 as (p & ->). apply clear_app in C as [_ C]. split; [exact C|].
    intros I; apply B; apply in_or_app; right; exact I. }
  destruct H as [e' r E|r E|u r l E M R|u r e' E M F|u r forms l E M F R];
    destruct (runit_fail _ _ _ _ _ _ N C B E) as [[E1 E2]|(NN & NP & c2 & N2 & S2 & -> & HX)]; try discriminate; try congruence.
  - injection E1 as ->. left; reflexivity.
  - right; right. split; [left; eauto|]. intros x. eapply co_err, HX.
  - destruct (SUB c2 S2) as (N3 & C3 & B3).
    destruct (reads_fail None (length c2) c2 e l (Nat.le_refl _) N3 C3 B3 R) as [(us & -> & HR)|(us & e' & -> & HR)].
    + right; left. do 4 eexists. exists (u :: us). split; [reflexivity|]. intros x. destruct (HR x) as (rest & Hr).
      exists rest. eapply co_plain; [exact (HX x)|exact M|exact Hr].
    + right; right. split; [right; do 4 eexists; exists (u :: us), e'; reflexivity|]. intros x. eapply co_plain; [exact (HX x)|exact M|exact (HR x)].
  - right; right. split; [left; eauto|]. intros x. eapply co_bad_header; [exact (HX x)|exact M|exact F].
  - destruct (SUB c2 S2) as (N3 & C3 & B3).
    destruct (reads_fail forms (length c2) c2 e l (Nat.le_refl _) N3 C3 B3 R) as [(us & -> & HR)|(us & e' & -> & HR)].
    + right; left. do 4 eexists. exists us. split; [reflexivity|]. intros x. destruct (HR x) as (rest & Hr).
      exists rest. eapply co_header; [exact (HX x)|exact M|exact F|exact Hr].
    + right; right. split; [right; do 4 eexists; exists us, e'; reflexivity|]. intros x. eapply co_header; [exact (HX x)|exact M|exact F|exact (HR x)].
Qed.

(** * Lines followed by nothing *)
Lemma reads_cut forms c l : reads forms c l -> forall l0 z, l = l0 ++ [z] -> forall x, exists rest, reads forms (c ++ x) (l0 ++ rest).
Proof.
  induction 1 as [c c' E|c e c' E|c u c' l E H IH]; intros l0 z L x.
  - destruct l0; discriminate.
  - destruct l0 as [|y l0]; [|destruct l0; discriminate]. destruct (reads_total forms (c ++ x)) as (rest & Hr & _). exists rest; exact Hr.
  - destruct l0 as [|y l0]; [destruct (reads_total forms (c ++ x)) as (rest & Hr & _); exists rest; exact Hr|].
    injection L as <- ->. destruct (IH l0 z eq_refl x) as (rest & Hr). exists rest. cbn [app].
    assert (c' <> []) as N.
    { intros ->. assert (reads forms [] []) as R0 by (eapply reads_end; reflexivity).
      pose proof (reads_det _ _ _ _ H R0) as X. destruct l0; discriminate. }
    apply reads_unit with (ls' := c' ++ x); [|exact Hr].
    apply (runit_local forms false c [] _ c' N). rewrite !app_nil_r. exact E.
Qed.
Theorem catalogue_cut lib pf c a b p t l0 z :
  catalogue_of lib pf c (Ok (Catalogue a b p t (l0 ++ [z]))) -> l0 <> [] ->
  forall x, exists rest, catalogue_of lib pf (c ++ x) (Ok (Catalogue a b p t (l0 ++ rest))).
Proof.
  intros H NL x.
  assert (forall forms l, reads forms [] l -> l = []) as R0.
  { intros forms l R. eapply reads_det; [exact R|]. eapply reads_end; reflexivity. }
  remember (Ok (Catalogue a b p t (l0 ++ [z]))) as o eqn:Q.
  destruct H as [e' r E|r E|u r l E M R|u r e' E M F|u r forms l E M F R]; try discriminate.
  - injection Q as <- <- <- <- Q. destruct l0; discriminate.
  - injection Q as <- <- <- <- Q. destruct l0 as [|y l0]; [contradiction|]. injection Q as <- ->.
    assert (r <> []) as N by (intros ->; apply R0 in R; destruct l0; discriminate).
    destruct (reads_cut _ _ _ R l0 z eq_refl x) as (rest & Hr). exists rest.
    eapply co_plain; [|exact M|exact Hr]. apply (runit_local None true c [] _ r N). rewrite !app_nil_r. exact E.
  - injection Q as <- <- <- <- ->.
    assert (r <> []) as N by (intros ->; apply R0 in R; destruct l0; discriminate).
    destruct (reads_cut _ _ _ R l0 z eq_refl x) as (rest & Hr). exists rest.
    eapply co_header; [|exact M|exact F|exact Hr]. apply (runit_local None true c [] _ r N). rewrite !app_nil_r. exact E.
Qed.
