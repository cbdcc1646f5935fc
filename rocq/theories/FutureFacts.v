(** What is delivered does not depend on what has not been read. *)
From Coq Require Import String Arith NArith ZArith Bool List Lia.
From Verif Require Import ModelBase ModelUtf8 ModelLine ModelFormula ModelData ModelSource ModelReader ModelLazy
  SpecSource SpecReader SpecLazy BaseFacts IterFacts ReaderFacts ReadsFacts LazyFacts.
Import ListNotations.

(** * Reads are asked for in order *)
Lemma read_until_events_suffix evs : forall acc, suffix (s_events (snd (read_until_events acc evs))) evs.
Proof.
  induction evs as [|[d| |c] evs IH]; intros acc; cbn [read_until_events]; auto.
  destruct d as [|b d]; [cbn; auto|]. destruct (split_lf (b :: d)) as [[l r]|]; cbn [snd s_events]; auto.
Qed.
Lemma read_until_events_less evs acc : evs <> [] -> length (s_events (snd (read_until_events acc evs))) < length evs.
Proof.
  destruct evs as [|[d| |c] evs]; intros N; [contradiction|..]; cbn [read_until_events].
  - destruct d as [|b d]; [cbn; lia|]. destruct (split_lf (b :: d)) as [[l r]|]; [cbn; lia|].
    pose proof (suffix_length _ _ (read_until_events_suffix evs (acc ++ b :: d))). cbn [length]. lia.
  - pose proof (suffix_length _ _ (read_until_events_suffix evs acc)). cbn [length]. lia.
  - cbn; lia.
Qed.
Lemma read_until_suffix s : suffix (s_events (snd (read_until s))) (s_events s).
Proof. unfold read_until. destruct (split_lf (s_buf s)) as [[l r]|]; [cbn; auto|apply read_until_events_suffix]. Qed.
Lemma lines_next_suffix s : suffix (s_events (snd (lines_next s))) (s_events s).
Proof.
  pose proof (read_until_suffix s) as H. unfold lines_next. destruct (read_until s) as [[[|b bs]|c] s']; try exact H. destruct (utf8_decode _); exact H.
Qed.
Definition it_events (it : line_iter) : option (list rd_event) := option_map s_events (li_inner it).
Lemma li_next_suffix it evs' : it_events (snd (li_next it)) = Some evs' -> exists evs, it_events it = Some evs /\ suffix evs' evs.
Proof.
  remember (li_size it) as k eqn:Ek. revert it Ek. induction k as [k IH] using lt_wf_ind. intros it -> H. rewrite li_next_step in H.
  unfold it_events in *. destruct (li_inner it) as [s|] eqn:I; [|discriminate]. exists (s_events s). split; [reflexivity|].
  pose proof (lines_next_suffix s) as X. destruct (lines_next s) as [[[line|e]|] s'] eqn:E; cbn [snd] in *; try discriminate.
  - destruct (parse_line line (li_n it)) as [[| | |]|]; cbn [snd li_inner option_map] in H; try discriminate.
    2-4: injection H as <-; exact X.
    apply IH with (m := li_size (LineIter (li_n it + 1) (Some s'))) in H; [|unfold li_size; rewrite I; cbn; apply lines_next_size in E; exact E|reflexivity].
    destruct H as (evs & Q & S). cbn in Q. injection Q as <-. exact (suffix_trans _ _ _ S X).
  - injection H as <-. exact X.
Qed.
Lemma after_suffix k : forall it evs', it_events (after k it) = Some evs' -> exists evs, it_events it = Some evs /\ suffix evs' evs.
Proof.
  induction k as [|k IH]; intros it evs' H; [exists evs'; auto|]. cbn [after] in H. apply IH in H as (evs1 & H & S).
  apply li_next_suffix in H as (evs & H & S'). exists evs. split; [exact H|]. exact (suffix_trans _ _ _ S S').
Qed.

(** * Another future *)
Section Future.
  Variables rest rest' : list rd_event.
  Hypothesis NE : rest <> [].

  Definition live_src (s : source) : Prop := length rest <= length (s_events s).
  Definition live_it (it : line_iter) : Prop := match li_inner it with Some s => live_src s | None => False end.
  Definition live (p : peekable) : Prop := live_it (pk_iter p).
  Definition rel_src (s t : source) : Prop := exists b x, s = Source b (x ++ rest) /\ t = Source b (x ++ rest').
  Definition rel_it (i j : line_iter) : Prop := exists s t, li_inner i = Some s /\ li_inner j = Some t /\ li_n i = li_n j /\ rel_src s t.
  Definition rel (p q : peekable) : Prop := pk_peeked p = pk_peeked q /\ rel_it (pk_iter p) (pk_iter q).

  Lemma read_until_events_future x : forall acc, live_src (snd (read_until_events acc (x ++ rest))) ->
    fst (read_until_events acc (x ++ rest')) = fst (read_until_events acc (x ++ rest))
    /\ rel_src (snd (read_until_events acc (x ++ rest))) (snd (read_until_events acc (x ++ rest'))).
  Proof.
    induction x as [|[d| |c] x IH]; intros acc Lv; cbn [app read_until_events] in *.
    - exfalso. pose proof (read_until_events_less rest acc NE). unfold live_src in Lv. lia.
    - destruct d as [|b d]; [split; [reflexivity|]; do 2 eexists; split; reflexivity|].
      destruct (split_lf (b :: d)) as [[l r]|]; [split; [reflexivity|]; do 2 eexists; split; reflexivity|]. apply IH, Lv.
    - apply IH, Lv.
    - split; [reflexivity|]; do 2 eexists; split; reflexivity.
  Qed.
  Lemma lines_next_future s t : rel_src s t -> live_src (snd (lines_next s)) -> fst (lines_next t) = fst (lines_next s) /\ rel_src (snd (lines_next s)) (snd (lines_next t)).
  Proof.
    intros R Lv.
    assert (live_src (snd (read_until s))) as Lv'.
    { revert Lv. unfold lines_next. destruct (read_until s) as [[[|b bs]|c] s']; try exact (fun x => x). destruct (utf8_decode _); exact (fun x => x). }
    assert (fst (read_until t) = fst (read_until s) /\ rel_src (snd (read_until s)) (snd (read_until t))) as [E R'].
    { destruct R as (b & x & -> & ->). unfold read_until in *. cbn [s_buf s_events] in *. destruct (split_lf b) as [[l r]|].
      - split; [reflexivity|]. do 2 eexists; split; reflexivity.
      - apply read_until_events_future, Lv'. }
    unfold lines_next. destruct (read_until s) as [o s'], (read_until t) as [o' t']. cbn [fst snd] in *. subst o'.
    destruct o as [[|b' bs]|c]; [split; [reflexivity|exact R']| |split; [reflexivity|exact R']]. destruct (utf8_decode _); (split; [reflexivity|exact R']).
  Qed.
  Lemma li_next_live it : live_it (snd (li_next it)) -> live_it it.
  Proof.
    unfold live_it. intros H. destruct (li_inner (snd (li_next it))) as [s'|] eqn:E; [|contradiction].
    destruct (li_next_suffix it (s_events s')) as (evs & Q & S); [unfold it_events; rewrite E; reflexivity|].
    unfold it_events in Q. destruct (li_inner it) as [s|]; [|discriminate]. injection Q as <-. apply suffix_length in S. unfold live_src in *. lia.
  Qed.
  Lemma li_next_future i j : rel_it i j -> live_it (snd (li_next i)) -> fst (li_next j) = fst (li_next i) /\ rel_it (snd (li_next i)) (snd (li_next j)).
  Proof.
    remember (li_size i) as k eqn:Ek. revert i j Ek. induction k as [k IH] using lt_wf_ind. intros i j -> (s & t & Ei & Ej & En & R).
    rewrite (li_next_step i), (li_next_step j), Ei, Ej, <- En. intros Lv.
    assert (live_src (snd (lines_next s))) as Ls.
    { revert Lv. destruct (lines_next s) as [[[line|e]|] s']; cbn [snd]; try exact (fun x => x); try exact (fun x => False_ind _ x).
      destruct (parse_line line (li_n i)) as [[| | |]|]; cbn [snd]; try exact (fun x => x); try exact (fun x => False_ind _ x). apply li_next_live. }
    destruct (lines_next_future s t R Ls) as [E R']. destruct (lines_next s) as [o s'] eqn:Es, (lines_next t) as [o' t']. cbn [fst snd] in *. subst o'.
    destruct o as [[line|e]|].
    - destruct (parse_line line (li_n i)) as [[| | |]|]; cbn [snd fst] in *; try contradiction.
      2-4: split; [reflexivity|]; exists s', t'; repeat split; try reflexivity; exact R'.
      eapply IH; [|reflexivity|exists s', t'; repeat split; try reflexivity; exact R'|exact Lv].
      unfold li_size. rewrite Ei. cbn [li_inner]. apply lines_next_size in Es. exact Es.
    - contradiction.
    - cbn [fst snd]. split; [reflexivity|]. exists s', t'. repeat split; try reflexivity. exact R'.
  Qed.

  (** ** Functions of the iterator *)
  Definition follows {A} (f : peekable -> A * peekable) (p : peekable) : Prop :=
    live (snd (f p)) -> live p /\ forall q, rel p q -> fst (f q) = fst (f p) /\ rel (snd (f p)) (snd (f q)).
  Definition bindp {A B} (f : peekable -> A * peekable) (g : A -> peekable -> B * peekable) (p : peekable) : B * peekable :=
    let (a, p') := f p in g a p'.
  Lemma follows_ext {A} (f g : peekable -> A * peekable) p : (forall q, f q = g q) -> follows g p -> follows f p.
  Proof. intros E H Lv. rewrite E in Lv. destruct (H Lv) as [Lp K]. split; [exact Lp|]. intros q R. rewrite !E. apply K, R. Qed.
  Lemma follows_bindp {A B} (f : peekable -> A * peekable) (g : A -> peekable -> B * peekable) p : (forall p, follows f p) -> (forall a p, follows (g a) p) -> follows (bindp f g) p.
  Proof.
    intros Hf Hg Lv. unfold bindp in *. pose proof (Hf p) as Hp. unfold follows in Hp. destruct (f p) as [a p1] eqn:E1. cbn [fst snd] in *.
    destruct (Hg a p1 Lv) as [Lp1 K1]. destruct (Hp Lp1) as [Lp K]. split; [exact Lp|]. intros q R. destruct (K q R) as [E R1]. destruct (f q) as [a' q1]. cbn [fst snd] in *. subst a'.
    apply K1, R1.
  Qed.
  Lemma follows_ret {A} (a : A) p : follows (fun p => (a, p)) p.
  Proof. intros Lv. split; [exact Lv|]. intros q R. split; [reflexivity|exact R]. Qed.
  Lemma follows_bind {A B} (f : peekable -> lres A) (g : A -> peekable -> lres B) p : (forall p, follows f p) -> (forall a p, follows (g a) p) -> follows (fun p => lbind (f p) g) p.
  Proof.
    intros Hf Hg. apply (follows_ext _ (bindp f (fun o => match o with Ok a => g a | Err e => fun p => (Err e, p) | Panic => fun p => (Panic, p) end))).
    - intros q. unfold bindp. destruct (f q) as [[a|e|] q1]; reflexivity.
    - apply follows_bindp; [exact Hf|]. intros [a|e|] q; [apply Hg|apply follows_ret..].
  Qed.
  Lemma peek_follows p : follows lz_peek p.
  Proof.
    unfold follows, lz_peek. destruct (pk_peeked p) as [x|] eqn:P.
    - intros Lv. split; [exact Lv|]. intros q R. pose proof (proj1 R) as Q. rewrite P in Q. rewrite <- Q. split; [reflexivity|exact R].
    - intros Lv. assert (live_it (snd (li_next (pk_iter p)))) as Lv' by (destruct (li_next _) as [x it]; exact Lv). split; [exact (li_next_live _ Lv')|].
      intros q [Q R]. rewrite P in Q. rewrite <- Q. destruct (li_next_future _ _ R Lv') as [E R'].
      destruct (li_next (pk_iter p)) as [x it], (li_next (pk_iter q)) as [y jt]. cbn [fst snd] in *. subst y. split; [reflexivity|]. split; [reflexivity|exact R'].
  Qed.
  Lemma next_follows p : follows lz_next p.
  Proof.
    unfold follows, lz_next. destruct (pk_peeked p) as [x|] eqn:P.
    - intros Lv. split; [exact Lv|]. intros q [Q R]. rewrite P in Q. rewrite <- Q. split; [reflexivity|]. split; [reflexivity|exact R].
    - intros Lv. assert (live_it (snd (li_next (pk_iter p)))) as Lv' by (destruct (li_next _) as [x it]; exact Lv). split; [exact (li_next_live _ Lv')|].
      intros q [Q R]. rewrite P in Q. rewrite <- Q. destruct (li_next_future _ _ R Lv') as [E R'].
      destruct (li_next (pk_iter p)) as [x it], (li_next (pk_iter q)) as [y jt]. cbn [fst snd] in *. subst y. split; [reflexivity|]. split; [reflexivity|exact R'].
  Qed.
  Lemma fetch_next_follows p : follows lz_fetch_next p.
  Proof.
    apply (follows_ext _ (bindp lz_peek (fun x => match x with
      | Some (ILine l) => fun p => (Ok (Some l), p)
      | _ => bindp lz_next (fun y p => match y with Some (IFail e) => (Err e, p) | _ => (Ok None, p) end) end))).
    - intros q. unfold lz_fetch_next, bindp. destruct (lz_peek q) as [[[l|e]|] q1]; try reflexivity.
    - apply follows_bindp; [exact peek_follows|]. intros [[l|e]|] q; [apply follows_ret| |]; (apply follows_bindp; [exact next_follows|]; intros [[l'|e']|] q'; apply follows_ret).
  Qed.
  Lemma lz_peek_size p x p' : lz_peek p = (Some x, p') -> pk_size p' <= pk_size p.
  Proof.
    unfold lz_peek, pk_size. destruct (pk_peeked p) as [y|] eqn:P; [intros H; injection H as -> <-; rewrite P; lia|].
    destruct (li_next (pk_iter p)) as [y it] eqn:E. intros H; injection H as -> <-. apply li_next_some in E. cbn. lia.
  Qed.
  Lemma lz_next_size p x p' : lz_next p = (Some x, p') -> pk_size p' < pk_size p.
  Proof.
    unfold lz_next, pk_size. destruct (pk_peeked p) as [y|] eqn:P; [intros H; injection H as -> <-; cbn; lia|].
    destruct (li_next (pk_iter p)) as [y it] eqn:E. intros H; injection H as -> <-. apply li_next_some in E. cbn. lia.
  Qed.
  Lemma fetch_next_size p l p' : lz_fetch_next p = (Ok (Some l), p') -> pk_size p' <= pk_size p.
  Proof.
    unfold lz_fetch_next. destruct (lz_peek p) as [[[x|e]|] p1] eqn:E.
    - intros H. injection H as <- <-. exact (lz_peek_size _ _ _ E).
    - destruct (lz_next p1) as [[[y|e']|] p2]; discriminate.
    - destruct (lz_next p1) as [[[y|e']|] p2]; discriminate.
  Qed.
  Lemma append_conts_live c n : forall s p, live (snd (lz_append_conts n c s p)) -> live p.
  Proof.
    induction n as [|n IH]; intros s p Lv; [exact Lv|]. cbn [lz_append_conts] in Lv. apply (fetch_next_follows p).
    destruct (lz_fetch_next p) as [[o|e|] p1]; cbn [lbind snd] in *; try exact Lv.
    destruct o as [[|n' k t|n' f tag t|n' f t]|]; try exact Lv. destruct (str_eqb f c); [|exact Lv].
    apply (next_follows p1). destruct (lz_next p1) as [[[[|a b d|a b d e|a b d]|x]|] p2]; cbn [snd] in *; try exact Lv. exact (IH _ _ Lv).
  Qed.
  Lemma append_conts_follows c n : forall m s p q, live (snd (lz_append_conts n c s p)) -> rel p q -> pk_size p < n -> pk_size q < m ->
    fst (lz_append_conts m c s q) = fst (lz_append_conts n c s p) /\ rel (snd (lz_append_conts n c s p)) (snd (lz_append_conts m c s q)).
  Proof.
    induction n as [|n IH]; intros [|m] s p q Lv R Hn Hm; try lia. cbn [lz_append_conts] in *.
    assert (live (snd (lz_fetch_next p))) as L1.
    { revert Lv. destruct (lz_fetch_next p) as [[o|e|] p1]; cbn [lbind snd]; try exact (fun x => x).
      destruct o as [[|n' k t|n' f tag t|n' f t]|]; try exact (fun x => x). destruct (str_eqb f c); [|exact (fun x => x)].
      intros Lv. apply (next_follows p1). destruct (lz_next p1) as [[[[|a b d|a b d e|a b d]|x]|] p2]; cbn [snd] in *; try exact Lv. exact (append_conts_live _ _ _ _ Lv). }
    destruct (proj2 (fetch_next_follows p L1) q R) as [E R1].
    destruct (lz_fetch_next p) as [o p1] eqn:F, (lz_fetch_next q) as [o' q1] eqn:G. cbn [fst snd] in *. subst o'.
    destruct o as [o|e|]; cbn [lbind] in *; try (split; [reflexivity|exact R1]).
    destruct o as [[|n' k t|n' f tag t|n' f t]|]; try (split; [reflexivity|exact R1]). destruct (str_eqb f c); [|split; [reflexivity|exact R1]].
    apply fetch_next_size in F, G.
    assert (live (snd (lz_next p1))) as L2.
    { revert Lv. destruct (lz_next p1) as [[[[|a b d|a b d e|a b d]|x]|] p2]; cbn [snd] in *; try exact (fun x => x). apply append_conts_live. }
    destruct (proj2 (next_follows p1 L2) q1 R1) as [E R2].
    destruct (lz_next p1) as [o p2] eqn:F2, (lz_next q1) as [o' q2] eqn:G2. cbn [fst snd] in *. subst o'.
    destruct o as [[[|a b d|a b d e|a b d]|x]|]; try (split; [reflexivity|exact R2]).
    apply lz_next_size in F2, G2. apply IH; [exact Lv|exact R2|lia|lia].
  Qed.
  Lemma parse_msg_follows o t p : follows (lz_parse_msg o t) p.
  Proof.
    unfold lz_parse_msg. apply follows_bind; [exact fetch_next_follows|]. clear p. intros l p.
    destruct l as [[|n k s|n q tag s|n q s]|]; try (apply follows_ret).
    destruct (_ && _); [|apply follows_ret].
    apply (follows_ext _ (bindp lz_next (fun x p => match x with Some (ILine (PMessage _ q _ s)) => lz_append_conts (S (pk_size p)) q s p | _ => (Panic, p) end))).
    - intros p'. unfold bindp. destruct (lz_next p') as [[[[|a b d|a b d e|a b d]|x]|] p2]; reflexivity.
    - apply follows_bindp; [exact next_follows|]. clear p. intros [[[|a b d|a b d e|a b d]|x]|] p; try (apply follows_ret).
      intros Lv. split; [exact (append_conts_live _ _ _ _ Lv)|]. intros p' R. apply append_conts_follows; [exact Lv|exact R|lia|lia].
  Qed.
  Lemma expected_follows z p : follows (lz_expected z) p.
  Proof.
    apply (follows_ext _ (bindp lz_peek (fun x => match x with
      | None | Some (ILine PBlank) => fun p => (Ok tt, p)
      | Some (IFail _) => bindp lz_next (fun y p => match y with Some (IFail e) => (Err e, p) | _ => (Panic, p) end)
      | Some (ILine (PMessage n q _ _)) => fun p => (Err (EParse n q z), p)
      | Some (ILine (PCont n _ _)) => fun p => (Err (EParse n (lit """") z), p)
      | Some (ILine (PComment n c _)) => fun p => (Err (EParse n (35%N :: [c]) z), p) end))).
    - intros q. unfold lz_expected, bindp. destruct (lz_peek q) as [[[[|a b d|a b d e|a b d]|e]|] q1]; try reflexivity.
    - apply follows_bindp; [exact peek_follows|]. intros [[[|a b d|a b d e|a b d]|e]|] q; try apply follows_ret.
      apply follows_bindp; [exact next_follows|]. intros [[l'|e']|] q'; apply follows_ret.
  Qed.
  Lemma parse_values_follows o k : forall i vs p, follows (lz_parse_values o k i vs) p.
  Proof.
    induction k as [|k IH]; intros i vs p; cbn [lz_parse_values]; [apply follows_ret|].
    apply follows_bind; [apply parse_msg_follows|]. intros v q. apply IH.
  Qed.
  Lemma new_message_follows forms o id pl p : follows (lz_new_message forms o id pl) p.
  Proof.
    unfold lz_new_message. destruct id as [id|]; [|apply follows_ret]. destruct pl as [pl|].
    - apply follows_bind; [apply parse_values_follows|]. intros vs q. destruct (is_empty vs); [|apply follows_ret].
      apply follows_bind; [apply expected_follows|]. intros; apply follows_ret.
    - apply follows_bind; [apply parse_msg_follows|]. intros [t|] q; [apply follows_ret|].
      apply follows_bind; [apply expected_follows|]. intros; apply follows_ret.
  Qed.
  Lemma parse_message_fields_follows forms first u p : follows (lz_parse_message_fields forms first u) p.
  Proof.
    unfold lz_parse_message_fields.
    apply follows_bind; [apply parse_msg_follows|]. intros pc p1.
    apply follows_bind; [apply parse_msg_follows|]. intros pi p2.
    apply follows_bind; [destruct pi; [apply parse_msg_follows|apply follows_ret]|]. intros pp p3.
    apply follows_bind; [apply parse_msg_follows|]. intros c p4.
    apply follows_bind; [apply parse_msg_follows|]. intros i p5.
    destruct (negb first && _).
    - apply follows_bind; [apply expected_follows|]. intros; apply follows_ret.
    - apply follows_bind; [apply parse_msg_follows|]. intros pl p6.
      apply follows_bind; [apply new_message_follows|]. intros [m|] p7; apply follows_ret.
  Qed.
  Lemma parse_comments_live n : forall u p, live (snd (lz_parse_comments n u p)) -> live p.
  Proof.
    induction n as [|n IH]; intros u p Lv; [exact Lv|]. cbn [lz_parse_comments] in Lv. apply (peek_follows p).
    destruct (lz_peek p) as [x p1]. cbn [snd] in *.
    assert (live (snd (match lz_peek p1 with
          | (Some (IFail _), p) => match lz_next p with (Some (IFail e), p) => (@Err unit_ e, p) | (_, p) => (Panic, p) end
          | (_, p) => (Ok u, p) end)) -> live p1) as Tail.
    { clear Lv x. intros Lv. apply (peek_follows p1). destruct (lz_peek p1) as [[[l|e]|] p2]; cbn [snd] in *; try exact Lv.
      apply (next_follows p2). destruct (lz_next p2) as [[[l'|e']|] p3]; exact Lv. }
    destruct x as [[[|a b d|a b d e|a b d]|e]|]; try exact (Tail Lv).
    apply (next_follows p1). destruct (lz_next p1) as [[[[|a' b' d'|a' b' d' e'|a' b' d']|x]|] p2]; cbn [snd] in *; try exact Lv. exact (IH _ _ Lv).
  Qed.
  Lemma parse_comments_follows n : forall m u p q, live (snd (lz_parse_comments n u p)) -> rel p q -> pk_size p < n -> pk_size q < m ->
    fst (lz_parse_comments m u q) = fst (lz_parse_comments n u p) /\ rel (snd (lz_parse_comments n u p)) (snd (lz_parse_comments m u q)).
  Proof.
    induction n as [|n IH]; intros [|m] u p q Lv R Hn Hm; try lia.
    pose proof Lv as L0. cbn [lz_parse_comments] in Lv.
    set (tail := bindp lz_peek (fun x => match x with
          | Some (IFail _) => bindp lz_next (fun y p => match y with Some (IFail e) => (@Err unit_ e, p) | _ => (Panic, p) end)
          | _ => fun p => (Ok u, p) end)).
    assert (forall p, follows tail p) as Ft.
    { intros p'. apply follows_bindp; [exact peek_follows|]. intros [[l|e]|] q'; try apply follows_ret. apply follows_bindp; [exact next_follows|]. intros [[l'|e']|] q''; apply follows_ret. }
    assert (forall p, match lz_peek p with
          | (Some (IFail _), p) => match lz_next p with (Some (IFail e), p) => (@Err unit_ e, p) | (_, p) => (Panic, p) end
          | (_, p) => (Ok u, p) end = tail p) as Et.
    { intros p'. unfold tail, bindp. destruct (lz_peek p') as [[[l|e]|] p2]; try reflexivity. }
    cbn [lz_parse_comments] in *.
    assert (live (snd (lz_peek p))) as L1.
    { revert Lv. destruct (lz_peek p) as [x p1]. cbn [snd]. rewrite Et. destruct x as [[[|a b d|a b d e|a b d]|e]|]; try (intros Lv; exact (proj1 (Ft _ Lv))).
      intros Lv. apply (next_follows p1). destruct (lz_next p1) as [[[[|a' b' d'|a' b' d' e'|a' b' d']|x]|] p2]; cbn [snd] in *; try exact Lv. exact (parse_comments_live _ _ _ Lv). }
    destruct (proj2 (peek_follows p L1) q R) as [E R1].
    destruct (lz_peek p) as [x p1] eqn:F, (lz_peek q) as [y q1] eqn:G. cbn [fst snd] in *. subst y. rewrite Et in Lv. rewrite !Et.
    destruct x as [[[|a b d|a b d e|a b d]|e]|]; try exact (proj2 (Ft _ Lv) _ R1).
    apply lz_peek_size in F, G.
    assert (live (snd (lz_next p1))) as L2.
    { revert Lv. destruct (lz_next p1) as [[[[|a' b' d'|a' b' d' e'|a' b' d']|x]|] p2]; cbn [snd] in *; try exact (fun x => x). apply parse_comments_live. }
    destruct (proj2 (next_follows p1 L2) q1 R1) as [E R2].
    destruct (lz_next p1) as [o p2] eqn:F2, (lz_next q1) as [o' q2] eqn:G2. cbn [fst snd] in *. subst o'.
    destruct o as [[[|a' b' d'|a' b' d' e'|a' b' d']|x]|]; try (split; [reflexivity|exact R2]).
    apply lz_next_size in F2, G2. apply IH; [exact Lv|exact R2|lia|lia].
  Qed.

  (** ** The reader *)
  Definition rrel (l m : lreader) : Prop := rel (lr_lines l) (lr_lines m) /\ m = lr_with_lines l (lr_lines m).
  Definition rfollows {A} (f : lreader -> A * lreader) : Prop := forall l, live (lr_lines (snd (f l))) ->
    live (lr_lines l) /\ forall m, rrel l m -> fst (f m) = fst (f l) /\ rrel (snd (f l)) (snd (f m)).
  Lemma rrel_lines l m p q : rrel l m -> rel p q -> rrel (lr_with_lines l p) (lr_with_lines m q).
  Proof. intros [_ E] R. rewrite E. split; [exact R|reflexivity]. Qed.
  Lemma rrel_next_unit l m u : rrel l m -> rrel (lr_with_next_unit l u) (lr_with_next_unit m u).
  Proof. intros [R E]. rewrite E. split; [exact R|reflexivity]. Qed.
  Lemma rrel_unit l m : rrel l m -> lr_next_unit m = lr_next_unit l.
  Proof. intros [_ E]. rewrite E. reflexivity. Qed.
  Lemma rrel_forms l m : rrel l m -> lr_plural_forms m = lr_plural_forms l.
  Proof. intros [_ E]. rewrite E. reflexivity. Qed.
  Lemma read_line_follows : rfollows lz_read_line.
  Proof.
    intros l Lv. unfold lz_read_line in *.
    assert (live (snd (lz_peek (lr_lines l)))) as L1.
    { revert Lv. destruct (lz_peek (lr_lines l)) as [[[x|e]|] p1]; cbn [snd lr_lines lr_with_lines]; try exact (fun x => x).
      destruct (lr_next_unit l) as [[u|e']|]; cbn [snd lr_lines lr_with_lines lr_with_next_unit]; try exact (fun x => x);
      intros Lv; apply (next_follows p1); destruct (lz_next p1) as [[[l'|e'']|] p2]; exact Lv. }
    split; [exact (proj1 (peek_follows _ L1))|]. intros m R. destruct (proj2 (peek_follows _ L1) _ (proj1 R)) as [E R1].
    destruct (lz_peek (lr_lines l)) as [x p1], (lz_peek (lr_lines m)) as [y q1]. cbn [fst snd] in *. subst y. rewrite (rrel_unit _ _ R).
    destruct x as [[x|e]|]; cbn [fst snd]; try (split; [reflexivity|apply rrel_lines; assumption]).
    assert (live (lr_lines (snd (match lz_next p1 with
          | (Some (IFail e), p) => (@Err (option (N * bool)) e, lr_with_lines (lr_with_next_unit l None) p)
          | (_, p) => (Panic, lr_with_lines (lr_with_next_unit l None) p) end))) ->
       fst (match lz_next q1 with
          | (Some (IFail e), p) => (@Err (option (N * bool)) e, lr_with_lines (lr_with_next_unit m None) p)
          | (_, p) => (Panic, lr_with_lines (lr_with_next_unit m None) p) end) = fst (match lz_next p1 with
          | (Some (IFail e), p) => (@Err (option (N * bool)) e, lr_with_lines (lr_with_next_unit l None) p)
          | (_, p) => (Panic, lr_with_lines (lr_with_next_unit l None) p) end) /\
       rrel (snd (match lz_next p1 with
          | (Some (IFail e), p) => (@Err (option (N * bool)) e, lr_with_lines (lr_with_next_unit l None) p)
          | (_, p) => (Panic, lr_with_lines (lr_with_next_unit l None) p) end)) (snd (match lz_next q1 with
          | (Some (IFail e), p) => (@Err (option (N * bool)) e, lr_with_lines (lr_with_next_unit m None) p)
          | (_, p) => (Panic, lr_with_lines (lr_with_next_unit m None) p) end))) as K.
    { intros Lw. assert (live (snd (lz_next p1))) as L2 by (destruct (lz_next p1) as [[[l'|e'']|] p2]; exact Lw).
      destruct (proj2 (next_follows p1 L2) q1 R1) as [E R2]. destruct (lz_next p1) as [y p2], (lz_next q1) as [y' q2]. cbn [fst snd] in *. subst y'.
      destruct y as [[l'|e'']|]; (split; [reflexivity|apply rrel_lines; [apply rrel_next_unit, R|exact R2]]). }
    destruct (lr_next_unit l) as [[u|e']|]; try exact (K Lv). cbn [fst snd]. split; [reflexivity|]. apply rrel_next_unit, rrel_lines; assumption.
  Qed.
  Lemma read_unit_follows first : rfollows (lz_read_unit first).
  Proof.
    intros l Lv. unfold lz_read_unit in *.
    assert (live (snd (lz_parse_comments (S (pk_size (lr_lines l))) unit_default (lr_lines l)))) as L1.
    { revert Lv. destruct (lz_parse_comments _ _ (lr_lines l)) as [[u|e|] p1]; try exact (fun x => x). intros Lv. 
      apply (read_line_follows (lr_with_lines l p1)). revert Lv. destruct (lz_read_line (lr_with_lines l p1)) as [[[[n o]|]|e|] l2]; try exact (fun x => x).
      intros Lv. cbn [snd]. apply (parse_message_fields_follows (lr_plural_forms l2) first (set_obsolete u o)). revert Lv.
      destruct (lz_parse_message_fields _ _ _ _) as [[[v|]|e|] p3]; try exact (fun x => x). destruct (negb first && _); exact (fun x => x). }
    split; [exact (parse_comments_live _ _ _ L1)|]. intros m R.
    destruct (parse_comments_follows _ (S (pk_size (lr_lines m))) unit_default _ _ L1 (proj1 R)) as [E R1]; [lia|lia|].
    destruct (lz_parse_comments _ _ (lr_lines l)) as [o1 p1], (lz_parse_comments _ _ (lr_lines m)) as [o1' q1]. cbn [fst snd] in *. subst o1'.
    pose proof (rrel_lines _ _ _ _ R R1) as R1'. destruct o1 as [u|e|]; try (split; [reflexivity|exact R1']).
    assert (live (lr_lines (snd (lz_read_line (lr_with_lines l p1))))) as L2.
    { revert Lv. destruct (lz_read_line (lr_with_lines l p1)) as [[[[n o]|]|e|] l2]; try exact (fun x => x).
      intros Lv. cbn [snd]. apply (parse_message_fields_follows (lr_plural_forms l2) first (set_obsolete u o)). revert Lv.
      destruct (lz_parse_message_fields _ _ _ _) as [[[v|]|e|] p3]; try exact (fun x => x). destruct (negb first && _); exact (fun x => x). }
    destruct (proj2 (read_line_follows _ L2) _ R1') as [E R2].
    destruct (lz_read_line (lr_with_lines l p1)) as [o2 l2], (lz_read_line (lr_with_lines m q1)) as [o2' m2]. cbn [fst snd] in *. subst o2'.
    destruct o2 as [[[n o]|]|e|]; try (split; [reflexivity|exact R2]). rewrite (rrel_forms _ _ R2).
    assert (live (snd (lz_parse_message_fields (lr_plural_forms l2) first (set_obsolete u o) (lr_lines l2)))) as L3.
    { revert Lv. destruct (lz_parse_message_fields _ _ _ _) as [[[v|]|e|] p3]; try exact (fun x => x). destruct (negb first && _); exact (fun x => x). }
    destruct (proj2 (parse_message_fields_follows _ _ _ _ L3) _ (proj1 R2)) as [E R3].
    destruct (lz_parse_message_fields _ _ _ (lr_lines l2)) as [o3 p3], (lz_parse_message_fields _ _ _ (lr_lines m2)) as [o3' q3]. cbn [fst snd] in *. subst o3'.
    pose proof (rrel_lines _ _ _ _ R2 R3) as R3'. destruct o3 as [[v|]|e|]; try (split; [reflexivity|exact R3']).
    destruct (negb first && _); (split; [reflexivity|exact R3']).
  Qed.
  Lemma next_unit_follows first : rfollows (lz_next_unit first).
  Proof.
    intros l Lv. unfold lz_next_unit in *.
    assert (live (lr_lines (snd (lz_read_unit first l)))) as L1 by (destruct (lz_read_unit first l) as [[[u|]|e|] l1]; exact Lv).
    destruct (read_unit_follows first l L1) as [Ll K]. split; [exact Ll|]. intros m R. destruct (K m R) as [E R1].
    destruct (lz_read_unit first l) as [o l1], (lz_read_unit first m) as [o' m1]. cbn [fst snd] in *. subst o'. destruct o as [[u|]|e|]; (split; [reflexivity|exact R1]).
  Qed.
  Lemma po_next_follows : rfollows lz_po_next.
  Proof.
    intros l Lv. unfold lz_po_next in *. destruct (lr_next_unit l) as [[u|e]|] eqn:U.
    - assert (live (lr_lines (snd (lz_next_unit false l)))) as L1 by (destruct (lz_next_unit false l) as [[nu|] l1]; exact Lv).
      destruct (next_unit_follows false l L1) as [Ll K]. split; [exact Ll|]. intros m R. rewrite (rrel_unit _ _ R), U. destruct (K m R) as [E R1].
      destruct (lz_next_unit false l) as [o l1], (lz_next_unit false m) as [o' m1]. cbn [fst snd] in *. subst o'. destruct o as [nu|].
      + cbn [fst snd]. rewrite (rrel_unit _ _ R1). split; [reflexivity|apply rrel_next_unit, R1].
      + split; [reflexivity|exact R1].
    - split; [exact Lv|]. intros m R. rewrite (rrel_unit _ _ R), U. split; [reflexivity|apply rrel_next_unit, R].
    - split; [exact Lv|]. intros m R. rewrite (rrel_unit _ _ R), U. split; [reflexivity|exact R].
  Qed.
  Lemma calls_follows k : rfollows (lz_calls k).
  Proof.
    induction k as [|k IH]; intros l Lv; cbn [lz_calls] in *; [split; [exact Lv|]; intros m R; split; [reflexivity|exact R]|].
    pose proof (po_next_follows l) as K. destruct (lz_po_next l) as [x l1]. cbn [fst snd] in *.
    pose proof (IH l1) as K2. destruct (lz_calls k l1) as [xs l2]. cbn [fst snd] in *. destruct (K2 Lv) as [L1 K2']. destruct (K L1) as [Ll K'].
    split; [exact Ll|]. intros m R. destruct (K' m R) as [E R1]. destruct (lz_po_next m) as [y m1]. cbn [fst snd] in *. subst y.
    destruct (K2' m1 R1) as [E R2]. destruct (lz_calls k m1) as [ys m2]. cbn [fst snd] in *. subst ys. split; [reflexivity|exact R2].
  Qed.
  Lemma header_follows lib pf : rfollows (lz_parse_po_header lib pf).
  Proof.
    intros l Lv. assert (lr_lines (snd (lz_parse_po_header lib pf l)) = lr_lines l) as EL.
    { unfold lz_parse_po_header. destruct (lr_next_unit l) as [[u|e]|]; try reflexivity. cbv zeta. destruct (sm_get _ _) as [d|]; [|reflexivity].
      destruct (is_empty d); [reflexivity|]. destruct (plural_forms_parse pf d); reflexivity. }
    rewrite EL in Lv. split; [exact Lv|]. intros m [R E]. rewrite E. unfold lz_parse_po_header.
    cbn [lr_with_lines lr_lines lr_next_unit lr_header_notes lr_header_comments lr_header_properties lr_target_language lr_plural_forms].
    destruct (lr_next_unit l) as [[u|e]|] eqn:U; [|split; [reflexivity|split; [exact R|cbn [lr_with_lines]; reflexivity]]..].
    cbv zeta. destruct (sm_get _ _) as [d|]; [|split; [reflexivity|split; [exact R|reflexivity]]].
    destruct (is_empty d); [split; [reflexivity|split; [exact R|reflexivity]]|]. destruct (plural_forms_parse pf d); (split; [reflexivity|split; [exact R|reflexivity]]).
  Qed.
  Lemma parse_follows lib pf used l : lz_parse lib pf (used ++ rest) = Ok l -> live (lr_lines l) ->
    exists m, lz_parse lib pf (used ++ rest') = Ok m /\ rrel l m.
  Proof.
    unfold lz_parse. set (l0 := LReader _ _ _ _ _ _ _). set (m0 := LReader (Peekable None (li_new (used ++ rest'))) _ _ _ _ _ _).
    assert (rrel l0 m0) as R0.
    { split; [|reflexivity]. split; [reflexivity|]. do 2 eexists. split; [reflexivity|]. split; [reflexivity|]. split; [reflexivity|]. exists [], used. split; reflexivity. }
    pose proof (next_unit_follows true l0) as K1. destruct (lz_next_unit true l0) as [o1 l1]. cbn [fst snd] in K1. intros H Lv.
    destruct o1 as [nu|]; [|discriminate].
    assert (live (lr_lines l1)) as L1.
    { destruct nu as [[u|e]|]; [|discriminate|injection H as <-; exact Lv]. cbv zeta in H. destruct (msg_is_empty (u_message u)); [|injection H as <-; exact Lv].
      apply (header_follows lib pf (lr_with_next_unit l1 (Some (UOk u)))). destruct (lz_parse_po_header _ _ _) as [[z|e|] l3]; try discriminate.
      apply (next_unit_follows false l3). destruct (lz_next_unit false l3) as [[nu|] l4]; [|discriminate]. injection H as <-. exact Lv. }
    destruct (proj2 (K1 L1) m0 R0) as [E R1]. clear K1. destruct (lz_next_unit true m0) as [o1 m1]. cbn [fst snd] in *. subst o1.
    pose proof (rrel_next_unit _ _ nu R1) as R2.
    destruct nu as [[u|e]|]; [|discriminate|injection H as <-; eauto]. cbv zeta in H |- *. destruct (msg_is_empty (u_message u)); [|injection H as <-; eauto].
    pose proof (header_follows lib pf (lr_with_next_unit l1 (Some (UOk u)))) as K3. destruct (lz_parse_po_header _ _ (lr_with_next_unit l1 _)) as [o3 l3]. cbn [fst snd] in K3.
    destruct o3 as [z|e|]; try discriminate.
    pose proof (next_unit_follows false l3) as K4. destruct (lz_next_unit false l3) as [[nu|] l4]; [|discriminate]. cbn [fst snd] in K4. injection H as <-.
    destruct (K4 Lv) as [L3 K4']. destruct (proj2 (K3 L3) _ R2) as [E R3]. destruct (lz_parse_po_header _ _ (lr_with_next_unit m1 _)) as [o3 m3]. cbn [fst snd] in *. subst o3.
    destruct (K4' _ R3) as [E R4]. destruct (lz_next_unit false m3) as [o4 m4]. cbn [fst snd] in *. subst o4. eexists. split; [reflexivity|]. apply rrel_next_unit, R4.
  Qed.
End Future.

Theorem future lib pf evs l k rest : lz_parse lib pf evs = Ok l -> unread (snd (lz_calls k l)) = Some rest -> rest <> [] ->
  exists used, evs = used ++ rest /\ forall rest', exists m, lz_parse lib pf (used ++ rest') = Ok m
    /\ fst (lz_calls k m) = fst (lz_calls k l) /\ unread (snd (lz_calls k m)) = Some rest'.
Proof.
  intros E U NE.
  assert (exists used, evs = used ++ rest) as (used & ->).
  { pose proof (parse_agree lib pf evs) as A. rewrite E in A. inversion A as [l' r R E1 E2| |]; subst.
    destruct (proj2 (calls_agree _ _ (responses_exact (li_new evs)) k l r R)) as [_ (j & _ & At)].
    assert (exists i, pk_iter (lr_lines (snd (lz_calls k l))) = after i (li_new evs)) as (i & Ei).
    { unfold at_line in At. destruct (pk_peeked _) as [x|]; [exists (S j); apply At|exists j; exact At]. }
    unfold unread in U. rewrite Ei in U. destruct (after_suffix i _ _ U) as (evs' & Q & p & Hp). injection Q as <-. exists p. exact Hp. }
  exists used. split; [reflexivity|]. intros rest'.
  assert (live rest (lr_lines (snd (lz_calls k l)))) as Lv.
  { unfold live, live_it. unfold unread in U. destruct (li_inner _) as [s|]; [|discriminate]. injection U as <-. unfold live_src. lia. }
  destruct (calls_follows rest rest' NE k l Lv) as [Ll K]. destruct (parse_follows rest rest' NE lib pf used l E Ll) as (m & Em & R). exists m. split; [exact Em|].
  destruct (K m R) as [Ec [[_ (s & t & Es & Et & _ & b & x & -> & ->)] _]]. split; [exact Ec|].
  unfold unread in *. rewrite Es in U. rewrite Et. cbn [option_map s_events] in *. injection U as U. f_equal.
  assert (x = []) as -> by (apply (app_inv_tail rest); exact U). reflexivity.
Qed.
