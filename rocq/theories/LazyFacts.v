(** Reading on demand gives the results of the main model. *)
From Coq Require Import String Arith NArith Bool List Lia.
From Verif Require Import ModelBase ModelUtf8 ModelLine ModelFormula ModelData ModelSource ModelReader ModelLazy
  SpecSource SpecReader SpecLazy BaseFacts IterFacts.
Import ListNotations.

Lemma li_next_some it x it' : li_next it = (Some x, it') -> li_size it' < li_size it.
Proof.
  intros H. destruct (li_done it) eqn:D; [|exact (li_next_size _ _ _ H D)].
  destruct (li_next_done it D) as (i & E & _). congruence.
Qed.
Lemma after_S k : forall it, after (S k) it = snd (li_next (after k it)).
Proof. induction k as [|k IH]; intros it; [reflexivity|]. exact (IH (snd (li_next it))). Qed.
Lemma poll_after k : forall it, poll k it = fst (li_next (after k it)).
Proof. induction k as [|k IH]; intros it; [reflexivity|]. exact (IH (snd (li_next it))). Qed.

Section Simulation.
  Variable it0 : line_iter.
  Variable L : lines.
  Hypothesis HL : forall k, nth k L None = poll k it0.

  (** The list [ls] is what is left of the results after [j] calls. *)
  Definition at_line (p : peekable) (j : nat) : Prop :=
    match pk_peeked p with
    | None => pk_iter p = after j it0
    | Some x => x = nth j L None /\ pk_iter p = after (S j) it0
    end.
  Definition sim (p : peekable) (ls : lines) : Prop := exists j, ls = skipn j L /\ at_line p j.
  Lemma hd_skipn {A} (d : A) j : forall l, hd d (skipn j l) = nth j l d.
  Proof. induction j as [|j IH]; intros [|x l]; try reflexivity. apply IH. Qed.
  Lemma tl_skipn {A} j : forall l : list A, tl (skipn j l) = skipn (S j) l.
  Proof. induction j as [|j IH]; intros [|x l]; try reflexivity. apply IH. Qed.

  Lemma lz_peek_sim p ls : sim p ls -> exists p', lz_peek p = (peek ls, p') /\ sim p' ls /\ (peek ls <> None -> pk_size p' <= pk_size p).
  Proof.
    intros (j & -> & A). unfold lz_peek, peek, at_line in *. rewrite hd_skipn. destruct p as [[x|] it]; cbn [pk_peeked pk_iter] in *.
    - destruct A as [-> ->]. eexists. split; [reflexivity|]. split; [|auto]. exists j. split; [reflexivity|]. split; reflexivity.
    - subst it. rewrite HL, poll_after. destruct (li_next (after j it0)) as [x it'] eqn:E. cbn [fst]. eexists. split; [reflexivity|]. split.
      + exists j. split; [reflexivity|]. unfold at_line. cbn [pk_peeked pk_iter]. rewrite HL, poll_after, after_S, E. split; reflexivity.
      + intros N. unfold pk_size. cbn [pk_peeked pk_iter]. destruct x as [x|]; [|contradiction]. apply li_next_some in E. lia.
  Qed.
  Lemma lz_next_sim p ls : sim p ls -> exists p', lz_next p = (peek ls, p') /\ sim p' (tl ls) /\ (peek ls <> None -> pk_size p' < pk_size p).
  Proof.
    intros (j & -> & A). unfold lz_next, peek, at_line in *. rewrite hd_skipn, tl_skipn. destruct p as [[x|] it]; cbn [pk_peeked pk_iter] in *.
    - destruct A as [-> ->]. eexists. split; [reflexivity|]. split; [|unfold pk_size; cbn; lia]. exists (S j). split; reflexivity.
    - subst it. rewrite HL, poll_after. destruct (li_next (after j it0)) as [x it'] eqn:E. cbn [fst]. eexists. split; [reflexivity|]. split.
      + exists (S j). split; [reflexivity|]. unfold at_line. cbn [pk_peeked pk_iter]. rewrite after_S, E. reflexivity.
      + intros N. unfold pk_size. cbn [pk_peeked pk_iter]. destruct x as [x|]; [|contradiction]. apply li_next_some in E. lia.
  Qed.

  Definition agree {A} (l : lres A) (m : res A) : Prop := fst l = fst m /\ sim (snd l) (snd m).
  Lemma agree_ret {A} (o : outcome A) p ls : sim p ls -> agree (o, p) (o, ls).
  Proof. intros S. split; [reflexivity|exact S]. Qed.
  Lemma agree_bind {A B} (l : lres A) m (f : A -> peekable -> lres B) g : agree l m -> (forall a p ls, sim p ls -> agree (f a p) (g a ls)) ->
    agree (lbind l f) (bind m g).
  Proof. destruct l as [o p], m as [o' ls]. intros [E S] H. cbn [fst snd] in *. subst o'. destruct o as [a|e|]; cbn [lbind bind]; [apply H, S| |]; apply agree_ret, S. Qed.

  Lemma fetch_next_agree p ls : sim p ls -> exists p', lz_fetch_next p = (fst (fetch_next ls), p') /\ sim p' (snd (fetch_next ls))
    /\ (forall l, fst (fetch_next ls) = Ok (Some l) -> pk_size p' <= pk_size p).
  Proof.
    intros S. unfold lz_fetch_next, fetch_next. destruct (lz_peek_sim p ls S) as (p1 & E1 & S1 & Z1). rewrite E1.
    destruct (lz_next_sim p1 ls S1) as (p2 & E2 & S2 & Z2). unfold next. fold (peek ls).
    destruct (peek ls) as [[l|e]|] eqn:P; cbn [fst snd].
    - exists p1. split; [reflexivity|]. split; [exact S1|]. intros _ _. apply Z1. discriminate.
    - rewrite E2. exists p2. split; [reflexivity|]. split; [exact S2|discriminate].
    - rewrite E2. exists p2. split; [reflexivity|]. split; [exact S2|discriminate].
  Qed.
  Lemma append_conts_agree q fuel : forall s p ls, sim p ls -> pk_size p < fuel -> agree (lz_append_conts fuel q s p) (append_conts q s ls).
  Proof.
    induction fuel as [|fuel IH]; intros s p ls S Hf; [lia|]. cbn [lz_append_conts].
    destruct (fetch_next_agree p ls S) as (p1 & E1 & S1 & Z1). rewrite E1. unfold fetch_next, next, peek in *.
    destruct ls as [|[[l|e]|] ls]; cbn [append_conts hd tl fst snd lbind] in *; try (apply agree_ret; assumption).
    - destruct l as [|n k t|n f tag t|n f t]; try (apply agree_ret; assumption).
      destruct (str_eqb f q); [|apply agree_ret; assumption].
      destruct (lz_next_sim p1 _ S1) as (p2 & E2 & S2 & Z2). cbn [peek hd tl] in E2, S2, Z2. rewrite E2.
      apply IH; [exact S2|]. specialize (Z1 _ eq_refl). assert (Some (ILine (PCont n f t)) <> None) as X by discriminate. specialize (Z2 X). lia.
  Qed.
  Lemma parse_msg_agree o t p ls : sim p ls -> agree (lz_parse_msg o t p) (parse_msg o t ls).
  Proof.
    intros S. unfold lz_parse_msg, parse_msg. destruct (fetch_next_agree p ls S) as (p1 & E1 & S1 & _). rewrite E1.
    destruct (fetch_next ls) as [[l|e|] ls1]; cbn [fst snd lbind bind] in *; try (apply agree_ret; assumption).
    destruct l as [[|n k s|n q tag s|n q s]|]; try (apply agree_ret; assumption).
    destruct (_ && _); [|apply agree_ret; assumption].
    destruct (lz_next_sim p1 _ S1) as (p2 & E2 & S2 & _). rewrite E2. unfold next. fold (peek ls1).
    destruct (peek ls1) as [[[|n' k' s'|n' q' tag' s'|n' q' s']|e]|]; try (apply agree_ret; assumption).
    apply append_conts_agree; [exact S2|lia].
  Qed.
  Lemma expected_agree z p ls : sim p ls -> agree (lz_expected z p) (expected z ls).
  Proof.
    intros S. unfold lz_expected, expected. destruct (lz_peek_sim p ls S) as (p1 & E1 & S1 & _). rewrite E1.
    destruct (lz_next_sim p1 ls S1) as (p2 & E2 & S2 & _). unfold next. fold (peek ls).
    destruct (peek ls) as [[[|n k s|n q tag s|n q s]|e]|]; try (apply agree_ret; assumption).
    rewrite E2. apply agree_ret; assumption.
  Qed.
  Lemma parse_values_agree o k : forall i vs p ls, sim p ls -> agree (lz_parse_values o k i vs p) (parse_values o k i vs ls).
  Proof.
    induction k as [|k IH]; intros i vs p ls S; cbn [lz_parse_values parse_values]; [apply agree_ret, S|].
    apply agree_bind; [apply parse_msg_agree, S|]. intros v p' ls' S'. apply IH, S'.
  Qed.
  Lemma new_message_agree forms o id pl p ls : sim p ls -> agree (lz_new_message forms o id pl p) (new_message forms o id pl ls).
  Proof.
    intros S. unfold lz_new_message, new_message. destruct id as [id|]; [|apply agree_ret, S]. destruct pl as [pl|].
    - apply agree_bind; [apply parse_values_agree, S|]. intros vs p' ls' S'. destruct (is_empty vs); [|apply agree_ret, S'].
      apply agree_bind; [apply expected_agree, S'|]. intros; apply agree_ret; assumption.
    - apply agree_bind; [apply parse_msg_agree, S|]. intros [t|] p' ls' S'; [apply agree_ret, S'|].
      apply agree_bind; [apply expected_agree, S'|]. intros; apply agree_ret; assumption.
  Qed.
  Lemma parse_message_fields_agree forms first u p ls : sim p ls ->
    agree (lz_parse_message_fields forms first u p) (parse_message_fields forms first u ls).
  Proof.
    intros S. unfold lz_parse_message_fields, parse_message_fields.
    apply agree_bind; [apply parse_msg_agree, S|]. clear p ls S. intros pc p ls S.
    apply agree_bind; [apply parse_msg_agree, S|]. clear p ls S. intros pi p ls S.
    apply agree_bind; [destruct pi; [apply parse_msg_agree, S|apply agree_ret, S]|]. clear p ls S. intros pp p ls S.
    apply agree_bind; [apply parse_msg_agree, S|]. clear p ls S. intros c p ls S.
    apply agree_bind; [apply parse_msg_agree, S|]. clear p ls S. intros i p ls S.
    destruct (negb first && _).
    - apply agree_bind; [apply expected_agree, S|]. intros; apply agree_ret; assumption.
    - apply agree_bind; [apply parse_msg_agree, S|]. clear p ls S. intros pl p ls S.
      apply agree_bind; [apply new_message_agree, S|]. intros [m|] p' ls' S'; apply agree_ret, S'.
  Qed.
  Lemma parse_comments_agree fuel : forall u p ls, sim p ls -> pk_size p < fuel -> agree (lz_parse_comments fuel u p) (parse_comments u ls).
  Proof.
    induction fuel as [|fuel IH]; intros u p ls S Hf; [lia|]. cbn [lz_parse_comments].
    destruct (lz_peek_sim p ls S) as (p1 & E1 & S1 & Z1). rewrite E1.
    destruct (lz_peek_sim p1 ls S1) as (p2 & E2 & S2 & Z2).
    destruct (lz_next_sim p1 ls S1) as (p3 & E3 & S3 & Z3).
    destruct (lz_next_sim p2 ls S2) as (p4 & E4 & S4 & Z4). unfold peek in *.
    destruct ls as [|[[[|n k t|n q tag t|n q t]|e]|] ls]; cbn [parse_comments hd tl] in *;
      try (rewrite E2; apply agree_ret; assumption).
    - rewrite E3. apply IH; [exact S3|]. assert (Some (ILine (PComment n k t)) <> None) as X by discriminate. specialize (Z1 X). specialize (Z3 X). lia.
    - rewrite E2, E4. apply agree_ret; assumption.
  Qed.

  (** ** The reader *)
  Definition view (r : lreader) (ls : lines) : reader :=
    Reader ls (lr_next_unit r) (lr_header_notes r) (lr_header_comments r) (lr_header_properties r) (lr_target_language r) (lr_plural_forms r).
  Definition rsim (l : lreader) (r : reader) : Prop := r = view l (rd_lines r) /\ sim (lr_lines l) (rd_lines r).
  Definition ragree {A} (l : A * lreader) (m : A * reader) : Prop := fst l = fst m /\ rsim (snd l) (snd m).
  Lemma rsim_lines l r p ls : rsim l r -> sim p ls -> rsim (lr_with_lines l p) (with_lines r ls).
  Proof. intros [E _] S. rewrite E. split; [reflexivity|exact S]. Qed.
  Lemma rsim_next_unit l r u : rsim l r -> rsim (lr_with_next_unit l u) (with_next_unit r u).
  Proof. intros [E S]. rewrite E. split; [reflexivity|exact S]. Qed.
  Lemma rsim_sim l r : rsim l r -> sim (lr_lines l) (rd_lines r).
  Proof. intros [_ S]; exact S. Qed.
  Lemma rsim_unit l r : rsim l r -> lr_next_unit l = rd_next_unit r.
  Proof. intros [E _]. rewrite E. reflexivity. Qed.
  Lemma rsim_forms l r : rsim l r -> lr_plural_forms l = rd_plural_forms r.
  Proof. intros [E _]. rewrite E. reflexivity. Qed.
  Lemma read_line_agree l r : rsim l r -> ragree (lz_read_line l) (read_line r).
  Proof.
    intros R. unfold lz_read_line, read_line. destruct (lz_peek_sim _ _ (rsim_sim _ _ R)) as (p1 & E1 & S1 & _). rewrite E1.
    destruct (lz_next_sim _ _ S1) as (p2 & E2 & S2 & _). unfold next. fold (peek (rd_lines r)). rewrite (rsim_unit _ _ R).
    assert (rsim (lr_with_lines l p1) r) as R1.
    { pose proof (rsim_lines _ _ _ _ R S1) as X. replace (with_lines r (rd_lines r)) with r in X; [exact X|]. destruct r; reflexivity. }
    destruct (peek (rd_lines r)) as [[x|e]|].
    - split; [reflexivity|exact R1].
    - destruct (rd_next_unit r) as [[u|e']|].
      1,3: rewrite E2; split; [reflexivity|apply rsim_lines; [apply rsim_next_unit, R|exact S2]].
      split; [reflexivity|apply rsim_next_unit, R1].
    - split; [reflexivity|exact R1].
  Qed.
  Lemma read_unit_agree first l r : rsim l r -> ragree (lz_read_unit first l) (read_unit first r).
  Proof.
    intros R. unfold lz_read_unit, read_unit.
    destruct (parse_comments_agree (S (pk_size (lr_lines l))) unit_default _ _ (rsim_sim _ _ R)) as [E1 S1]; [lia|].
    destruct (lz_parse_comments _ unit_default (lr_lines l)) as [o p1], (parse_comments unit_default (rd_lines r)) as [o' ls1].
    cbn [fst snd] in E1, S1. subst o'. pose proof (rsim_lines _ _ _ _ R S1) as R1. destruct o as [u|e|]; [|split; [reflexivity|exact R1]..].
    destruct (read_line_agree _ _ R1) as [E2 R2]. clear R S1 R1.
    destruct (lz_read_line _) as [o l2], (read_line _) as [o' r2]. cbn [fst snd] in E2, R2. subst o'.
    destruct o as [[[line obs]|]|e|]; [|split; [reflexivity|exact R2]..]. rewrite (rsim_forms _ _ R2).
    destruct (parse_message_fields_agree (rd_plural_forms r2) first (set_obsolete u obs) _ _ (rsim_sim _ _ R2)) as [E3 S3].
    destruct (lz_parse_message_fields _ _ _ (lr_lines l2)) as [o p3], (parse_message_fields _ _ _ (rd_lines r2)) as [o' ls3].
    cbn [fst snd] in E3, S3. subst o'. pose proof (rsim_lines _ _ _ _ R2 S3) as R3.
    destruct o as [[v|]|e|]; [|split; [reflexivity|exact R3]..]. destruct (negb first && _); split; try reflexivity; exact R3.
  Qed.
  Lemma next_unit_agree first l r : rsim l r -> ragree (lz_next_unit first l) (next_unit first r).
  Proof.
    intros R. unfold lz_next_unit, next_unit. destruct (read_unit_agree first l r R) as [E R1].
    destruct (lz_read_unit first l) as [o l1], (read_unit first r) as [o' r1]. cbn [fst snd] in E, R1. subst o'.
    destruct o as [[u|]|e|]; split; try reflexivity; exact R1.
  Qed.
  Lemma header_agree lib pf l r : rsim l r -> ragree (lz_parse_po_header lib pf l) (parse_po_header lib pf r).
  Proof.
    intros [E S]. unfold lz_parse_po_header, parse_po_header. rewrite E.
    cbn [view rd_lines rd_next_unit rd_header_notes rd_header_comments rd_header_properties rd_target_language rd_plural_forms].
    destruct (lr_next_unit l) as [[u|e]|].
    2,3: split; [reflexivity|split; [reflexivity|exact S]].
    cbv zeta. destruct (sm_get _ _) as [fs|]; [|split; [reflexivity|split; [reflexivity|exact S]]].
    destruct (is_empty fs); [split; [reflexivity|split; [reflexivity|exact S]]|].
    destruct (plural_forms_parse pf fs) as [f|e|]; (split; [reflexivity|split; [reflexivity|exact S]]).
  Qed.
  Lemma po_next_agree l r : rsim l r -> ragree (lz_po_next l) (po_next r).
  Proof.
    intros R. unfold lz_po_next, po_next. rewrite (rsim_unit _ _ R).
    destruct (rd_next_unit r) as [[u|e]|]; [|split; [reflexivity|apply rsim_next_unit, R]|split; [reflexivity|exact R]].
    destruct (next_unit_agree false l r R) as [E R1]. destruct (lz_next_unit false l) as [o l1], (next_unit false r) as [o' r1].
    cbn [fst snd] in E, R1. subst o'. destruct o as [nu|]; split; try reflexivity; try exact R1; cbn [fst snd].
    - f_equal. apply rsim_unit, R1.
    - apply rsim_next_unit, R1.
  Qed.
  Lemma calls_agree k : forall l r, rsim l r -> ragree (lz_calls k l) (calls k r).
  Proof.
    induction k as [|k IH]; intros l r R; cbn [lz_calls calls]; [split; [reflexivity|exact R]|].
    destruct (po_next_agree l r R) as [E R1]. destruct (lz_po_next l) as [x l1], (po_next r) as [x' r1]. cbn [fst snd] in E, R1. subst x'.
    destruct (IH _ _ R1) as [E2 R2]. destruct (lz_calls k l1) as [xs l2], (calls k r1) as [xs' r2]. cbn [fst snd] in E2, R2. subst xs'.
    split; [reflexivity|exact R2].
  Qed.
End Simulation.

(** The readers of both models correspond. *)
Inductive parse_sim (evs : list rd_event) (L : lines) : outcome lreader -> outcome reader -> Prop :=
| pm_ok l r : rsim (li_new evs) L l r -> parse_sim evs L (Ok l) (Ok r)
| pm_err e : parse_sim evs L (Err e) (Err e)
| pm_panic : parse_sim evs L Panic Panic.
Theorem parse_agree_on lib pf evs L : (forall k, nth k L None = poll k (li_new evs)) -> parse_sim evs L (lz_parse lib pf evs) (reader_new lib pf L).
Proof.
  unfold lz_parse, reader_new. set (it0 := li_new evs). intros HL.
  set (l0 := LReader _ _ _ _ _ _ _). set (r0 := Reader _ _ _ _ _ _ _).
  assert (rsim it0 L l0 r0) as R0.
  { split; [reflexivity|]. exists 0. split; [reflexivity|]. unfold at_line. reflexivity. }
  destruct (next_unit_agree it0 L HL true l0 r0 R0) as [E R1].
  destruct (lz_next_unit true l0) as [o l1], (next_unit true r0) as [o' r1]. cbn [fst snd] in E, R1. subst o'.
  destruct o as [nu|]; [|apply pm_panic].
  pose proof (rsim_next_unit it0 L l1 r1 nu R1) as R2.
  destruct nu as [[u|e]|]; [|apply pm_err|apply pm_ok, R2]. cbv zeta.
  destruct (msg_is_empty (u_message u)); [|apply pm_ok, R2].
  destruct (header_agree it0 L lib pf _ _ R2) as [E3 R3].
  destruct (lz_parse_po_header _ _ _) as [o l3], (parse_po_header _ _ _) as [o' r3]. cbn [fst snd] in E3, R3. subst o'.
  destruct o as [z|e|]; [|apply pm_err|apply pm_panic].
  destruct (next_unit_agree it0 L HL false l3 r3 R3) as [E4 R4].
  destruct (lz_next_unit false l3) as [o l4], (next_unit false r3) as [o' r4]. cbn [fst snd] in E4, R4. subst o'.
  destruct o as [nu|]; [|apply pm_panic]. apply pm_ok, rsim_next_unit, R4.
Qed.
Theorem parse_agree lib pf evs : parse_sim evs (responses (li_new evs)) (lz_parse lib pf evs) (po_parse lib pf evs).
Proof. apply parse_agree_on. intros k. apply responses_exact. Qed.
