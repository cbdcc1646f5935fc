(** The work of the reader, measured by the size of what is read (C49). *)
From Coq Require Import String Arith NArith Bool List Lia.
From Verif Require Import ModelBase ModelUtf8 ModelLine ModelFormula ModelData ModelSource ModelReader ModelWork
  SpecLine SpecSource SpecReader SpecBlock SpecFile SpecWork BaseFacts LineFacts SourceFacts IterFacts CallFacts PieceFacts SpecSize SizeFacts StreamThms WorkFacts.
Import ListNotations.
Local Open Scope nat_scope.

Lemma line_of_chars s n l : line_of s n l -> line_chars l <= length s.
Proof.
  destruct 1 as [|flags kw q text Q U|flags q text Q U|kind content C _]; cbn [line_chars]; [lia|..].
  - destruct Q as (m & w1 & w2 & w3 & w4 & -> & M & K & _). apply unescapes_length in U. specialize (K _ eq_refl).
    assert (length flags + length (reported_tag flags kw) <= length m + length kw).
    { destruct M; cbn; lia. }
    cbn [opt_str] in *. rewrite !app_length. cbn [length]. lia.
  - destruct Q as (m & w1 & w2 & w3 & w4 & -> & M & K & _). apply unescapes_length in U. apply marker_length in M. rewrite !app_length. cbn [length]. lia.
  - destruct C as (w1 & _ & [(-> & _ & ->)|(w2 & _ & _ & ->)]); rewrite ?app_length; cbn [length app]; rewrite ?app_length; lia.
Qed.
Lemma parsed_line n ls e pl tl l : parsed n ls e pl tl -> In l pl -> exists s m, In s ls /\ line_of s m l.
Proof.
  induction 1 as [| | |n s ls e pl tl O L P IH|n s x ls e pl tl O L N P IH]; intros I; try contradiction.
  - destruct (IH I) as (t & m & J & K). exists t, m. split; [right; exact J|exact K].
  - destruct I as [->|I]; [exists s, n; split; [left; reflexivity|exact L]|]. destruct (IH I) as (t & m & J & K). exists t, m. split; [right; exact J|exact K].
Qed.
Lemma text_size_in s ls : In s ls -> length s <= text_size ls.
Proof. unfold text_size. induction ls as [|x ls IH]; [intros []|]. intros [->|I]; cbn [map total]; [lia|]. apply IH in I. unfold str in *. lia. Qed.
Lemma answers_chars n bs f rs l : answers n bs f rs -> In (Some (ILine l)) rs -> line_chars l <= length (concat bs).
Proof.
  assert (forall n b f ls e pl tl, contents b f ls e -> parsed n ls e pl tl -> In (Some (ILine l)) (map (fun l => Some (ILine l)) pl) -> line_chars l <= length b) as K.
  { intros m b g ls e pl tl C P I. apply in_map_iff in I as (x & [= ->] & I). destruct (parsed_line _ _ _ _ _ _ P I) as (s & k & J & L).
    apply line_of_chars in L. apply text_size_in in J. apply contents_size in C. lia. }
  induction 1 as [n b f ls e pl tl C P|n b b' bs f ls e pl x C P|n b bs f ls pl rs C P T A IH|n b bs f ls pl rs C P T A IH];
    intros I; apply in_app_or in I as [I|I]; cbn [concat]; rewrite ?app_length; try (pose proof (K _ _ _ _ _ _ _ C P I); lia).
  - destruct tl; [destruct I as [[=]|[]]|destruct I].
  - destruct I as [[=]|[]].
  - destruct I as [[=]|I]. apply IH in I. lia.
  - apply IH in I. lia.
Qed.
Lemma responses_chars evs l : In (Some (ILine l)) (responses (li_new evs)) -> line_chars l <= data_size evs.
Proof.
  intros I. destruct (all_calls evs) as (bs & f & rs & P & A & H). apply (In_nth _ _ None) in I as (k & _ & E).
  rewrite responses_exact, H in E. apply pieces_size in P. rewrite <- P. apply (answers_chars _ _ _ _ _ A). rewrite <- E. apply nth_In.
  destruct (Nat.lt_ge_cases k (length rs)) as [L|L]; [exact L|]. rewrite nth_overflow in E by exact L. discriminate.
Qed.
Lemma responses_count evs : length (responses (li_new evs)) <= S (events_size evs).
Proof. exact (responses_fuel_length (S (li_size (li_new evs))) (li_new evs)). Qed.

(** Polls and cloned characters. *)
Theorem work_polynomial lib pf evs r c K : po_parse lib pf evs = Ok r -> N.to_nat (nforms (rd_plural_forms r)) <= K -> 2 <= K -> read_catalogue lib pf evs = Ok c ->
  let size := events_size evs in
  work polls_only lib pf evs <= 2 * (size + 1 + (2 + length (c_items c)) * (2 * K + 18))
  /\ work line_chars lib pf evs <= (2 + data_size evs) * (size + 1 + (2 + length (c_items c)) * (2 * K + 18)).
Proof.
  intros P HK K2 R size. subst size. pose proof (responses_count evs) as L.
  assert (good (c_items c) <= length (c_items c)) as G by (unfold good; induction (c_items c) as [|[u|e] l IH]; cbn [filter length]; lia).
  split.
  - eapply Nat.le_trans; [apply (work_upper polls_only 0 K lib pf evs r c); auto|]. apply Nat.mul_le_mono_l, Nat.add_le_mono; [lia|]. apply Nat.mul_le_mono_r. lia.
  - eapply Nat.le_trans; [apply (work_upper line_chars (data_size evs) K lib pf evs r c); auto; apply responses_chars|].
    apply Nat.mul_le_mono_l, Nat.add_le_mono; [lia|]. apply Nat.mul_le_mono_r. lia.
Qed.
Theorem work_polynomial_error lib pf evs x : po_parse lib pf evs = Err x ->
  work polls_only lib pf evs <= 2 * (events_size evs + 23) /\ work line_chars lib pf evs <= (2 + data_size evs) * (events_size evs + 23).
Proof.
  intros P. pose proof (responses_count evs) as L. split.
  - eapply Nat.le_trans; [apply (work_upper_error polls_only 0 lib pf evs x); auto|]. lia.
  - eapply Nat.le_trans; [apply (work_upper_error line_chars (data_size evs) lib pf evs x); auto; apply responses_chars|]. apply Nat.mul_le_mono_l. lia.
Qed.
