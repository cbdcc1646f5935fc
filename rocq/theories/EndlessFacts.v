(** Streams that never end; the header data while units are read. *)
From Coq Require Import String Arith NArith ZArith Bool List Lia.
From Verif Require Import ModelBase ModelUtf8 ModelLine ModelFormula ModelData ModelSource ModelReader ModelLazy
  SpecLine SpecSource SpecReader SpecBlock SpecHeader SpecFile SpecLazy SpecEndless BaseFacts LineFacts SourceFacts IterFacts ReaderFacts ReadsFacts
  CatalogueFacts LocalFacts StreamFacts BlockFacts CommentFacts UnitFacts SoundFacts BlocksFacts FirstFacts FileFacts FileIntro LazyFacts FutureFacts LazyThms PlaceThms.
Import ListNotations.

Lemma full_app a b : full_lines (a ++ b) = full_lines a + full_lines b.
Proof. apply count_occ_app. Qed.
Lemma full_none a : ~ In 10%N a -> full_lines a = 0.
Proof. apply count_occ_not_In. Qed.
Lemma full_split b l r : split_lf b = Some (l, r) -> full_lines b = S (full_lines r).
Proof.
  intros H. apply split_lf_some in H as (l' & -> & N & ->). rewrite full_app, (full_none _ N). unfold full_lines at 1. rewrite count_occ_cons_eq by reflexivity. reflexivity.
Qed.
Section Rest.
  Variable rest : list rd_event.
  (** The source has [rest] untouched and [k] full lines before it. *)
  Definition ahead (s : source) (k : nat) : Prop := exists x bs, s_events s = x ++ rest /\ flowing x bs /\ full_lines (s_buf s ++ bs) = k.

  Lemma read_until_events_ahead x bs : flowing x bs -> forall acc, ~ In 10%N acc -> 0 < full_lines bs ->
    exists l s', read_until_events acc (x ++ rest) = (inl l, s') /\ l <> [] /\ ahead s' (full_lines bs - 1).
  Proof.
    induction 1 as [|evs bs F IH|d evs bs Nd F IH]; intros acc Na L.
    - cbn in L. lia.
    - cbn [app read_until_events]. apply IH; assumption.
    - cbn [app read_until_events]. destruct d as [|b0 d0]; [contradiction|]. set (d := b0 :: d0) in *.
      destruct (split_lf d) as [[l r]|] eqn:E.
      + pose proof E as E'. apply full_split in E. rewrite full_app, E in *. exists (acc ++ l), (Source r (evs ++ rest)). split; [reflexivity|]. split.
        { apply split_lf_some in E' as (l' & -> & _). destruct acc, l'; discriminate. }
        exists evs, bs. cbn [s_events s_buf]. split; [reflexivity|]. split; [exact F|]. rewrite full_app. lia.
      + apply split_lf_none in E. rewrite full_app, (full_none _ E) in *. cbn [Nat.add] in *. apply IH; [|exact L]. rewrite in_app_iff. tauto.
  Qed.
  Lemma lines_next_ahead s k : ahead s (S k) -> exists o s', lines_next s = (Some o, s') /\ ahead s' k.
  Proof.
    intros (x & bs & E & F & L).
    assert (exists l s', read_until s = (inl l, s') /\ l <> [] /\ ahead s' k) as (l & s' & R & Nl & A).
    { destruct s as [buf evs]. cbn [s_events s_buf] in *. subst evs. unfold read_until. cbn [s_buf s_events]. rewrite full_app in L. destruct (split_lf buf) as [[l r]|] eqn:E.
      - pose proof E as E'. apply full_split in E'. exists l, (Source r (x ++ rest)). split; [reflexivity|]. split.
        + apply split_lf_some in E as (l' & -> & _). destruct l'; discriminate.
        + exists x, bs. cbn [s_events s_buf]. rewrite full_app. split; [reflexivity|]. split; [exact F|lia].
      - apply split_lf_none in E. rewrite (full_none _ E) in L. cbn [Nat.add] in L.
        destruct (read_until_events_ahead x bs F buf E) as (l & s' & R & Nl & A); [lia|]. exists l, s'. split; [exact R|]. rewrite L in A.
        replace (S k - 1) with k in A by lia. auto. }
    unfold lines_next. rewrite R. destruct l as [|b l]; [contradiction|]. destruct (utf8_decode (b :: l)); eauto.
  Qed.
  Lemma li_next_ahead k : forall it s l it', li_inner it = Some s -> ahead s k -> li_next it = (Some (ILine l), it') -> (li_n it' <= li_n it + N.of_nat k)%N ->
    exists s' k', li_inner it' = Some s' /\ ahead s' k' /\ (li_n it' + N.of_nat k' = li_n it + N.of_nat k)%N.
  Proof.
    induction k as [|k IH]; intros it s l it' I A H Le.
    - exfalso. rewrite li_next_step, I in H. destruct (lines_next s) as [[[line|e]|] s']; try discriminate.
      destruct (parse_line line (li_n it)) as [[| | |]|]; try discriminate; [apply li_next_mono in H; cbn [li_n] in H; lia|injection H as <- <-; cbn [li_n] in Le; lia..].
    - destruct (lines_next_ahead s k A) as (o & s' & E & A'). rewrite li_next_step, I, E in H. destruct o as [line|e]; [|discriminate].
      destruct (parse_line line (li_n it)) as [p|]; [|discriminate].
      destruct p; [|injection H as <- <-; exists s', k; cbn [li_inner li_n]; split; [reflexivity|]; split; [exact A'|lia]..].
      destruct (IH (LineIter (li_n it + 1) (Some s')) s' l it' eq_refl A' H) as (s2 & k2 & I2 & A2 & E2); [cbn [li_n]; lia|]. exists s2, k2. split; [exact I2|]. split; [exact A2|]. cbn [li_n] in E2. lia.
  Qed.
  Lemma after_mono j : forall it, (li_n it <= li_n (after j it))%N.
  Proof.
    induction j as [|j IH]; intros it; cbn [after]; [lia|]. destruct (li_next it) as [x it'] eqn:E. apply li_next_mono in E. specialize (IH it'). cbn [snd]. lia.
  Qed.
  Lemma after_ahead j : forall it s k, li_inner it = Some s -> ahead s k -> (forall i, i < j -> exists l, poll i it = Some (ILine l)) -> (li_n (after j it) <= li_n it + N.of_nat k)%N ->
    exists s' k', li_inner (after j it) = Some s' /\ ahead s' k'.
  Proof.
    induction j as [|j IH]; intros it s k I A P Le; [exists s, k; auto|]. cbn [after] in *. destruct (P 0) as (l & E); [lia|]. cbn [poll] in E.
    destruct (li_next it) as [y it'] eqn:X. cbn [fst snd] in *. subst y. pose proof (after_mono j it').
    destruct (li_next_ahead k it s l it' I A X) as (s' & k' & I' & A' & E'); [lia|].
    apply (IH it' s' k' I' A'); [|lia]. intros i Li. destruct (P (S i)) as (l' & E2); [lia|]. cbn [poll] in E2. rewrite X in E2. exists l'. exact E2.
  Qed.
End Rest.
Lemma flowing_delivers evs bs : flowing evs bs -> delivers evs bs None.
Proof. induction 1; [constructor|constructor; assumption|constructor; assumption]. Qed.
Lemma delivers_interrupted evs bs f : delivers evs bs f -> delivers (evs ++ [RdInterrupted]) bs f.
Proof. induction 1; cbn [app]; try (constructor; assumption). repeat constructor. Qed.
Lemma delivers_det evs bs f : delivers evs bs f -> forall bs' f', delivers evs bs' f' -> bs = bs' /\ f = f'.
Proof.
  induction 1 as [|c e|e b f H IH|d e b f N H IH|e H IH]; intros b' f' H'; inversion H'; subst; try congruence; auto.
  match goal with X : delivers e _ _ |- _ => destruct (IH _ _ X) as [-> ->] end. auto.
Qed.
Theorem all_continuations lib pf evs bs ls e pl tl c k l r : flowing evs bs -> file evs ls e pl tl -> read_catalogue lib pf evs = Ok c -> unit_ends lib pf pl tl c k (l :: r) ->
  (N.to_nat (po_line_no l) <= full_lines bs) -> forall rest, exists rd x, lz_parse lib pf (evs ++ rest) = Ok rd
    /\ fst (lz_calls k rd) = map (fun x => Val (Some x)) (firstn k (c_items c)) /\ unread (snd (lz_calls k rd)) = Some (x ++ rest).
Proof.
  intros Fl (bs' & f & D & C & P) RC U Le.
  destruct (delivers_det _ _ _ (flowing_delivers _ _ Fl) _ _ D) as [<- <-].
  set (evs1 := evs ++ [RdInterrupted]). assert (file evs1 ls e pl tl) as Fi by (exists bs, None; split; [apply delivers_interrupted, D|auto]).
  assert (read_catalogue lib pf evs1 = Ok c) as RC1.
  { destruct (file_catalogue lib pf evs bs None ls e pl tl (Ok c) D C P) as [E1 _].
    apply (file_catalogue lib pf evs1 bs None ls e pl tl (Ok c) (delivers_interrupted _ _ _ D) C P). apply E1, RC. }
  destruct (read_ahead lib pf evs1 ls e pl tl c k l r Fi RC1 U) as (rd & EP & EC & EL & EI).
  assert (exists x, unread (snd (lz_calls k rd)) = Some (x ++ [RdInterrupted])) as (x & Ux).
  { unfold unread. rewrite EI. unfold lines_read in EL. rewrite EI in EL.
    assert (exists s' k', li_inner (after (length pl - length r) (li_new evs1)) = Some s' /\ ahead [RdInterrupted] s' k') as (s' & k' & Es & x & b' & Ex & _).
    { apply (after_ahead [RdInterrupted] _ (li_new evs1) (Source [] evs1) (full_lines bs)).
      - reflexivity.
      - exists evs, bs. cbn [s_events s_buf app]. auto.
      - intros i Li. rewrite <- (responses_exact (li_new evs1) i), (responses_contents evs1 bs None ls e (delivers_interrupted _ _ _ D) C), (parsed_items _ _ _ _ _ P).
        unfold listing. rewrite app_nth1 by (rewrite map_length; lia). destruct (nth_error pl i) as [y|] eqn:Y; [|apply nth_error_None in Y; lia].
        exists y. apply nth_error_nth. exact (map_nth_error (fun l => Some (ILine l)) i pl Y).
      - cbn [li_new li_n]. lia. }
    exists x. rewrite Es. cbn [option_map]. rewrite Ex. reflexivity. }
  intros rest. assert (x ++ [RdInterrupted] <> []) as NE by (destruct x; discriminate).
  destruct (future lib pf evs1 rd k _ EP Ux NE) as (used & Eu & Fu). unfold evs1 in Eu. rewrite app_assoc in Eu. apply app_inj_tail in Eu as [Eu _].
  destruct (Fu (x ++ rest)) as (m & Em & Ec & Um). exists m, x. rewrite Eu, <- app_assoc. split; [exact Em|]. split; [congruence|exact Um].
Qed.

Theorem endless_units lib pf src m bs ls e pl tl c k l r : flowing (first_reads src m) bs -> file (first_reads src m) ls e pl tl -> read_catalogue lib pf (first_reads src m) = Ok c ->
  unit_ends lib pf pl tl c k (l :: r) -> N.to_nat (po_line_no l) <= full_lines bs ->
  obtained lib pf src k (map (fun x => Val (Some x)) (firstn k (c_items c))).
Proof. intros Fl Fi R U Le. exists m. exact (all_continuations lib pf _ bs ls e pl tl c k l r Fl Fi R U Le). Qed.
Lemma lz_calls_firstn k : forall j r, fst (lz_calls k r) = firstn k (fst (lz_calls (k + j) r)).
Proof.
  induction k as [|k IH]; intros j r; [reflexivity|]. cbn [Nat.add lz_calls]. destruct (lz_po_next r) as [x r'].
  specialize (IH j r'). destruct (lz_calls k r') as [a b], (lz_calls (k + j) r') as [a' b']. cbn [fst firstn] in *. f_equal. exact IH.
Qed.
Lemma first_reads_app src m j : exists t, first_reads src (m + j) = first_reads src m ++ t.
Proof. unfold first_reads. rewrite seq_app, map_app. eauto. Qed.
Theorem obtained_unique lib pf src k j xs ys : obtained lib pf src k xs -> obtained lib pf src (k + j) ys -> xs = firstn k ys.
Proof.
  intros (m & H) (m' & H').
  assert (exists rest rest', first_reads src m ++ rest = first_reads src m' ++ rest') as (rest & rest' & E).
  { destruct (Nat.le_ge_cases m m') as [L|L].
    - destruct (first_reads_app src m (m' - m)) as (t & Et). replace (m + (m' - m)) with m' in Et by lia. exists t, []. rewrite Et, app_nil_r. reflexivity.
    - destruct (first_reads_app src m' (m - m')) as (t & Et). replace (m' + (m - m')) with m in Et by lia. exists [], t. rewrite Et, app_nil_r. reflexivity. }
  destruct (H rest) as (rd & x & P & C & _), (H' rest') as (rd' & x' & P' & C' & _). rewrite E in P. rewrite P in P'. injection P' as <-.
  rewrite <- C, <- C'. apply lz_calls_firstn.
Qed.

(** * The data of the header *)
Definition head (r : reader) := (rd_header_notes r, rd_header_comments r, rd_header_properties r, rd_target_language r, rd_plural_forms r).
Lemma read_line_head r : head (snd (read_line r)) = head r.
Proof.
  unfold read_line. destruct (peek (rd_lines r)) as [[l|e]|]; try reflexivity. destruct (rd_next_unit r) as [[u|e']|]; try reflexivity;
  destruct (next (rd_lines r)) as [[[l'|e'']|] ls]; reflexivity.
Qed.
Lemma read_unit_head first r : head (snd (read_unit first r)) = head r.
Proof.
  unfold read_unit. destruct (parse_comments unit_default (rd_lines r)) as [[u|e|] ls]; try reflexivity.
  pose proof (read_line_head (with_lines r ls)) as H. destruct (read_line (with_lines r ls)) as [[[[n b]|]|e|] r']; cbn [snd] in H; try exact H.
  destruct (parse_message_fields (rd_plural_forms r') first (set_obsolete u b) (rd_lines r')) as [[[v|]|e|] ls']; try exact H.
  destruct (negb first && msg_is_empty (u_message v)); exact H.
Qed.
Lemma po_next_head r : head (snd (po_next r)) = head r.
Proof.
  unfold po_next. destruct (rd_next_unit r) as [[u|e]|]; try reflexivity. unfold next_unit.
  pose proof (read_unit_head false r) as H. destruct (read_unit false r) as [[[v|]|e|] r']; exact H.
Qed.
Theorem calls_head k : forall r, head (snd (calls k r)) = head r.
Proof.
  induction k as [|k IH]; intros r; [reflexivity|]. cbn [calls]. pose proof (po_next_head r) as H. destruct (po_next r) as [x r'].
  specialize (IH r'). destruct (calls k r') as [xs r'']. cbn [snd] in *. congruence.
Qed.
Theorem header_stays k r : let r' := snd (calls k r) in rd_header_notes r' = rd_header_notes r /\ rd_header_comments r' = rd_header_comments r
  /\ rd_header_properties r' = rd_header_properties r /\ rd_target_language r' = rd_target_language r.
Proof. cbn zeta. pose proof (calls_head k r) as H. unfold head in H. injection H as H1 H2 H3 H4 _. auto. Qed.
