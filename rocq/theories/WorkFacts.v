(** The work of the reader (C49). *)
From Coq Require Import String Arith NArith Bool List Lia.
From Verif Require Import ModelBase ModelLine ModelFormula ModelData ModelSource ModelReader ModelWork
  SpecReader SpecBlock SpecWork ReaderFacts.
Import ListNotations.
Local Open Scope nat_scope.

(** * Without the counter it is the reader *)
Section Erase.
  Variable w : po_line -> nat.

  Lemma wbind_fst {A B} (m : wres A) (n : res A) (f : A -> lines -> wres B) (g : A -> lines -> res B) :
    fst m = n -> (forall a ls, fst (f a ls) = g a ls) -> fst (wbind m f) = bind n g.
  Proof.
    intros H F. subst n. destruct m as [[[a|e|] ls] c]; cbn [wbind bind fst]; try reflexivity.
    rewrite <- F. destruct (f a ls). reflexivity.
  Qed.
  Lemma tick_fst {A} n (m : A * nat) : fst (tick n m) = fst m.
  Proof. reflexivity. Qed.
  Lemma fetch_next_fst ls : fst (fetch_next_w w ls) = fetch_next ls.
  Proof. destruct ls as [|[[l|e]|] ls]; reflexivity. Qed.
  Lemma append_conts_fst prefix ls : forall string, fst (append_conts_w w prefix string ls) = append_conts prefix string ls.
  Proof.
    induction ls as [|[[l|e]|] ls IH]; intros string; cbn [append_conts_w append_conts]; try reflexivity.
    destruct l; try reflexivity. destruct (str_eqb _ _); [|reflexivity]. rewrite tick_fst. apply IH.
  Qed.
  Lemma parse_msg_fst obs tag ls : fst (parse_msg_w w obs tag ls) = parse_msg obs tag ls.
  Proof.
    unfold parse_msg_w, parse_msg. apply wbind_fst; [apply fetch_next_fst|]. intros [[]|] ls'; try reflexivity.
    destruct (_ && _); [|reflexivity]. destruct (next ls') as [[[[]|]|] ls'']; try reflexivity. rewrite tick_fst. apply append_conts_fst.
  Qed.
  Lemma parse_values_fst obs k : forall i vs ls, fst (parse_values_w w obs k i vs ls) = parse_values obs k i vs ls.
  Proof.
    induction k as [|k IH]; intros i vs ls; cbn [parse_values_w parse_values]; [reflexivity|].
    apply wbind_fst; [apply parse_msg_fst|]. intros v ls'. apply IH.
  Qed.
  Lemma new_message_fst forms obs id pl ls : fst (new_message_w w forms obs id pl ls) = new_message forms obs id pl ls.
  Proof.
    unfold new_message_w, new_message. destruct id as [id|]; [|reflexivity]. destruct pl as [pl|].
    - apply wbind_fst; [apply parse_values_fst|]. intros vs ls'. destruct (is_empty vs); [|reflexivity]. apply wbind_fst; reflexivity.
    - apply wbind_fst; [apply parse_msg_fst|]. intros [t|] ls'; [reflexivity|]. apply wbind_fst; reflexivity.
  Qed.
  Lemma parse_message_fields_fst forms first u ls : fst (parse_message_fields_w w forms first u ls) = parse_message_fields forms first u ls.
  Proof.
    unfold parse_message_fields_w, parse_message_fields. cbv zeta.
    apply wbind_fst; [apply parse_msg_fst|]. intros pc ls1. apply wbind_fst; [apply parse_msg_fst|]. intros pm ls2.
    apply wbind_fst; [destruct pm; [apply parse_msg_fst|reflexivity]|]. intros pp ls3. apply wbind_fst; [apply parse_msg_fst|]. intros c ls4.
    apply wbind_fst; [apply parse_msg_fst|]. intros id ls5. destruct (_ && _); [apply wbind_fst; reflexivity|].
    apply wbind_fst; [apply parse_msg_fst|]. intros pl ls6. apply wbind_fst; [apply new_message_fst|]. intros [m|] ls7; reflexivity.
  Qed.
  Lemma parse_comments_fst ls : forall u, fst (parse_comments_w u ls) = parse_comments u ls.
  Proof.
    induction ls as [|[[l|e]|] ls IH]; intros u; cbn [parse_comments_w parse_comments]; try reflexivity.
    destruct l; try reflexivity. rewrite tick_fst. apply IH.
  Qed.
  Lemma read_unit_fst first r : fst (read_unit_w w first r) = read_unit first r.
  Proof.
    unfold read_unit_w, read_unit. rewrite <- parse_comments_fst. destruct (parse_comments_w unit_default (rd_lines r)) as [[[u|e|] ls] c]; cbn [fst]; try reflexivity.
    rewrite tick_fst. unfold read_line_w. destruct (read_line (with_lines r ls)) as [[[[l obs]|]|e|] r']; try reflexivity. rewrite tick_fst.
    rewrite <- parse_message_fields_fst. destruct (parse_message_fields_w w _ _ _ _) as [[[[u'|]|e|] ls'] c']; cbn [fst]; try reflexivity.
    destruct (_ && _); reflexivity.
  Qed.
  Lemma next_unit_fst first r : fst (next_unit_w w first r) = next_unit first r.
  Proof. unfold next_unit_w, next_unit. rewrite <- read_unit_fst. destruct (read_unit_w w first r) as [[[[u|]|e|] r'] c]; reflexivity. Qed.
  Lemma reader_new_fst lib pf ls : fst (reader_new_w w lib pf ls) = reader_new lib pf ls.
  Proof.
    unfold reader_new_w, reader_new. cbv zeta. rewrite <- next_unit_fst. destruct (next_unit_w w true _) as [[[[[u|e]|]|] r1] c]; cbn [fst]; try reflexivity.
    destruct (msg_is_empty _); [|reflexivity]. destruct (parse_po_header _ _ _) as [[x|e|] r3]; try reflexivity. rewrite tick_fst.
    rewrite <- next_unit_fst. destruct (next_unit_w w false r3) as [[[nu|] r4] c']; reflexivity.
  Qed.
  Lemma po_next_fst r : fst (po_next_w w r) = po_next r.
  Proof.
    unfold po_next_w, po_next. destruct (rd_next_unit r) as [[u|e]|]; try reflexivity. rewrite <- next_unit_fst.
    destruct (next_unit_w w false r) as [[[nu|] r'] c]; reflexivity.
  Qed.
  Lemma po_collect_fst fuel : forall r, fst (po_collect_w w fuel r) = po_collect fuel r.
  Proof.
    induction fuel as [|fuel IH]; intros r; cbn [po_collect_w po_collect]; [reflexivity|]. rewrite <- po_next_fst.
    destruct (po_next_w w r) as [[[[x|]|] r'] c]; cbn [fst]; try reflexivity. rewrite <- IH. destruct (po_collect_w w fuel r'); reflexivity.
  Qed.
  Theorem work_of_the_reader lib pf evs : fst (read_catalogue_w w lib pf evs) = read_catalogue lib pf evs.
  Proof.
    unfold read_catalogue_w, read_catalogue, po_parse. rewrite <- reader_new_fst. destruct (reader_new_w w lib pf _) as [[r|e|] c]; cbn [fst]; try reflexivity.
    rewrite <- po_collect_fst. destruct (po_collect_w w _ r) as [[l|] c']; reflexivity.
  Qed.
End Erase.

(** * Upper bound *)
Section Upper.
  Variable w : po_line -> nat.
  Variable M : nat.
  Variable Q : nat.
  Hypothesis HQ : 2 + M <= Q.
  Definition cheap (ls : lines) : Prop := forall l, In (Some (ILine l)) ls -> w l <= M.
  (** Steps of cost [Q]: one for each line consumed, and [k] more. *)
  Definition within {A} (ls : lines) (k : nat) (m : A * lines * nat) : Prop :=
    cheap (snd (fst m)) /\ exists n, snd m <= Q * n /\ n + length (snd (fst m)) <= length ls + k.

  Lemma within_bind {A B} ls k1 k2 (m : wres A) (f : A -> lines -> wres B) :
    within ls k1 m -> (forall a ls', cheap ls' -> within ls' k2 (f a ls')) -> within ls (k1 + k2) (wbind m f).
  Proof.
    intros [C (n & H1 & H2)] F. destruct m as [[[a|e|] ls'] c]; cbn [wbind fst snd] in *.
    - destruct (F a ls' C) as [C' (n' & H1' & H2')]. destruct (f a ls') as [r c']. cbn [fst snd] in *. split; [exact C'|].
      exists (n + n'). rewrite Nat.mul_add_distr_l. cbn [fst snd]. lia.
    - split; [exact C|]. exists n. cbn. lia.
    - split; [exact C|]. exists n. cbn. lia.
  Qed.
  Lemma within_ret {A} (a : A) ls k : cheap ls -> within ls k (a, ls, 0).
  Proof. intros C. split; [exact C|]. exists 0. cbn. lia. Qed.
  Lemma within_more {A} ls k k' (m : A * lines * nat) : within ls k m -> k <= k' -> within ls k' m.
  Proof. intros [C (n & H1 & H2)] L. split; [exact C|]. exists n. lia. Qed.
  Lemma within_tick {A} ls ls' k k' t (m : A * lines * nat) : within ls' k m -> t <= Q -> length ls' + k + 1 <= length ls + k' -> within ls k' (tick t m).
  Proof.
    intros [C (n & H1 & H2)] T L. split; [exact C|]. exists (n + 1). destruct m as [m c]. cbn [tick fst snd] in *. rewrite Nat.mul_add_distr_l. lia.
  Qed.
  Lemma cheap_tl x ls : cheap (x :: ls) -> cheap ls.
  Proof. intros C l H. apply C. right. exact H. Qed.
  Lemma fetch_next_within ls : cheap ls -> within ls 1 (fetch_next_w w ls).
  Proof.
    intros C. destruct ls as [|[[l|e]|] ls]; cbn; (split; [cbn|exists 1; cbn [fst snd length]; try lia]).
    - exact C.
    - exact C.
    - specialize (C l (or_introl eq_refl)). lia.
    - exact (cheap_tl _ _ C).
    - exact (cheap_tl _ _ C).
  Qed.
  Lemma append_conts_within prefix ls : forall string, cheap ls -> within ls 1 (append_conts_w w prefix string ls).
  Proof.
    induction ls as [|[[l|e]|] ls IH]; intros string C; cbn [append_conts_w].
    - split; [exact C|exists 1; cbn; lia].
    - pose proof (C l (or_introl eq_refl)) as W. pose proof (cheap_tl _ _ C) as C'.
      assert (forall x : outcome (option str), within (Some (ILine l) :: ls) 1 (x, Some (ILine l) :: ls, 1 + w l)) as K.
      { intros x. split; [exact C|]. exists 1. cbn [fst snd length]. lia. }
      destruct l; try apply K. destruct (str_eqb _ _); [|apply K].
      apply within_tick with ls 1; [apply IH; exact C'|lia|cbn [length]; lia].
    - split; [exact (cheap_tl _ _ C)|]. exists 1. cbn [fst snd length]. lia.
    - split; [exact (cheap_tl _ _ C)|]. exists 1. cbn [fst snd length]. lia.
  Qed.
  Lemma parse_msg_within obs tag ls : cheap ls -> within ls 2 (parse_msg_w w obs tag ls).
  Proof.
    intros C. unfold parse_msg_w. apply (within_bind ls 1 1); [apply fetch_next_within; exact C|]. intros [[]|] ls' C'; try (apply within_ret; exact C').
    destruct (_ && _); [|apply within_ret; exact C']. destruct ls' as [|x ls']; cbn [next hd tl].
    - split; [exact C'|]. exists 1. cbn [fst snd length]. lia.
    - assert (forall y : outcome (option str), within (x :: ls') 1 (y, ls', 1)) as K.
      { intros y. split; [exact (cheap_tl _ _ C')|]. exists 1. cbn [fst snd length]. lia. }
      destruct x as [[[]|]|]; try apply K. apply within_tick with ls' 1; [apply append_conts_within; exact (cheap_tl _ _ C')|lia|cbn [length]; lia].
  Qed.
  Lemma expected_within exp ls : cheap ls -> within ls 1 (expected_w exp ls).
  Proof.
    intros C. unfold expected_w. destruct ls as [|[[[]|e]|] ls]; cbn [peek expected hd next tl];
      (split; [first [exact C|exact (cheap_tl _ _ C)]|exists 1; cbn [fst snd length]; lia]).
  Qed.
  Lemma parse_values_within obs k : forall i vs ls, cheap ls -> within ls (2 * k) (parse_values_w w obs k i vs ls).
  Proof.
    induction k as [|k IH]; intros i vs ls C; cbn [parse_values_w]; [apply within_ret; exact C|].
    replace (2 * S k) with (2 + 2 * k) by lia. apply within_bind; [apply parse_msg_within; exact C|]. intros v ls' C'. apply IH; exact C'.
  Qed.
  Lemma new_message_within forms obs id pl ls K : N.to_nat (forms_count forms) <= K -> cheap ls ->
    within ls (2 * K + 3) (new_message_w w forms obs id pl ls).
  Proof.
    intros HK C. unfold new_message_w. destruct id as [id|]; [|apply within_ret; exact C]. destruct pl as [pl|].
    - apply within_more with (2 * N.to_nat (forms_count forms) + 1); [|lia].
      apply within_bind; [apply parse_values_within; exact C|]. intros vs ls' C'. destruct (is_empty vs); [|apply within_ret; exact C'].
      apply (within_bind ls' 1 0); [apply expected_within; exact C'|]. intros a ls2 C2. apply within_ret; exact C2.
    - apply within_more with (2 + 1); [|lia]. apply within_bind; [apply parse_msg_within; exact C|]. intros [t|] ls' C'; [apply within_ret; exact C'|].
      apply (within_bind ls' 1 0); [apply expected_within; exact C'|]. intros a ls2 C2. apply within_ret; exact C2.
  Qed.
  Lemma parse_message_fields_within forms first u ls K : N.to_nat (forms_count forms) <= K -> cheap ls ->
    within ls (2 * K + 15) (parse_message_fields_w w forms first u ls).
  Proof.
    intros HK C. unfold parse_message_fields_w. cbv zeta. replace (2 * K + 15) with (2 + (2 + (2 + (2 + (2 + (2 * K + 5)))))) by lia.
    apply within_bind; [apply parse_msg_within; exact C|]. clear ls C. intros pc ls C.
    apply within_bind; [apply parse_msg_within; exact C|]. clear ls C. intros pm ls C.
    apply within_bind; [destruct pm; [apply parse_msg_within; exact C|apply within_ret; exact C]|]. clear ls C. intros pp ls C.
    apply within_bind; [apply parse_msg_within; exact C|]. clear ls C. intros c ls C.
    apply within_bind; [apply parse_msg_within; exact C|]. clear ls C. intros id ls C. destruct (_ && _).
    - apply within_more with (1 + 0); [|lia]. apply within_bind; [apply expected_within; exact C|]. clear ls C. intros a ls C. apply within_ret; exact C.
    - replace (2 * K + 5) with (2 + ((2 * K + 3) + 0)) by lia. apply within_bind; [apply parse_msg_within; exact C|]. clear ls C. intros pl ls C.
      apply within_bind; [apply new_message_within; assumption|]. clear ls C. intros [m|] ls C; apply within_ret; exact C.
  Qed.
  Lemma parse_comments_within ls : forall u, cheap ls -> within ls 2 (parse_comments_w u ls).
  Proof.
    induction ls as [|x ls IH]; intros u C; cbn [parse_comments_w].
    - split; [exact C|]. exists 1. cbn [fst snd length]. lia.
    - assert (within (x :: ls) 2 (Ok u, x :: ls, 2)) as K by (split; [exact C|]; exists 1; cbn [fst snd length]; lia).
      destruct x as [[[]|e]|]; try exact K.
      + apply within_tick with ls 2; [apply IH; exact (cheap_tl _ _ C)|lia|cbn [length]; lia].
      + split; [exact (cheap_tl _ _ C)|]. exists 2. cbn [fst snd length]. lia.
  Qed.
  (** For the functions on readers. *)
  Definition rwithin {A} (r : reader) (k : nat) (m : A * reader * nat) : Prop :=
    let r' := snd (fst m) in
    rd_plural_forms r' = rd_plural_forms r /\ cheap (rd_lines r') /\ exists n, snd m <= Q * n /\ n + length (rd_lines r') <= length (rd_lines r) + k.
  Lemma read_line_within r : cheap (rd_lines r) -> rwithin r 1 (read_line_w r).
  Proof.
    intros C. unfold read_line_w, read_line, rwithin. destruct (rd_lines r) as [|[[l|e]|] ls] eqn:E; cbn [peek hd next tl].
    - cbn. rewrite E. split; [reflexivity|]. split; [exact C|]. exists 1. cbn. lia.
    - cbn. rewrite E. split; [reflexivity|]. split; [exact C|]. exists 1. cbn. lia.
    - destruct (rd_next_unit r) as [[u|e']|]; cbn; (split; [reflexivity|]); try rewrite E; (split; [first [exact C|exact (cheap_tl _ _ C)]|]); exists 1; cbn; lia.
    - cbn. rewrite E. split; [reflexivity|]. split; [exact C|]. exists 1. cbn. lia.
  Qed.
  Lemma read_unit_within first r K : N.to_nat (forms_count (rd_plural_forms r)) <= K -> cheap (rd_lines r) ->
    rwithin r (2 * K + 18) (read_unit_w w first r).
  Proof.
    intros HK C. unfold read_unit_w. destruct (parse_comments_within (rd_lines r) unit_default C) as [C1 (n1 & H1 & L1)].
    destruct (parse_comments_w unit_default (rd_lines r)) as [[[u|e|] ls] c]; cbn [fst snd] in *.
    2,3: split; [reflexivity|]; split; [exact C1|]; exists n1; cbn; lia.
    pose proof (read_line_within (with_lines r ls) C1) as R. unfold rwithin in R. destruct R as (F2 & C2 & n2 & H2 & L2).
    destruct (read_line_w (with_lines r ls)) as [[[[[l obs]|]|e|] r'] c2]; cbn [fst snd tick with_lines rd_plural_forms rd_lines] in *.
    2,3,4: split; [exact F2|]; split; [exact C2|]; exists (n1 + n2); unfold tick; cbn [fst snd]; rewrite Nat.mul_add_distr_l; lia.
    pose proof (parse_message_fields_within (rd_plural_forms r') first (set_obsolete u obs) (rd_lines r') K) as P. rewrite F2 in P. specialize (P HK C2).
    destruct P as [C3 (n3 & H3 & L3)]. rewrite F2.
    destruct (parse_message_fields_w w (rd_plural_forms r) first (set_obsolete u obs) (rd_lines r')) as [[[[u'|]|e|] ls'] c3]; cbn [fst snd] in *; [destruct (_ && _)|..];
      (split; [exact F2|]; split; [exact C3|]; exists (n1 + n2 + n3); unfold tick; cbn [fst snd with_lines rd_lines]; rewrite !Nat.mul_add_distr_l; lia).
  Qed.
  Lemma next_unit_within first r K : N.to_nat (forms_count (rd_plural_forms r)) <= K -> cheap (rd_lines r) ->
    rwithin r (2 * K + 18) (next_unit_w w first r).
  Proof.
    intros HK C. pose proof (read_unit_within first r K HK C) as H. unfold next_unit_w. destruct (read_unit_w w first r) as [[[[u|]|e|] r'] c]; exact H.
  Qed.
  (** Units among the items. *)
  Definition good (items : list uitem) : nat := length (filter (fun x => match x with UOk _ => true | UErr _ => false end) items).
  Lemma po_collect_within K : forall fuel r, N.to_nat (forms_count (rd_plural_forms r)) <= K -> cheap (rd_lines r) ->
    forall l, fst (po_collect_w w fuel r) = Some l ->
    exists n, snd (po_collect_w w fuel r) <= Q * n /\ n <= length (rd_lines r) + good l * (2 * K + 18).
  Proof.
    induction fuel as [|fuel IH]; intros r HK C l; cbn [po_collect_w]; [discriminate|]. unfold po_next_w.
    destruct (rd_next_unit r) as [[u|e]|] eqn:E.
    - assert (rd_next_unit (snd (fst (next_unit_w w false r))) = Some (UOk u)) as Er by (rewrite next_unit_fst, next_unit_keeps; exact E).
      destruct (next_unit_within false r K HK C) as (F & C' & n & H1 & H2). destruct (next_unit_w w false r) as [[[nu|] r'] c]; cbn [fst snd] in *; [|discriminate].
      rewrite Er. assert (N.to_nat (forms_count (rd_plural_forms (with_next_unit r' nu))) <= K) as HK' by (cbn; rewrite F; exact HK).
      specialize (IH (with_next_unit r' nu) HK' C'). destruct (po_collect_w w fuel (with_next_unit r' nu)) as [[l'|] c'] eqn:Ec; cbn [fst snd option_map] in *; [|discriminate].
      destruct (IH l' eq_refl) as (n' & H1' & H2'). intros [= <-]. exists (n + n'). rewrite Nat.mul_add_distr_l. split; [lia|].
      cbn [rd_lines with_next_unit] in H2'. change (good (UOk u :: l')) with (S (good l')). rewrite Nat.mul_succ_l. lia.
    - specialize (IH (with_next_unit r None) HK C). destruct (po_collect_w w fuel (with_next_unit r None)) as [[l'|] c'] eqn:Ec; cbn [fst snd option_map] in *; [|discriminate].
      intros [= <-]. exact (IH l' eq_refl).
    - intros [= <-]. exists 0. cbn. lia.
  Qed.
  Lemma reader_new_within K lib pf ls r : 2 <= K -> cheap ls -> fst (reader_new_w w lib pf ls) = Ok r -> N.to_nat (forms_count (rd_plural_forms r)) <= K ->
    cheap (rd_lines r) /\ exists n, snd (reader_new_w w lib pf ls) <= Q * n /\ n + length (rd_lines r) <= length ls + 2 * (2 * K + 18).
  Proof.
    intros K2 C. unfold reader_new_w. cbv zeta. pose proof (next_unit_within true (Reader ls None [] [] [] (lang_invariant lib) None) K K2 C) as (F & C' & n & H1 & H2).
    destruct (next_unit_w w true _) as [[nu r1] c]. cbn [fst snd rd_lines rd_plural_forms] in *. destruct nu as [nu|]; [|discriminate].
    destruct nu as [[u|e]|]; [destruct (msg_is_empty _)|discriminate|].
    2,3: intros [= <-] _; split; [exact C'|]; exists n; cbn; lia.
    destruct (parse_po_header lib pf (with_next_unit r1 (Some (UOk u)))) as [[x|e|] r3] eqn:EH; try discriminate.
    assert (rd_lines r3 = rd_lines r1) as E3.
    { unfold parse_po_header in EH. cbn [rd_next_unit with_next_unit] in EH. destruct (sm_get _ _) as [fo|]; [|injection EH as _ <-; reflexivity].
      destruct (is_empty fo); [injection EH as _ <-; reflexivity|]. destruct (plural_forms_parse pf fo); try discriminate. injection EH as _ <-; reflexivity. }
    intros H HK. cbn [tick fst snd] in *.
    pose proof (next_unit_fst w false r3) as EF. destruct (next_unit_within false r3 (N.to_nat (forms_count (rd_plural_forms r3)))) as (F' & C2 & n' & H1' & H2'); [reflexivity|rewrite E3; exact C'|].
    destruct (next_unit_w w false r3) as [[[nu|] r4] c']; cbn [fst snd] in *; [|discriminate]. injection H as <-. cbn [rd_lines rd_plural_forms with_next_unit] in *.
    rewrite F' in HK. split; [exact C2|]. exists (n + n'). rewrite Nat.mul_add_distr_l. rewrite E3 in H2'. lia.
  Qed.
End Upper.

(** The work of a run that delivers a catalogue. *)
Theorem work_upper w M K lib pf evs r c : (forall l, In (Some (ILine l)) (responses (li_new evs)) -> w l <= M) ->
  po_parse lib pf evs = Ok r -> N.to_nat (nforms (rd_plural_forms r)) <= K -> 2 <= K -> read_catalogue lib pf evs = Ok c ->
  work w lib pf evs <= (2 + M) * (length (responses (li_new evs)) + (2 + good (c_items c)) * (2 * K + 18)).
Proof.
  intros C P HK K2 R. unfold work. pose proof (work_of_the_reader w lib pf evs) as E. rewrite R in E. unfold read_catalogue_w in *.
  unfold po_parse in P. pose proof (reader_new_fst w lib pf (responses (li_new evs))) as EP. rewrite P in EP.
  destruct (reader_new_within w M (2 + M) (le_n _) K lib pf _ r K2 C EP HK) as (C' & n & H1 & H2).
  destruct (reader_new_w w lib pf (responses (li_new evs))) as [x cost]. cbn [fst snd] in *. subst x.
  pose proof (po_collect_within w M (2 + M) (le_n _) K (S (S (length (responses (li_new evs))))) r HK C') as PC.
  destruct (po_collect_w w _ r) as [[l|] c']; cbn [fst snd] in *; [|discriminate]. destruct (PC l eq_refl) as (n' & H1' & H2').
  injection E as <-. cbn [c_items]. apply Nat.le_trans with ((2 + M) * (n + n')); [rewrite Nat.mul_add_distr_l; lia|].
  apply Nat.mul_le_mono_l. rewrite Nat.mul_add_distr_r. lia.
Qed.

(** A run that fails at the first entry or at the header. *)
Theorem work_upper_error w M lib pf evs x : (forall l, In (Some (ILine l)) (responses (li_new evs)) -> w l <= M) ->
  po_parse lib pf evs = Err x -> work w lib pf evs <= (2 + M) * (length (responses (li_new evs)) + 22).
Proof.
  intros C P. unfold work, read_catalogue_w. unfold po_parse in P. rewrite <- (reader_new_fst w) in P. revert P. unfold reader_new_w. cbv zeta.
  destruct (next_unit_within w M (2 + M) (le_n _) true (Reader (responses (li_new evs)) None [] [] [] (lang_invariant lib) None) 2 (le_n _) C) as (F & C' & n & H1 & H2).
  destruct (next_unit_w w true _) as [[nu r1] c]. cbn [fst snd rd_lines rd_plural_forms] in *.
  assert (c <= (2 + M) * (length (responses (li_new evs)) + 22)) as G.
  { apply Nat.le_trans with ((2 + M) * n); [exact H1|]. apply Nat.mul_le_mono_l. lia. }
  destruct nu as [[[u|e]|]|]; try discriminate; [|intros _; exact G].
  destruct (msg_is_empty _); [|discriminate]. destruct (parse_po_header _ _ _) as [[y|e|] r3]; try discriminate; [|intros _; exact G].
  destruct (next_unit_w w false r3) as [[[nu|] r4] c']; discriminate.
Qed.

(** * Lower bound *)
Section Lower.
  Variable w : po_line -> nat.

  Lemma wbind_snd {A B} (m : wres A) (f : A -> lines -> wres B) a ls : fst m = (Ok a, ls) -> snd (wbind m f) = snd m + snd (f a ls).
  Proof. destruct m as [[[x|e|] ls'] c]; cbn [fst]; try discriminate. intros [= -> ->]. cbn [wbind snd]. destruct (f a ls). reflexivity. Qed.
  Lemma wbind_ok {A B} (m : wres A) (f : A -> lines -> wres B) b ls : fst (wbind m f) = (Ok b, ls) ->
    exists a ls', fst m = (Ok a, ls') /\ fst (f a ls') = (Ok b, ls) /\ snd (wbind m f) = snd m + snd (f a ls').
  Proof.
    intros H. destruct m as [[[x|e|] ls'] c]; cbn [wbind fst] in H; try discriminate. exists x, ls'. split; [reflexivity|].
    cbn [wbind snd]. destruct (f x ls') as [r c']. cbn [fst snd] in *. auto.
  Qed.
  Lemma parse_msg_cost obs tag ls : 1 <= snd (parse_msg_w w obs tag ls).
  Proof.
    unfold parse_msg_w. destruct ls as [|[[l|e]|] ls]; cbn [fetch_next_w peek hd next tl wbind snd]; try lia.
    destruct (match l with PMessage _ _ _ _ => _ | _ => _ end) as [r c]. cbn [snd]. lia.
  Qed.
  Lemma parse_values_cost obs k : forall i vs ls vs' ls', fst (parse_values_w w obs k i vs ls) = (Ok vs', ls') ->
    k <= snd (parse_values_w w obs k i vs ls).
  Proof.
    induction k as [|k IH]; intros i vs ls vs' ls' H; [lia|]. cbn [parse_values_w] in *. apply wbind_ok in H as (a & ls2 & H1 & H2 & ->).
    apply IH in H2. pose proof (parse_msg_cost obs (msgstr_tag i) ls). lia.
  Qed.
  Definition asked (u : unit_) : nat := match u_message u with MPlural p => N.to_nat (nforms (pl_forms p)) | _ => 0 end.
  Lemma new_message_cost forms obs id pl ls p ls' : fst (new_message_w w forms obs id pl ls) = (Ok (Some (MPlural p)), ls') ->
    N.to_nat (nforms (pl_forms p)) <= snd (new_message_w w forms obs id pl ls).
  Proof.
    unfold new_message_w. destruct id as [id|]; [|discriminate]. destruct pl as [pl|].
    - intros H. apply wbind_ok in H as (vs & ls2 & H1 & H2 & ->). apply parse_values_cost in H1. destruct (is_empty vs).
      + apply wbind_ok in H2 as (a & ls3 & _ & H2 & _). discriminate.
      + injection H2 as <- _. cbn [plural_new pl_forms snd]. change (nforms forms) with (forms_count forms). lia.
    - intros H. apply wbind_ok in H as ([t|] & ls2 & H1 & H2 & _); [discriminate|]. apply wbind_ok in H2 as (a & ls3 & _ & H2 & _). discriminate.
  Qed.
  Lemma parse_message_fields_cost forms first u ls v ls' : fst (parse_message_fields_w w forms first u ls) = (Ok (Some v), ls') ->
    asked v <= snd (parse_message_fields_w w forms first u ls).
  Proof.
    unfold parse_message_fields_w. cbv zeta. intros H.
    apply wbind_ok in H as (pc & l1 & _ & H & ->). apply wbind_ok in H as (pm & l2 & _ & H & ->). apply wbind_ok in H as (pp & l3 & _ & H & ->).
    apply wbind_ok in H as (c & l4 & _ & H & ->). apply wbind_ok in H as (id & l5 & _ & H & ->). destruct (_ && _).
    - apply wbind_ok in H as (a & l6 & _ & H & _). discriminate.
    - apply wbind_ok in H as (pl & l6 & _ & H & ->). apply wbind_ok in H as (m & l7 & H1 & H & ->). destruct m as [m|]; [|discriminate].
      injection H as <- _. unfold asked. cbn [set_message u_message]. destruct m as [|p]; [lia|]. apply new_message_cost in H1. lia.
  Qed.
  Lemma finalize_asked u : asked (finalize_state u) = asked u.
  Proof. unfold finalize_state. destruct (u_state u); try reflexivity. destruct (msg_is_blank _); reflexivity. Qed.
  Lemma read_unit_cost first r v r' : fst (read_unit_w w first r) = (Ok (Some v), r') -> asked v <= snd (read_unit_w w first r).
  Proof.
    unfold read_unit_w. destruct (parse_comments_w unit_default (rd_lines r)) as [[[u|e|] ls] c]; try discriminate.
    destruct (read_line_w (with_lines r ls)) as [[[[[l obs]|]|e|] r2] c2]; try discriminate.
    pose proof (parse_message_fields_cost (rd_plural_forms r2) first (set_obsolete u obs) (rd_lines r2)) as P.
    destruct (parse_message_fields_w w _ first (set_obsolete u obs) (rd_lines r2)) as [[[[u'|]|e|] ls'] c3]; try discriminate.
    cbn [fst snd] in P. specialize (P u' ls' eq_refl). unfold tick. destruct (_ && _); cbn [fst snd]; [discriminate|]. intros [= <- _]. rewrite finalize_asked. lia.
  Qed.
  Definition asked_item (x : option uitem) : nat := match x with Some (UOk u) => asked u | _ => 0 end.
  Lemma next_unit_cost first r nu r' c : next_unit_w w first r = (Val nu, r', c) -> asked_item nu <= c.
  Proof.
    unfold next_unit_w. pose proof (read_unit_cost first r) as P. destruct (read_unit_w w first r) as [[[[u|]|e|] r2] c2]; try discriminate; intros [= <- _ <-]; cbn [asked_item]; try lia.
    exact (P u r2 eq_refl).
  Qed.
  Lemma asked_cons x l : forms_asked (x :: l) = asked_item (Some x) + forms_asked l.
  Proof. destruct x; reflexivity. Qed.
  Lemma po_collect_cost fuel : forall r l, fst (po_collect_w w fuel r) = Some l ->
    forms_asked l <= asked_item (rd_next_unit r) + snd (po_collect_w w fuel r).
  Proof.
    induction fuel as [|fuel IH]; intros r l; cbn [po_collect_w]; [discriminate|]. unfold po_next_w.
    destruct (rd_next_unit r) as [[u|e]|] eqn:E.
    - assert (rd_next_unit (snd (fst (next_unit_w w false r))) = Some (UOk u)) as Er by (rewrite next_unit_fst, next_unit_keeps; exact E).
      destruct (next_unit_w w false r) as [[[nu|] r'] c] eqn:En; cbn [fst snd] in *; [|discriminate]. apply next_unit_cost in En. rewrite Er.
      specialize (IH (with_next_unit r' nu)). destruct (po_collect_w w fuel (with_next_unit r' nu)) as [[l'|] c']; cbn [fst snd option_map] in *; [|discriminate].
      intros [= <-]. rewrite asked_cons. specialize (IH l' eq_refl). cbn [rd_next_unit with_next_unit] in IH. lia.
    - specialize (IH (with_next_unit r None)). destruct (po_collect_w w fuel (with_next_unit r None)) as [[l'|] c']; cbn [fst snd option_map] in *; [|discriminate].
      intros [= <-]. rewrite asked_cons. specialize (IH l' eq_refl). cbn [rd_next_unit with_next_unit asked_item] in *. lia.
    - intros [= <-]. cbn. lia.
  Qed.
  Lemma reader_new_cost lib pf ls r : fst (reader_new_w w lib pf ls) = Ok r -> asked_item (rd_next_unit r) <= snd (reader_new_w w lib pf ls).
  Proof.
    unfold reader_new_w. cbv zeta. destruct (next_unit_w w true _) as [[[nu|] r1] c] eqn:En; [|discriminate]. apply next_unit_cost in En.
    destruct nu as [[u|e]|]; [destruct (msg_is_empty _)|discriminate|].
    2,3: intros [= <-]; exact En.
    destruct (parse_po_header _ _ _) as [[x|e|] r3]; try discriminate. destruct (next_unit_w w false r3) as [[[nu|] r4] c'] eqn:En2; [|discriminate].
    apply next_unit_cost in En2. unfold tick. cbn [fst snd]. intros [= <-]. cbn [rd_next_unit with_next_unit]. lia.
  Qed.
  Theorem work_lower lib pf evs c : read_catalogue lib pf evs = Ok c -> forms_asked (c_items c) <= work w lib pf evs.
  Proof.
    intros R. unfold work. rewrite <- (work_of_the_reader w) in R. unfold read_catalogue_w in *.
    pose proof (reader_new_cost lib pf (responses (li_new evs))) as H1. destruct (reader_new_w w lib pf _) as [[r|e|] cost]; try discriminate.
    pose proof (po_collect_cost (S (S (length (responses (li_new evs))))) r) as H2. destruct (po_collect_w w _ r) as [[l|] cost']; try discriminate.
    cbn [fst snd] in *. injection R as <-. cbn [c_items]. specialize (H1 r eq_refl). specialize (H2 l eq_refl). lia.
  Qed.
End Lower.
