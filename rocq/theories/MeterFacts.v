(** What the functions of ModelWork.v say they cost is what the meter shows (C49). *)
From Coq Require Import String Arith NArith Bool List Lia.
From Verif Require Import ModelBase ModelLine ModelFormula ModelData ModelSource ModelReader ModelWork ModelMeter
  SpecReader SpecBlock SpecWork SpecMeter WorkFacts WorkThms.
Import ListNotations.
Local Open Scope nat_scope.

(** A result with its cost, when the meter shows [n] at the start *)
Definition settle {A} (n : nat) (x : wres A) : mres A := (fst (fst x), Metered (snd (fst x)) (n + snd x)).
Definition rsettle {A} (n : nat) (x : A * reader * nat) : A * mreader := (fst (fst x), (snd (fst x), n + snd x)).

Section Facts.
  Variable w : po_line -> nat.

  Lemma settle_bind {A B} n (m : wres A) (f : A -> lines -> wres B) (g : A -> metered -> mres B) :
    (forall a ls k, g a (Metered ls k) = settle k (f a ls)) -> mbind (settle n m) g = settle n (wbind m f).
  Proof.
    intros H. destruct m as [[[a|e|] ls] c]; unfold settle at 1; cbn [fst snd mbind wbind]; try reflexivity.
    rewrite H. destruct (f a ls) as [r c']. unfold settle. cbn [fst snd]. rewrite Nat.add_assoc. reflexivity.
  Qed.
  Ltac fin := unfold settle; cbn; unfold mt_pay; cbn; first [reflexivity | match goal with |- (_, Metered _ ?a) = (_, Metered _ ?b) => replace b with a by lia; reflexivity end].
  Lemma mt_fetch_next_w ls n : mt_fetch_next w (Metered ls n) = settle n (fetch_next_w w ls).
  Proof.
    destruct ls as [|[[l|e]|] ls]; fin.
  Qed.
  Lemma mt_append_conts_w q : forall ls fuel s n, length ls < fuel -> mt_append_conts w fuel q s (Metered ls n) = settle n (append_conts_w w q s ls).
  Proof.
    induction ls as [|x ls IH]; intros fuel s n L; (destruct fuel as [|fuel]; [inversion L|]); cbn [length] in L.
    - cbn. fin.
    - destruct x as [[l|e]|]; try (fin).
      destruct l; try (fin).
      change (mt_append_conts w (S fuel) q s (Metered (Some (ILine (PCont line flags text)) :: ls) n))
        with (if str_eqb flags q then mt_append_conts w fuel q (s ++ text) (Metered ls (n + 1 + w (PCont line flags text) + 1))
              else (Ok (Some s), Metered (Some (ILine (PCont line flags text)) :: ls) (n + 1 + w (PCont line flags text)))).
      cbn [append_conts_w]. destruct (str_eqb flags q); [|fin]. rewrite IH by lia.
      destruct (append_conts_w w q (s ++ text) ls) as [r c]. unfold settle, tick. cbn [fst snd]. f_equal. f_equal. lia.
  Qed.
  Lemma mt_parse_msg_w obs tag ls n : mt_parse_msg w obs tag (Metered ls n) = settle n (parse_msg_w w obs tag ls).
  Proof.
    unfold mt_parse_msg, parse_msg_w. rewrite mt_fetch_next_w. apply settle_bind. intros [[]|] ls' k; try (fin).
    destruct (_ && _); [|fin]. unfold mt_next. cbn [mt_lines mt_count].
    destruct (next ls') as [[[[]|]|] ls'']; try (fin). cbn [mt_lines].
    rewrite mt_append_conts_w by lia. destruct (append_conts_w w _ _ ls'') as [r c]. unfold settle, tick. cbn [fst snd]. f_equal. f_equal. lia.
  Qed.
  Lemma mt_expected_w exp ls n : mt_expected exp (Metered ls n) = settle n (expected_w exp ls).
  Proof. destruct ls as [|[[[]|e]|] ls]; fin. Qed.
  Lemma mt_parse_values_w obs k : forall i vs ls n, mt_parse_values w obs k i vs (Metered ls n) = settle n (parse_values_w w obs k i vs ls).
  Proof.
    induction k as [|k IH]; intros i vs ls n; cbn [mt_parse_values parse_values_w]; [fin|].
    rewrite mt_parse_msg_w. apply settle_bind. intros v ls' n'. apply IH.
  Qed.
  Lemma mt_new_message_w forms obs id pl ls n : mt_new_message w forms obs id pl (Metered ls n) = settle n (new_message_w w forms obs id pl ls).
  Proof.
    unfold mt_new_message, new_message_w. destruct id as [id|]; [|fin]. destruct pl as [pl|].
    - rewrite mt_parse_values_w. apply settle_bind. intros vs ls' k. destruct (is_empty vs); [|fin].
      rewrite mt_expected_w. apply settle_bind. intros _ ls2 k2. fin.
    - rewrite mt_parse_msg_w. apply settle_bind. intros [t|] ls' k; [fin|].
      rewrite mt_expected_w. apply settle_bind. intros _ ls2 k2. fin.
  Qed.
  Lemma mt_parse_message_fields_w forms first u ls n :
    mt_parse_message_fields w forms first u (Metered ls n) = settle n (parse_message_fields_w w forms first u ls).
  Proof.
    unfold mt_parse_message_fields, parse_message_fields_w. cbv zeta.
    rewrite mt_parse_msg_w. apply settle_bind. intros pc ls1 n1.
    rewrite mt_parse_msg_w. apply settle_bind. intros pid ls2 n2.
    transitivity (mbind (settle n2 (match pid with Some _ => parse_msg_w w (u_obsolete u) (lit "|msgid_plural") ls2 | None => (Ok None, ls2, 0) end))
      (fun prev_msgid_pl p =>
        mdo context, p <- mt_parse_msg w (u_obsolete u) (lit "msgctxt") p;
        mdo msgid, p <- mt_parse_msg w (u_obsolete u) (lit "msgid") p;
        if negb first && match msgid with None => true | Some _ => false end then
          mdo _, p <- mt_expected (lit "msgid") p; (Ok None, p)
        else
          mdo msgid_pl, p <- mt_parse_msg w (u_obsolete u) (lit "msgid_plural") p;
          mdo m, p <- mt_new_message w forms (u_obsolete u) msgid msgid_pl p;
          match m with
          | None => (Ok None, p)
          | Some msg => (Ok (Some (set_message u pc (new_previous forms pid prev_msgid_pl) context msg)), p)
          end)).
    { f_equal. destruct pid; [apply mt_parse_msg_w|fin]. }
    apply settle_bind. intros ppl ls3 n3.
    rewrite mt_parse_msg_w. apply settle_bind. intros ctx ls4 n4.
    rewrite mt_parse_msg_w. apply settle_bind. intros id ls5 n5.
    destruct (negb first && _).
    - rewrite mt_expected_w. apply settle_bind. intros _ ls6 n6. fin.
    - rewrite mt_parse_msg_w. apply settle_bind. intros pl ls6 n6.
      rewrite mt_new_message_w. apply settle_bind. intros [m|] ls7 n7; fin.
  Qed.
  Lemma mt_parse_comments_w : forall ls fuel u n, length ls < fuel -> mt_parse_comments fuel u (Metered ls n) = settle n (parse_comments_w u ls).
  Proof.
    induction ls as [|x ls IH]; intros fuel u n L; (destruct fuel as [|fuel]; [inversion L|]); cbn [length] in L.
    - cbn. fin.
    - destruct x as [[l|e]|]; try (fin).
      destruct l; try (fin).
      cbn [mt_parse_comments parse_comments_w mt_peek mt_next mt_lines mt_count peek next hd tl]. rewrite IH by lia.
      destruct (parse_comments_w _ ls) as [r c]. unfold settle, tick. cbn [fst snd]. f_equal. f_equal. lia.
  Qed.
  Lemma mt_read_line_w r n : mt_read_line (r, n) = rsettle n (read_line_w r).
  Proof.
    destruct r as [ls nu hn hc hp tl pf]. unfold mt_read_line, read_line_w, read_line, mr_lines, mt_peek. cbn [fst snd rd_lines rd_next_unit mt_lines mt_count].
    destruct ls as [|[[l|e]|] ls]; [destruct nu as [[]|]; reflexivity|destruct nu as [[]|]; reflexivity| |destruct nu as [[]|]; reflexivity].
    destruct nu as [[]|]; cbn; unfold rsettle, mr_with_lines, mr_with_next_unit, with_lines, with_next_unit; cbn;
      repeat (f_equal; try lia).
  Qed.
  Lemma mt_read_unit_w first r n : mt_read_unit w first (r, n) = rsettle n (read_unit_w w first r).
  Proof.
    unfold mt_read_unit, read_unit_w, mr_lines. cbn [fst snd]. rewrite mt_parse_comments_w by lia.
    destruct (parse_comments_w unit_default (rd_lines r)) as [[[u|e|] ls] c]; unfold settle; cbn [fst snd]; try reflexivity.
    unfold mr_with_lines at 1. cbn [fst snd mt_lines mt_count]. rewrite mt_read_line_w.
    destruct (read_line_w (with_lines r ls)) as [[[[[line obs]|]|e|] r'] c']; unfold rsettle, tick; cbn [fst snd]; try (f_equal; f_equal; lia).
    rewrite mt_parse_message_fields_w.
    destruct (parse_message_fields_w w _ first _ (rd_lines r')) as [[[[v|]|e|] ls'] c2]; unfold settle, mr_with_lines; cbn [fst snd mt_lines mt_count];
      try (f_equal; f_equal; lia).
    destruct (negb first && _); cbn [fst snd]; f_equal; f_equal; lia.
  Qed.
  Lemma mt_next_unit_w first r n : mt_next_unit w first (r, n) = rsettle n (next_unit_w w first r).
  Proof.
    unfold mt_next_unit, next_unit_w. rewrite mt_read_unit_w. destruct (read_unit_w w first r) as [[[[u|]|e|] r'] c]; reflexivity.
  Qed.
  Lemma mt_parse_w lib pf evs : mt_parse w lib pf evs = reader_new_w w lib pf (responses (li_new evs)).
  Proof.
    unfold mt_parse, reader_new_w. rewrite mt_next_unit_w.
    destruct (next_unit_w w true _) as [[[[[u|e]|]|] r1] c]; unfold rsettle; cbn [fst snd]; try reflexivity.
    unfold mr_with_next_unit. cbn [fst snd].
    destruct (msg_is_empty (u_message u)); [|reflexivity].
    destruct (parse_po_header lib pf _) as [[a|e|] r3]; try reflexivity.
    rewrite mt_next_unit_w. destruct (next_unit_w w false r3) as [[[nu|] r4] c']; unfold rsettle, tick; reflexivity.
  Qed.
  Lemma mt_po_next_w r n : mt_po_next w (r, n) = rsettle n (po_next_w w r).
  Proof.
    unfold mt_po_next, po_next_w. cbn [fst]. destruct (rd_next_unit r) as [[u|e]|] eqn:E.
    - rewrite mt_next_unit_w. destruct (next_unit_w w false r) as [[[nu|] r'] c]; unfold rsettle; reflexivity.
    - unfold rsettle, mr_with_next_unit. cbn [fst snd]. rewrite Nat.add_0_r. reflexivity.
    - unfold rsettle. cbn [fst snd]. rewrite Nat.add_0_r. reflexivity.
  Qed.
  Lemma mt_collect_w fuel : forall r n, mt_collect w fuel (r, n) = (fst (po_collect_w w fuel r), n + snd (po_collect_w w fuel r)).
  Proof.
    induction fuel as [|fuel IH]; intros r n; cbn [mt_collect po_collect_w].
    - cbn [fst snd]. rewrite Nat.add_0_r. reflexivity.
    - rewrite mt_po_next_w. destruct (po_next_w w r) as [[[[x|]|] r'] c]; unfold rsettle; cbn [fst snd]; try reflexivity.
      rewrite IH. destruct (po_collect_w w fuel r') as [l c']. cbn [fst snd]. f_equal. lia.
  Qed.
  Theorem metered_as_stated lib pf evs : read_metered w lib pf evs = read_catalogue_w w lib pf evs.
  Proof.
    unfold read_metered, read_catalogue_w. rewrite mt_parse_w.
    destruct (reader_new_w w lib pf (responses (li_new evs))) as [[r|e|] c]; try reflexivity.
    rewrite mt_collect_w. destruct (po_collect_w w _ r) as [[l|] c']; reflexivity.
  Qed.
End Facts.
Lemma metered_pair w lib pf evs : fst (read_catalogue_w w lib pf evs) = read_catalogue lib pf evs ->
  read_metered w lib pf evs = (read_catalogue lib pf evs, work w lib pf evs).
Proof. intros H. rewrite metered_as_stated. unfold work. rewrite <- H. destruct (read_catalogue_w w lib pf evs). reflexivity. Qed.
Theorem metered_work w lib pf evs : read_metered w lib pf evs = (read_catalogue lib pf evs, work w lib pf evs).
Proof. apply metered_pair, work_of_the_reader. Qed.
