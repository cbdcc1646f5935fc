(** Exactly which files of obsolete entries and previous messages in the syntax of GNU gettext are read
    with the units they stand for: those with usual lines, and after them lines with nothing but a marker. *)
From Coq Require Import String Arith NArith ZArith Bool List Lia.
From Verif Require Import ModelBase ModelUtf8 ModelLine ModelFormula ModelData ModelSource ModelReader
  SpecLine SpecFormula SpecSource SpecReader SpecBlock SpecHeader SpecFile SpecGettext SpecLayout SpecMarks BaseFacts LineFacts LineThms StreamThms SourceFacts StreamFacts
  BlockFacts CommentFacts UnitFacts BlocksFacts FileFacts BlockThms EntryThms WriterFacts WritableFacts IndepFacts GettextFacts FileIntro BlockWitness LayoutFacts LayoutMore NoteFacts MarksFacts.
Import ListNotations.
Local Open Scope N_scope.
Local Notation len := (@length char).
Local Ltac ll := unfold str, char in *; cbn [length] in *; lia.

Lemma list_eq_nil {A} (l : list A) : l = [] \/ l <> [].
Proof. destruct l; [left; reflexivity|right; discriminate]. Qed.

(** * Lines *)
Inductive mlook : po_line -> mark * list gtok -> Prop :=
| ml_keyword m n kw x q : gettext_keyword kw -> mlook (PMessage n (flags_of m) (reported_tag (flags_of m) kw) x) (m, GKeyword kw :: q)
| ml_string m n x b q : mlook (PCont n (flags_of m) x) (m, GString b :: q)
| ml_comment m n k c q : In k [126; 124] -> q = [] \/ (exists x kw, q = x ++ [GKeyword kw]) -> mlook (PComment n k c) (m, q).
Definition counted (l : po_line) (t : mark * list gtok) : Prop :=
  ~ is_comment l -> forall z, measures (snd t) z -> (z <= lweight l)%nat /\ (z = lweight l -> usual_line t).

Lemma blank_tokens w s ts : gettext_blank w -> line_tokens s ts -> line_tokens (w ++ s) ts.
Proof.
  intros B T. assert (A : forall v, gettext_blank v -> gettext_blank (w ++ v)) by (intros v V c I; apply in_app_or in I as [I|I]; auto).
  destruct T as [v V|v kw s ts V K F T|v b s ts V C T].
  - constructor. auto.
  - rewrite app_assoc. constructor; auto.
  - rewrite app_assoc. constructor; auto.
Qed.
Lemma cut_at (a b c d : str) (x : char) : ~ In x a -> ~ In x c -> a ++ x :: b = c ++ x :: d -> a = c /\ b = d.
Proof.
  revert c. induction a as [|y a IH]; intros [|z c] Na Nc E; cbn [app] in E.
  - injection E as ->. auto.
  - injection E as E1 _. subst. exfalso. apply Nc. left. reflexivity.
  - injection E as E1 _. subst. exfalso. apply Na. left. reflexivity.
  - injection E as E1 E2. subst z. destruct (IH c) as [-> ->]; [intros I; apply Na; right; exact I|intros I; apply Nc; right; exact I|exact E2|auto].
Qed.
Lemma blanks_no_hash w : blanks w -> ~ In 35 w.
Proof. intros B I. specialize (B _ I). cbn in B. intuition discriminate. Qed.
Lemma mark_cases m : m = no_mark \/ exists k r, mark_text m = 35 :: k :: r /\ In k [126; 124].
Proof. destruct m as [[|] [|]]; cbn; [right; exists 126, [124]|right; exists 126, []|right; exists 124, []|left; reflexivity]; split; try reflexivity; cbn; tauto. Qed.
Lemma marked_comment w m r kind content : gettext_blank w -> m <> no_mark -> comment_shape (w ++ mark_text m ++ r) kind content -> In kind [126; 124].
Proof.
  intros B Nm (w1 & B1 & H). destruct (mark_cases m) as [->|(k & q & E & I)]; [contradiction|]. rewrite E in H. cbn [app] in H.
  pose proof (blanks_no_hash _ (gettext_blank_blanks _ B)) as N0. pose proof (blanks_no_hash _ B1) as N1.
  destruct H as [(H & _)|(w2 & _ & _ & H)]; cbn [app] in H; apply cut_at in H as [_ H]; try assumption; [discriminate|]. injection H as <- _. exact I.
Qed.
(** The text of a line that begins with a string, or with a keyword and a string. *)
Lemma mline_text w0 mk w1 kw w2 b r ts n m : one_line (w0 ++ mark_text mk ++ w1 ++ opt_str kw ++ w2 ++ [34] ++ b ++ [34] ++ r) -> gettext_blank w0 -> gettext_blank w1 -> gettext_blank w2 ->
  (forall k, kw = Some k -> gettext_keyword k) -> closed b -> line_tokens r ts -> (forall ts' k, ts <> ts' ++ [GKeyword k]) -> measures ts m ->
  exists x, parse_line (w0 ++ mark_text mk ++ w1 ++ opt_str kw ++ w2 ++ [34] ++ b ++ [34] ++ r) n = Some (match kw with Some k => PMessage n (flags_of mk) (reported_tag (flags_of mk) k) x | None => PCont n (flags_of mk) x end)
  /\ ((ts = [] /\ x = unescape b) \/ (len (unescape b) + m < len x)%nat).
Proof.
  intros O B0 B1 B2 K C T NL M.
  assert (exists q w4, b ++ [34] ++ r = q ++ [34] ++ w4 /\ blanks w4 /\ ((ts = [] /\ q = b) \/ (len (unescape b) + m < len (unescape q))%nat)) as (q & w4 & E & B4 & L).
  { destruct ts as [|g ts] using rev_ind.
    - inversion T; subst. exists b, r. split; [reflexivity|]. split; [apply gettext_blank_blanks; assumption|]. auto.
    - clear IHts. destruct g as [k|b']; [destruct (NL ts k eq_refl)|]. destruct (tokens_weight _ _ T ts b' m eq_refl M) as (a & w4 & -> & B4 & L).
      exists (b ++ [34] ++ a), w4. split; [rewrite <- !app_assoc; reflexivity|]. split; [exact B4|]. right.
      rewrite unescape_closed by exact C. rewrite unescape_copy by (intros c [<-|[]]; discriminate). rewrite !app_length. cbn [length]. ll. }
  exists (unescape q). split.
  - assert (quoted_line (w0 ++ mark_text mk ++ w1 ++ opt_str kw ++ w2 ++ [34] ++ b ++ [34] ++ r) (flags_of mk) kw q) as Q.
    { exists (mark_text mk), w0, w1, w2, w4. split; [rewrite E; reflexivity|]. split; [apply mark_marker|]. split; [intros k Ek; apply gettext_keyword_keyword, K, Ek|].
      repeat split; try (apply gettext_blank_blanks; assumption); try exact B4.
      intros I. apply O. rewrite E, !in_app_iff. auto 12. }
    destruct kw as [k|].
    + apply parse_line_message; [exact O|]. split; [reflexivity|]. exists k, q. split; [exact Q|]. split; [reflexivity|apply unescape_unescapes].
    + apply parse_line_cont; [exact O|]. split; [reflexivity|]. exists q. split; [exact Q|apply unescape_unescapes].
  - destruct L as [[-> ->]|L]; auto.
Qed.
Lemma marked_counted s m ts n l z : one_line s -> marked_line s (m, ts) -> fed ts \/ (exists x kw, ts = x ++ [GKeyword kw]) -> measures ts z -> line_of s n l ->
  (l = PBlank /\ m = no_mark /\ ts = []) \/ (l <> PBlank /\ mlook l (m, ts) /\ (~ is_comment l -> (z <= lweight l)%nat /\ (z = lweight l -> usual_line (m, ts)))).
Proof.
  intros O (w & r & E & B & T) Fd M Lo. cbn [fst snd] in *.
  assert (CM : (ts = [] \/ exists x kw, ts = x ++ [GKeyword kw]) -> (l = PBlank /\ m = no_mark /\ ts = []) \/ (l <> PBlank /\ mlook l (m, ts) /\ (~ is_comment l -> (z <= lweight l)%nat /\ (z = lweight l -> usual_line (m, ts))))).
  { intros Ct.
    assert (Q : forall flags k q, ~ quoted_line s flags k q).
    { intros flags k q (mark & w1 & w2 & w3 & w4 & E' & _ & _ & _ & _ & _ & B4 & _). destruct Ct as [-> |(x & kw & ->)].
      - inversion T as [w' B'| |]; subst. assert (In 34 (w ++ mark_text m ++ r)) as I by (rewrite E', !in_app_iff; cbn; tauto).
        rewrite !in_app_iff in I. destruct I as [I|[I|I]].
        + specialize (B _ I). cbn in B. intuition discriminate.
        + destruct m as [[|] [|]]; cbn in I; intuition discriminate.
        + specialize (B' _ I). cbn in B'. intuition discriminate.
      - destruct (tokens_last _ _ T x kw eq_refl) as (a & c & v & Er & Bv & W & N). apply N.
        apply (last_nonblank v c (w ++ mark_text m ++ a) w4 34 (w1 ++ mark ++ w2 ++ opt_str k ++ w3 ++ [34] ++ q)); [exact Bv|exact B4|exact W|apply not_white; reflexivity|].
        transitivity s; [rewrite E, Er, <- !app_assoc; reflexivity|rewrite E', <- !app_assoc; reflexivity]. }
    destruct (mark_cases m) as [->|(k & q & Em & I)].
    - cbn [mark_text no_mark app] in E. pose proof (blank_tokens w r ts B T) as T'. rewrite <- E in T'. destruct Ct as [-> |(x & kw & ->)]; [|destruct (keyword_last_line _ _ _ n T' _ Lo)].
      left. split; [|auto]. inversion T' as [w' B'| |]; subst w'. apply line_of_iff in Lo; [|exact O]. rewrite (proj2 (parse_line_blank s n O) (gettext_blank_blanks _ B')) in Lo. congruence.
    - right. destruct Lo as [Bs|f k' q' t H _|f q' t H _|kind content H _]; [|destruct (Q _ _ _ H)|destruct (Q _ _ _ H)|].
      + exfalso. apply (blanks_no_hash _ Bs). rewrite E, Em, !in_app_iff. cbn. tauto.
      + split; [discriminate|]. split; [|intros Nc; exfalso; apply Nc; exists n, kind, content; reflexivity]. apply ml_comment; [|exact Ct]. rewrite E in H. apply (marked_comment _ _ _ _ _ B) in H; [exact H|]. intros ->. discriminate. }
  destruct Fd as [Fd|(x & kw & Ek)]; [|apply CM; right; eauto].
  destruct (list_eq_nil ts) as [->|Ne]; [apply CM; auto|]. destruct (exists_last Ne) as (y & e & Ey).
  destruct e as [kw|b0]; [apply CM; right; exists y, kw; exact Ey|].
  assert (NL : forall x kw, ts <> x ++ [GKeyword kw]) by (intros x kw Ex; rewrite Ey in Ex; apply app_inj_tail in Ex as [_ Ex]; discriminate).
  clear CM Ey y b0. right. apply line_of_iff in Lo; [|exact O]. destruct T as [v V|v kw s' ts' V K F T|v b s' ts' V C T]; [contradiction| |].
  - destruct (Fd [] kw ts' eq_refl) as (b & ts & ->). remember (GString b :: ts) as q eqn:E2. destruct T as [| |w2 b' s2 ts2 B2 C T]; try discriminate. injection E2 as -> ->.
    inversion M as [|k' q' n' M1|]; subst. inversion M1 as [| |b' t q' n' G M2]; subst.
    destruct (mline_text w m v (Some kw) w2 b s2 ts n n') as (x & P & L); try assumption.
    { intros k [= <-]. exact K. } { intros x k ->. apply (NL (GKeyword kw :: GString b :: x) k). reflexivity. }
    assert (P' := eq_trans (eq_sym Lo) P). injection P' as ->. split; [discriminate|]. split; [constructor; exact K|]. intros _. cbn [lweight].
    destruct (means_length _ _ G) as [G1 G2]. destruct L as [[-> ->]|L].
    + inversion M2; subst. split; [ll|]. intros Ez. split; [constructor; apply G2; ll|discriminate].
    + split; ll.
  - inversion M as [| |b' t q' n' G M2]; subst.
    destruct (mline_text w m [] None v b s' ts' n n') as (x & P & L); try assumption.
    { exact blank_nil. } { discriminate. } { intros x k ->. apply (NL (GString b :: x) k). reflexivity. }
    assert (P' := eq_trans (eq_sym Lo) P). injection P' as ->. split; [discriminate|]. split; [constructor|]. intros _. cbn [lweight].
    destruct (means_length _ _ G) as [G1 G2]. destruct L as [[-> ->]|L].
    + inversion M2; subst. split; [ll|]. intros Ez. split; [constructor; apply G2; ll|discriminate].
    + split; ll.
Qed.
(** The lines and what stands in them. *)
Inductive aligned : list po_line -> list (mark * list gtok) -> Prop :=
| al_nil : aligned [] []
| al_blank pl tss : aligned pl tss -> aligned pl ((no_mark, []) :: tss)
| al_line l t pl tss : mlook l t -> counted l t -> aligned pl tss -> aligned (l :: pl) (t :: tss).
Lemma aligned_app p tss : aligned p tss -> forall p1 p2, p = p1 ++ p2 -> exists t1 t2, tss = t1 ++ t2 /\ aligned p1 t1 /\ aligned p2 t2.
Proof.
  induction 1 as [|pl tss A IH|l t pl tss M C A IH]; intros p1 p2 E.
  - symmetry in E. apply app_eq_nil in E as [-> ->]. exists [], []. split; [reflexivity|]. split; constructor.
  - destruct (IH _ _ E) as (t1 & t2 & -> & A1 & A2). exists ((no_mark, []) :: t1), t2. split; [reflexivity|]. split; [constructor; exact A1|exact A2].
  - destruct p1 as [|l' p1]; cbn [app] in E.
    + subst p2. exists [], (t :: tss). split; [reflexivity|]. split; constructor; assumption.
    + injection E as -> E. destruct (IH _ _ E) as (t1 & t2 & -> & A1 & A2). exists (t :: t1), t2. split; [reflexivity|]. split; [constructor; assumption|exact A2].
Qed.
Lemma lines_aligned n ls e pl tl : parsed n ls e pl tl -> e = None -> tl = None -> forall tss z, Forall2 marked_line ls tss -> fed (flat_map snd tss) -> measures (flat_map snd tss) z -> aligned pl tss.
Proof.
  induction 1 as [n|n e|n s ls e O B|n s ls e pl tl O L H IH|n s l ls e pl tl O L Nb H IH]; intros Ee Et tss z F Fd M; try discriminate.
  - inversion F; subst. constructor.
  - inversion F as [|? [m ts] ? tss' T F']; subst. cbn [flat_map snd] in Fd, M. destruct (measures_split _ _ _ M) as (x & y & M1 & M2 & ->).
    destruct (marked_counted _ _ _ _ _ _ O T (fed_prefix _ _ Fd) M1 L) as [(_ & -> & ->)|(N & _)]; [|congruence].
    constructor. exact (IH eq_refl eq_refl tss' y F' (fed_skip _ _ Fd) M2).
  - inversion F as [|? [m ts] ? tss' T F']; subst. cbn [flat_map snd] in Fd, M. destruct (measures_split _ _ _ M) as (x & y & M1 & M2 & ->).
    destruct (marked_counted _ _ _ _ _ _ O T (fed_prefix _ _ Fd) M1 L) as [(-> & _)|(_ & Lk & _)]; [congruence|].
    constructor; [exact Lk| |exact (IH eq_refl eq_refl tss' y F' (fed_skip _ _ Fd) M2)].
    intros Nc z Mz. destruct (marked_counted _ _ _ _ _ _ O T (fed_prefix _ _ Fd) Mz L) as [(-> & _)|(_ & _ & X)]; [congruence|exact (X Nc)].
Qed.
Lemma aligned_weight pl tss : aligned pl tss -> Forall (fun l => ~ is_comment l) pl -> forall z, measures (flat_map snd tss) z ->
  (z <= weight pl)%nat /\ (z = weight pl -> Forall usual_line tss).
Proof.
  induction 1 as [|pl tss A IH|l t pl tss M C A IH]; intros N z Mz.
  - inversion Mz; subst. split; [apply le_n|intros _; constructor].
  - destruct (IH N z Mz) as [X Y]. split; [exact X|]. intros E. constructor; [split; [constructor|reflexivity]|apply Y, E].
  - inversion N as [|? ? N1 N2]; subst. cbn [flat_map] in Mz. destruct (measures_split _ _ _ Mz) as (x & y & M1 & M2 & ->).
    destruct (IH N2 y M2) as [X Y]. destruct (C N1 x M1) as [X1 Y1]. unfold weight. cbn [fold_right]. fold (weight pl). split; [lia|].
    intros E. constructor; [apply Y1; lia|apply Y; lia].
Qed.

(** * Entries *)
Definition mk_id (m : mark) (g : gtok) : nat := match g with GKeyword kw => if snd m then 0%nat else is_id kw | _ => 0%nat end.
Definition mids (ts : list (mark * gtok)) : nat := fold_right (fun t a => (mk_id (fst t) (snd t) + a)%nat) 0%nat ts.
Lemma mids_app a b : mids (a ++ b) = (mids a + mids b)%nat.
Proof. unfold mids. induction a as [|g a IH]; cbn [app fold_right]; [reflexivity|rewrite IH; lia]. Qed.
Lemma mids_previous obs ts : mids (with_mark (obs, true) ts) = 0%nat.
Proof. unfold mids, with_mark. induction ts as [|g ts IH]; [reflexivity|]. cbn [map fold_right fst snd]. rewrite IH. destruct g; reflexivity. Qed.
Lemma mids_own obs ts : mids (with_mark (obs, false) ts) = ids ts.
Proof. unfold mids, with_mark, ids. induction ts as [|g ts IH]; [reflexivity|]. cbn [map fold_right fst snd]. rewrite IH. destruct g; reflexivity. Qed.
Lemma tokens_of m ts : map snd (with_mark m ts) = ts.
Proof. unfold with_mark. rewrite map_map. cbn. apply map_id. Qed.
Lemma tokens_flat tss : map snd (flat_map line_marks tss) = flat_map snd tss.
Proof. induction tss as [|t tss IH]; [reflexivity|]. cbn [flat_map]. rewrite map_app, IH. unfold line_marks. rewrite tokens_of. reflexivity. Qed.
Definition muweight (u : unit_) : nat := (len (opt_str (u_prev_context u)) + mweight (u_prev_message u) + uweight u)%nat.
Definition muweights (us : list unit_) : nat := fold_right (fun u a => (muweight u + a)%nat) 0%nat us.

(** ** In the syntax of gettext *)
Lemma context_measure a c : gettext_context a c -> measures a (len (opt_str c)) /\ ids a = 0%nat.
Proof. intros [|a' s F]; [split; [constructor|reflexivity]|]. exact (field_measure _ _ _ F). Qed.
Lemma previous_measure forms p pc pm : gettext_previous forms p pc pm -> measures p (len (opt_str pc) + mweight pm).
Proof.
  intros [|a c b id A B|a c b id d pl A B D].
  - constructor.
  - cbn [mweight opt_str]. apply measures_app; [apply context_measure; exact A|]. destruct (field_measure _ _ _ B) as [M _]. cbn [length]. rewrite Nat.add_0_r. exact M.
  - cbn [mweight pl_singular pl_plural pl_values fold_right]. rewrite Nat.add_0_r. apply measures_app; [apply context_measure; exact A|].
    destruct (field_measure _ _ _ B) as [M _], (field_measure _ _ _ D) as [M' _]. apply measures_app; assumption.
Qed.
Lemma marked_measure forms f u : marked_entry forms f u -> measures (map snd f) (muweight u) /\ mids f = 1%nat /\ u_comments u = [].
Proof.
  intros [obs p pc pm a c b m st P A B St]. destruct (entry_measure forms (a ++ b) (Unit c m None (MSimple [] None) [] [] [] [] st false)) as [M I]; [constructor; assumption|].
  rewrite map_app, !tokens_of, mids_app, mids_previous, mids_own. split; [|split; [exact I|reflexivity]]. unfold muweight. cbn [u_prev_context u_prev_message].
  apply measures_app; [eapply previous_measure; exact P|exact M].
Qed.
Lemma marked_measures forms es us : Forall2 (marked_entry forms) es us -> measures (map snd (concat es)) (muweights us) /\ mids (concat es) = length us /\ Forall (fun u => u_comments u = []) us.
Proof.
  induction 1 as [|f u es us G F (IH1 & IH2 & IH3)]; [split; [constructor|split; [reflexivity|constructor]]|]. cbn [concat length]. destruct (marked_measure _ _ _ G) as (M & I & C).
  rewrite map_app, mids_app, I, IH2. split; [apply measures_app; assumption|]. split; [reflexivity|constructor; assumption].
Qed.
(** Each keyword is followed by a string; each one of the previous message, and each msgctxt, by a later msgid. *)
Definition msound (ts : list (mark * gtok)) : Prop :=
  fed (map snd ts) /\ forall x m kw y, ts = x ++ (m, GKeyword kw) :: y -> snd m = true \/ kw = lit "msgctxt" -> (0 < mids y)%nat.
Lemma msound_nil : msound [].
Proof. split; [intros [|? x] kw y E; discriminate|intros [|? x] m kw y E; discriminate]. Qed.
Lemma msound_string m b ts : msound ts -> msound ((m, GString b) :: ts).
Proof.
  intros [F C]. split.
  - intros [|g x] kw y E; [discriminate|]. injection E as _ E. exact (F x kw y E).
  - intros [|g x] m' kw y E; [discriminate|]. injection E as _ E. exact (C x m' kw y E).
Qed.
Lemma msound_strings m bs ts : msound ts -> msound (with_mark m (map GString bs) ++ ts).
Proof. intros S. induction bs as [|b bs IH]; [exact S|]. cbn [map with_mark app]. apply msound_string, IH. Qed.
Lemma msound_field m kw f v ts : gettext_field kw f v -> msound ts -> (snd m = true \/ kw = lit "msgctxt" -> (0 < mids ts)%nat) -> msound (with_mark m f ++ ts).
Proof.
  intros [b bs t xs G F] S H. cbn [with_mark map app]. pose proof (msound_string m b _ (msound_strings m bs ts S)) as [S1 S2]. unfold with_mark in *. split.
  - intros [|g x] kw' y E; cbn [map snd app] in E; injection E as E1 E2; [subst; eauto|]. exact (S1 x kw' y E2).
  - intros [|g x] m' kw' y E X; cbn [app] in E.
    + injection E as E1 E3 E2. subst. unfold mids. cbn [fold_right fst snd mk_id]. fold (mids (map (pair m') (map GString bs) ++ ts)). rewrite mids_app. specialize (H X). lia.
    + injection E as E1 E2. exact (S2 x m' kw' y E2 X).
Qed.
Lemma msound_context m a c ts : gettext_context a c -> msound ts -> (0 < mids ts)%nat -> msound (with_mark m a ++ ts) /\ (0 < mids (with_mark m a ++ ts))%nat.
Proof. intros [|a' s F] S P; [split; assumption|]. split; [apply (msound_field m _ _ _ _ F S); auto|rewrite mids_app; lia]. Qed.
Lemma msound_forms obs i f vs ts : gettext_forms i f vs -> msound ts -> msound (with_mark (obs, false) f ++ ts).
Proof.
  induction 1 as [i|i kw a v b vs K F G IH]; intros S; [exact S|]. rewrite with_mark_app, <- app_assoc. apply (msound_field _ _ _ _ _ F); [exact (IH S)|].
  intros [E|E]; [discriminate|]. destruct (proj2 (msgstr_kw_other _ _ K) E).
Qed.
Lemma msound_entries forms es us : Forall2 (marked_entry forms) es us -> msound (concat es).
Proof.
  induction 1 as [|f u es us G F IH]; [exact msound_nil|]. cbn [concat]. destruct G as [obs p pc pm a c b m st P A B St]. rewrite with_mark_app, <- !app_assoc.
  assert (msound (with_mark (obs, false) b ++ concat es) /\ (0 < mids (with_mark (obs, false) b ++ concat es))%nat) as [S I].
  { assert (X : forall kw, kw <> lit "msgctxt" -> forall ts, snd (obs, false) = true \/ kw = lit "msgctxt" -> (0 < mids ts)%nat) by (intros kw Nk ts [Y|Y]; [discriminate|contradiction]).
    destruct B as [f1 id f2 text F1 F2|f1 id f2 pl f3 vs F1 F2 F3 _ _]; rewrite !with_mark_app, <- ?app_assoc, mids_app, mids_own, (proj2 (field_measure _ _ _ F1)).
    - split; [|cbn; lia]. eapply msound_field; [exact F1| |apply X; discriminate]. eapply msound_field; [exact F2|exact IH|apply X; discriminate].
    - split; [|cbn; lia]. eapply msound_field; [exact F1| |apply X; discriminate]. eapply msound_field; [exact F2| |apply X; discriminate]. eapply msound_forms; [exact F3|exact IH]. }
  destruct (msound_context (obs, false) _ _ _ A S I) as [S' I']. clear S I.
  destruct P as [|a' c' b' id A' B'|a' c' b' id d pl A' B' D]; [exact S'| |]; rewrite !with_mark_app, <- !app_assoc.
  - apply (msound_context _ _ _ _ A'); [|rewrite mids_app; lia]. eapply msound_field; [exact B'|exact S'|auto].
  - apply (msound_context _ _ _ _ A'); [|rewrite !mids_app in *; lia]. eapply msound_field; [exact B'| |intros _; rewrite !mids_app in *; lia]. eapply msound_field; [exact D|exact S'|auto].
Qed.

(** ** As read *)
Lemma field_size p kw f t : field p kw f t -> weight f = len t /\ id_lines f = is_id (reported_tag p kw) /\ Forall (fun l => ~ is_comment l) f.
Proof.
  intros [n s ls t' S]. destruct (strings_weight _ _ _ S) as [W I]. unfold weight, id_lines in *. cbn [fold_right lweight]. rewrite W, I, app_length.
  split; [reflexivity|]. split; [lia|]. constructor; [intros (? & ? & ? & E); discriminate|]. clear - S. induction S; constructor; [intros (? & ? & ? & E); discriminate|assumption].
Qed.
Lemma opt_size p kw f t : opt_field p kw f t -> weight f = len (opt_str t) /\ Forall (fun l => ~ is_comment l) f.
Proof. intros [|ls s F]; [split; [reflexivity|constructor]|]. destruct (field_size _ _ _ _ F) as (A & _ & B). auto. Qed.
Lemma values_size p count i f vs : values p count i f vs -> weight f = fold_right (fun v a => (len v + a)%nat) 0%nat vs /\ Forall (fun l => ~ is_comment l) f.
Proof.
  induction 1 as [i|i k kw ls s ls' vs L1 L2 K F V [IH1 IH2]]; [split; [reflexivity|constructor]|]. destruct (field_size _ _ _ _ F) as (A & _ & B).
  rewrite weight_app, A, IH1. split; [reflexivity|]. apply Forall_app. auto.
Qed.
Lemma own_tag obs kw : reported_tag (own obs) kw = kw.
Proof. destruct obs; reflexivity. Qed.
Definition odd_comment (l : po_line) : Prop := forall n k s, l = PComment n k s -> In k [126; 124].
Lemma no_comments cs F N L C : block_comments cs F N L C -> Forall odd_comment cs -> C = [] -> cs = [].
Proof.
  intros [|n s fs ls F' N' L' C' _ _|n s ws ls F' N' L' C' _ _|n s ls F' N' L' C' _|n s ls F' N' L' C' _|n k s ls F' N' L' C' _ _] O E; [reflexivity| | | | |discriminate];
    inversion O as [|? ? X _]; subst; specialize (X _ _ _ eq_refl); cbn in X; intuition discriminate.
Qed.
Lemma entry_size forms b u : entry forms b u -> Forall odd_comment b -> u_comments u = [] -> weight b = muweight u /\ (0 < id_lines b)%nat /\ Forall (fun l => ~ is_comment l) b.
Proof.
  intros [cs F N L C obs ks pc pm c m st Bc K St] U E. cbn [u_comments] in E. apply Forall_app in U as [Uc _]. rewrite (no_comments _ _ _ _ _ Bc Uc E). cbn [app].
  unfold muweight, uweight. cbn [u_context u_message u_prev_context u_prev_message]. clear Bc Uc St. destruct K as [l1 pc l2 pm l3 c l4 m F1 F2 F3 Bo].
  destruct (opt_size _ _ _ _ F1) as [W1 N1], (opt_size _ _ _ _ F3) as [W3 N3].
  assert (weight l2 = mweight pm /\ Forall (fun l => ~ is_comment l) l2) as [W2 N2].
  { destruct F2 as [|l id F2|l id l' pl F2 F2']; [split; [reflexivity|constructor]| |]; destruct (field_size _ _ _ _ F2) as (A & _ & B); cbn [mweight opt_str length pl_singular pl_plural pl_values fold_right].
    - rewrite Nat.add_0_r. auto.
    - destruct (field_size _ _ _ _ F2') as (A' & _ & B'). rewrite weight_app, Nat.add_0_r, A, A'. split; [reflexivity|apply Forall_app; auto]. }
  assert (weight l4 = mweight m /\ (0 < id_lines l4)%nat /\ Forall (fun l => ~ is_comment l) l4) as (W4 & I4 & N4).
  { destruct Bo as [f1 id f2 text B1 B2|f1 id f2 pl f3 vs B1 B2 B3 _]; destruct (field_size _ _ _ _ B1) as (X1 & Y1 & Z1), (field_size _ _ _ _ B2) as (X2 & Y2 & Z2); rewrite own_tag in Y1.
    - rewrite weight_app, id_lines_app, X1, X2, Y1. cbn [mweight]. rewrite opt_some_text. split; [reflexivity|]. split; [cbn; lia|apply Forall_app; auto].
    - destruct (values_size _ _ _ _ _ B3) as [X3 Z3]. rewrite !weight_app, !id_lines_app, X1, X2, X3, Y1. cbn [mweight pl_singular pl_plural pl_values]. split; [lia|].
      split; [cbn; lia|]. apply Forall_app; split; [exact Z1|]. apply Forall_app; auto. }
  rewrite !weight_app, !id_lines_app, W1, W2, W3, W4. split; [lia|]. split; [lia|]. repeat (apply Forall_app; split; [assumption|]). assumption.
Qed.
Lemma blocks_size forms bls us : Forall2 (unit_entry forms) bls us -> Forall odd_comment (concat bls) -> Forall (fun u => u_comments u = []) us ->
  weight (concat bls) = muweights us /\ (length us <= id_lines (concat bls))%nat /\ Forall (fun l => ~ is_comment l) (concat bls).
Proof.
  induction 1 as [|b u bls us [E _] F IH]; intros O U; [split; [reflexivity|split; [cbn; lia|constructor]]|]. cbn [concat] in *. apply Forall_app in O as [O1 O2]. inversion U as [|? ? U1 U2]; subst.
  destruct (IH O2 U2) as (A & B & C). destruct (entry_size _ _ _ E O1 U1) as (A' & B' & C'). rewrite weight_app, id_lines_app, A, A'. cbn [length].
  split; [reflexivity|]. split; [lia|apply Forall_app; auto].
Qed.
Lemma reported_own m kw : snd m = false -> reported_tag (flags_of m) kw = kw.
Proof. destruct m as [[|] [|]]; try discriminate; reflexivity. Qed.
Lemma reported_prev m kw : snd m = true -> reported_tag (flags_of m) kw = 124 :: kw.
Proof. destruct m as [[|] [|]]; try discriminate; reflexivity. Qed.
Lemma aligned_odd pl tss : aligned pl tss -> Forall odd_comment pl.
Proof.
  induction 1 as [|pl tss A IH|l t pl tss M C A IH]; [constructor|exact IH|]. constructor; [|exact IH]. intros n k s ->. inversion M; subst. assumption.
Qed.
Lemma aligned_ids pl tss : aligned pl tss -> (id_lines pl <= mids (flat_map line_marks tss))%nat.
Proof.
  induction 1 as [|pl tss A IH|l t pl tss M C A IH]; [apply le_n|exact IH|]. cbn [flat_map]. rewrite mids_app. unfold id_lines. cbn [fold_right]. fold (id_lines pl).
  enough (match l with PMessage _ _ kw _ => is_id kw | _ => 0 end <= mids (line_marks t))%nat by lia.
  destruct M as [m n kw x q K|m n x b q|m n k c q I Ct]; try apply Nat.le_0_l. unfold line_marks, with_mark. cbn [fst snd map]. unfold mids. cbn [fold_right fst snd mk_id].
  destruct (snd m) eqn:E; [rewrite reported_prev by exact E; apply Nat.le_0_l|]. rewrite reported_own by exact E. apply Nat.le_add_r.
Qed.
Lemma aligned_head l pl tss : aligned (l :: pl) tss -> exists a t b, tss = a ++ t :: b /\ flat_map line_marks a = [] /\ mlook l t.
Proof.
  intros A. remember (l :: pl) as p eqn:E. revert E. induction A as [|p tss A IH|l' t p tss M C A IH]; intros E; [discriminate| |].
  - destruct (IH E) as (a & t & b & -> & X & Y). exists ((no_mark, []) :: a), t, b. auto.
  - injection E as -> ->. exists [], t, tss. auto.
Qed.
Lemma aligned_comments pl tss : aligned pl tss -> Forall is_comment pl -> fed (flat_map snd tss) -> Forall (fun t => snd t = []) tss.
Proof.
  induction 1 as [|pl tss A IH|l t pl tss M C A IH]; intros Cm Fd; [constructor|constructor; [reflexivity|exact (IH Cm Fd)]|].
  inversion Cm as [|? ? C1 C2]; subst. cbn [flat_map] in Fd. specialize (IH C2 (fed_skip _ _ Fd)). constructor; [|exact IH].
  destruct M as [m n kw x q K|m n x b q|m n k c q I Ct]; [destruct C1 as (? & ? & ? & ?); discriminate|destruct C1 as (? & ? & ? & ?); discriminate|]. cbn [snd] in *.
  destruct Ct as [->|(x & kw & ->)]; [reflexivity|]. exfalso. rewrite <- app_assoc in Fd. cbn [app] in Fd. destruct (Fd x kw _ eq_refl) as (b & y & E).
  assert (flat_map snd tss = []) as Z; [|congruence]. clear -IH. induction IH as [|t tss H _ IH]; [reflexivity|]. cbn [flat_map]. rewrite H, IH. reflexivity.
Qed.
(** ** Unfinished entries *)
Definition headed (q : list po_line) : Prop := q = [] \/ exists n p t s r, q = PMessage n p t s :: r /\ In t [lit "|msgctxt"; lit "|msgid"; lit "msgctxt"; lit "msgid"].
Lemma headed_app a b : headed a -> headed b -> headed (a ++ b).
Proof. intros [->|(n & p & t & s & r & -> & I)] H; [exact H|]. right. exists n, p, t, s, (r ++ b). auto. Qed.
Lemma headed_field obs (pr : bool) kw f v : field (if pr then prev obs else own obs) kw f v -> In kw [lit "msgctxt"; lit "msgid"] -> headed f.
Proof. intros [n s ls t _] I. right. eexists n, _, _, s, ls. split; [reflexivity|]. destruct pr, obs; cbn in *; intuition (subst; auto). Qed.
Lemma opening_headed forms obs p : opening forms obs p -> exists cs q, p = cs ++ q /\ Forall is_comment cs /\ headed q.
Proof.
  intros [cs F N L C l1 pc l2 pm l3 c B F1 F2 F3]. exists cs, (l1 ++ l2 ++ l3). split; [reflexivity|]. split; [apply block_comments_comment in B; exact B|].
  apply headed_app; [destruct F1 as [|f s F1]; [left; reflexivity|apply (headed_field obs true _ _ _ F1); cbn; auto]|]. apply headed_app.
  - destruct F2 as [|l id F2|l id l' pl F2 F2']; [left; reflexivity|apply (headed_field obs true _ _ _ F2); cbn; auto|].
    destruct (headed_field obs true _ _ _ F2) as [->|(n & g & t & s & r & -> & I)]; [cbn; auto|inversion F2|]. right. eexists _, _, _, _, (r ++ l'). split; [reflexivity|exact I].
  - destruct F3 as [|f s F3]; [left; reflexivity|apply (headed_field obs false _ _ _ F3); cbn; auto].
Qed.
Lemma incomplete_headed forms p : incomplete forms p -> exists cs q, p = cs ++ q /\ Forall is_comment cs /\ headed q.
Proof.
  intros (w & A). destruct A as [obs p O|obs p l id O F|obs p l id l' pl O F F']; destruct (opening_headed _ _ _ O) as (cs & q & -> & C & H).
  - eauto.
  - exists cs, (q ++ l). split; [symmetry; apply app_assoc|]. split; [exact C|]. apply headed_app; [exact H|apply (headed_field obs false _ _ _ F); cbn; auto].
  - exists cs, (q ++ l ++ l'). split; [symmetry; apply app_assoc|]. split; [exact C|]. apply headed_app; [exact H|].
    destruct (headed_field obs false _ _ _ F) as [->|(n & g & t & s & r & -> & I)]; [cbn; auto|inversion F|]. right. eexists _, _, _, _, (r ++ l'). split; [reflexivity|exact I].
Qed.

(** * The theorem *)
Lemma mfirst_starter forms es us pl tss : Forall2 (marked_entry forms) es us -> aligned pl tss -> flat_map line_marks tss = concat es -> match pl with [] => True | l :: _ => starter l end.
Proof.
  intros G A E. destruct pl as [|l pl]; [exact Logic.I|]. apply aligned_head in A as (a & t & b & -> & Ea & M). rewrite flat_map_app, Ea in E. cbn [app flat_map] in E.
  assert (H : forall m g r, concat es = (m, g) :: r -> exists kw, g = GKeyword kw /\ In kw [lit "msgctxt"; lit "msgid"]).
  { intros m0 g r Er. destruct G as [|f u es us G _]; [discriminate|]. cbn [concat] in Er. destruct G as [obs p pc pm x c y m st P A B St].
    assert (Hf : forall kw f v m1 z, gettext_field kw f v -> In kw [lit "msgctxt"; lit "msgid"] -> with_mark m1 f ++ z = (m0, g) :: r -> exists kw, g = GKeyword kw /\ In kw [lit "msgctxt"; lit "msgid"]).
    { intros kw f v m1 z [b0 bs t0 ts _ _] I Ef. cbn [with_mark map app] in Ef. injection Ef as _ <- _. eauto. }
    assert (Hc : forall f v m1 z, gettext_context f v -> with_mark m1 f ++ z = (m0, g) :: r -> (z = (m0, g) :: r -> exists kw, g = GKeyword kw /\ In kw [lit "msgctxt"; lit "msgid"]) -> exists kw, g = GKeyword kw /\ In kw [lit "msgctxt"; lit "msgid"]).
    { intros f v m1 z [|f' s F] Ef Z; [exact (Z Ef)|]. eapply Hf; [exact F|cbn; auto|exact Ef]. }
    destruct P as [|x' c' y' id A' B'|x' c' y' id d pl' A' B' D].
    - cbn [with_mark map app] in Er. change (with_mark (obs, false) (x ++ y) ++ concat es = (m0, g) :: r) in Er. rewrite with_mark_app, <- app_assoc in Er.
      apply (Hc _ _ _ _ A Er). intros Ey. destruct B as [f1 id f2 text F1 _|f1 id f2 pl' f3 vs F1 _ _ _ _]; rewrite with_mark_app, <- app_assoc in Ey; (eapply Hf; [exact F1|cbn; auto|exact Ey]).
    - rewrite (with_mark_app (obs, true)), <- !app_assoc in Er. apply (Hc _ _ _ _ A' Er). intros Ey. eapply Hf; [exact B'|cbn; auto|exact Ey].
    - rewrite !(with_mark_app (obs, true)), <- !app_assoc in Er. apply (Hc _ _ _ _ A' Er). intros Ey. eapply Hf; [exact B'|cbn; auto|exact Ey]. }
  destruct M as [m n kw x q K|m n x b0 q|m n k c q I Ct].
  - cbn [line_marks with_mark fst snd map app] in E. destruct (H _ _ _ (eq_sym E)) as (kw' & [= <-] & I). right. eexists n, _, _, x. split; [reflexivity|].
    destruct (snd m) eqn:Em; [rewrite reported_prev by exact Em|rewrite reported_own by exact Em]; cbn in *; intuition (subst; auto).
  - cbn [line_marks with_mark fst snd map app] in E. destruct (H _ _ _ (eq_sym E)) as (kw' & [=] & _).
  - left. exists n, k, c. reflexivity.
Qed.
Lemma markers_lone ls tss : Forall2 marked_line ls tss -> Forall (fun t => snd t = []) tss -> plain ls -> forall n, exists pl, rd n ls pl /\ Forall is_comment pl.
Proof.
  induction 1 as [|s [m ts] ls tss H F IH]; intros U P n; [exists []; split; [apply rd_nil|constructor]|].
  apply plain_cons in P as [O P]. inversion U as [|? ? U1 U2]; subst. cbn [snd] in U1. subst ts. destruct (IH U2 P (n + 1)) as (pl & R & C).
  assert (exists l, line_of s n l) as (l & Lo).
  { destruct H as (w & r & E & B & T). cbn [fst snd] in *. inversion T as [w' B'| |]; subst w'. destruct (mark_cases m) as [->|(k & q & Em & I)].
    - exists PBlank. constructor. rewrite E. cbn [mark_text no_mark app]. intros c Ic. apply in_app_or in Ic as [Ic|Ic]; [exact (gettext_blank_blanks _ B c Ic)|exact (gettext_blank_blanks _ B' c Ic)].
    - destruct (parse_line s n) as [l|] eqn:Ep; [exists l; apply line_of_iff; assumption|]. exfalso.
      apply (parse_line_none s n O) in Ep as (_ & _ & Nc). destruct (white_prefix (q ++ r)) as (w2 & x & Ex & B2 & Nx). apply (Nc k x). exists w.
      split; [apply gettext_blank_blanks; exact B|]. right. exists w2. split; [exact B2|]. split; [exact Nx|]. rewrite E, Em. f_equal. cbn [app]. do 2 f_equal. exact Ex. }
  destruct (marked_counted s m [] n l 0 O H) as [(-> & _)|(N & M & _)]; [left; intros [|? x] kw y X; discriminate|constructor|exact Lo| |].
  - exists pl. split; [apply ps_blank; assumption|exact C].
  - exists (l :: pl). split; [apply ps_line; assumption|]. constructor; [|exact C]. inversion M; subst. eexists _, _, _. reflexivity.
Qed.
Lemma lone_tokens tss : Forall (fun t => snd t = []) tss -> flat_map line_marks tss = [] /\ flat_map snd tss = [].
Proof. induction 1 as [|[m ts] tss H F [IH1 IH2]]; [auto|]. cbn [snd] in H. subst ts. cbn [flat_map snd]. unfold line_marks at 1. cbn [fst snd with_mark map app]. auto. Qed.
Theorem marks_exact lib pf hls v ps forms ls tss es us bs evs : heading_text pf hls v ps forms ->
  Forall2 marked_line ls tss -> Forall2 (marked_entry forms) es us -> flat_map line_marks tss = concat es -> Forall has_source us ->
  contents bs None (hls ++ ls) None -> delivers evs bs None ->
  ((exists c, read_catalogue lib pf evs = Ok c /\ c_items c = map UOk us)
   <-> exists a b, tss = a ++ b /\ Forall usual_line a /\ Forall (fun l => snd l = []) b).
Proof.
  intros (h & Rh & E & H & HF) T G Q Hs Ct D. pose proof (contents_one_line _ _ _ _ Ct) as P. split.
  - intros (c & R & I). destruct (parsed_total _ None P 1) as (pl & tl & Pa).
    assert (file evs (hls ++ ls) None pl tl) as Fi by (exists bs, None; auto).
    destruct (catalogue_entries lib pf evs _ _ _ _ c Fi R) as (_ & -> & _).
    { intros x. rewrite I. intros Ix. apply in_map_iff in Ix as (? & ? & _). discriminate. }
    destruct (parsed_rest _ _ _ Rh _ _ _ _ Pa) as (pl2 & -> & P2).
    destruct (marked_measures _ _ _ G) as (M & Ids & Cm). pose proof (msound_entries _ _ _ G) as [S1 S2]. rewrite <- Q in M, S1. rewrite tokens_flat in M, S1.
    pose proof (lines_aligned _ _ _ _ _ P2 eq_refl eq_refl tss _ T S1 M) as Al.
    assert (first_entry h pl2 None v) as Fe.
    { apply fe_entry; [exact E|]. assert (Y := mfirst_starter _ _ _ _ _ G Al Q). destruct pl2 as [|l r]; [reflexivity|]. exact (starter_ends _ _ _ _ _ _ E Y). }
    destruct (blocks_total forms pl2 None (parsed_written _ _ _ _ _ P2)) as (us' & o & B).
    destruct (read_header lib pf evs _ _ _ _ h v ps pl2 forms us' o Fi eq_refl Fe H HF B) as (c' & R' & _ & I').
    rewrite R in R'. injection R' as <-. rewrite I in I'. destruct (items_same _ _ _ I') as [-> ->].
    apply blocks_entries in B as [(bls & tail & -> & F & Inc) _].
    pose proof (aligned_odd _ _ Al) as Od. apply Forall_app in Od as [Od _]. destruct (blocks_size _ _ _ F Od Cm) as (Wt & Idl & Nc).
    destruct (aligned_app _ _ Al _ _ eq_refl) as (t1 & t2 & -> & A1 & A2). rewrite flat_map_app in Q, M, S1.
    pose proof (aligned_ids _ _ A1) as X. rewrite <- Q, mids_app in Ids. assert (mids (flat_map line_marks t2) = 0%nat) as Z by lia. clear Ids X Idl.
    destruct (incomplete_headed _ _ Inc) as (cs & q & -> & Cc & Hd). destruct Hd as [->|(n & p & t & x & r & -> & It)].
    + rewrite app_nil_r in A2. pose proof (aligned_comments _ _ A2 Cc (fed_skip _ _ S1)) as L. exists t1, t2. split; [reflexivity|]. split; [|exact L].
      rewrite (proj2 (lone_tokens _ L)), app_nil_r in M. destruct (aligned_weight _ _ A1 Nc _ M) as [_ U]. apply U. congruence.
    + exfalso. destruct (aligned_app _ _ A2 _ _ eq_refl) as (ta & tb & -> & _ & A3). apply aligned_head in A3 as (a & y & b & -> & Ea & Mk).
      rewrite !flat_map_app, Ea in Z, Q. cbn [app flat_map] in Z, Q.
      inversion Mk as [m n' kw x' q K| |]; subst. unfold line_marks at 2 in Z. unfold line_marks at 3 in Q. cbn [with_mark fst snd map app] in Z, Q. rewrite mids_app in Z.
      unfold mids in Z at 2. cbn [fold_right fst snd mk_id] in Z. fold (mids (map (pair m) q ++ flat_map line_marks b)) in Z.
      assert (Y : snd m = true \/ kw = lit "msgctxt" -> False).
      { intros Y. rewrite app_assoc in Q. specialize (S2 _ _ _ _ (eq_sym Q) Y). lia. }
      destruct (snd m) eqn:Em; [apply Y; left; reflexivity|]. rewrite reported_own in It by exact Em.
      destruct It as [<-|[<-|[<-|[<-|[]]]]].
      * inversion K as [| | | |i k (ds & _ & Ek)]; discriminate.
      * inversion K as [| | | |i k (ds & _ & Ek)]; discriminate.
      * apply Y. right. reflexivity.
      * cbn in Z. lia.
  - intros (a & b & -> & U & L). apply plain_app in P as [Ph Pu]. apply Forall2_app_inv_r in T as (la & lb & Ta & Tb & ->). apply plain_app in Pu as [Pa Pb].
    destruct (all_shown la a Ta U Pa (1 + N.of_nat (length hls))) as (pl & qs & R' & S & Eq).
    destruct (markers_lone lb b Tb L Pb (1 + N.of_nat (length hls) + N.of_nat (length la))) as (tail & Rt & Ctl).
    rewrite flat_map_app, (proj1 (lone_tokens _ L)), app_nil_r in Q. rewrite Q in Eq.
    destruct (mentries forms es us G Hs pl qs S Eq) as (bls & -> & F').
    assert (file evs (hls ++ la ++ lb) None (h ++ concat bls ++ tail) None) as Fi by (exists bs, None; split; [exact D|]; split; [exact Ct|]; apply rd_app; [exact Rh|apply rd_app; assumption]).
    assert (entries forms (concat bls ++ tail) us) as En.
    { exists bls, tail. split; [reflexivity|]. split; [exact F'|]. exists (lit "msgid"). apply (aw_id forms false). destruct (block_comments_total _ Ctl) as (F & N & L' & C & Bc).
      pose proof (og_intro forms false tail F N L' C [] None [] (MSimple [] None) [] None Bc (of_none _ _) (pv_none _ _) (of_none _ _)) as Og. cbn [app] in Og. rewrite app_nil_r in Og. exact Og. }
    pose proof (entries_ends None forms h v _ us E En) as Ea.
    destruct (read_header lib pf evs _ _ _ _ h v ps (concat bls ++ tail) forms us None Fi eq_refl (fe_entry _ _ _ _ E Ea) H HF) as (c & Rc & Hsh & Ei).
    { apply blocks_entries. split; [exact En|reflexivity]. }
    exists c. rewrite app_nil_r in Ei. auto.
Qed.
