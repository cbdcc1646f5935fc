(** Exactly which files of entries in the syntax of GNU gettext are read with the units they
    stand for: those with usual lines only.  By counting characters. *)
From Coq Require Import String Arith NArith ZArith Bool List Lia.
From Verif Require Import ModelBase ModelUtf8 ModelLine ModelFormula ModelData ModelSource ModelReader
  SpecLine SpecFormula SpecSource SpecReader SpecBlock SpecHeader SpecFile SpecGettext SpecLayout BaseFacts LineFacts LineThms StreamThms SourceFacts StreamFacts
  BlockFacts CommentFacts UnitFacts BlocksFacts FileFacts BlockThms EntryThms WriterFacts WritableFacts IndepFacts GettextFacts FileIntro BlockWitness LayoutFacts.
Import ListNotations.
Local Open Scope N_scope.
Local Notation len := (@length char).

Local Ltac ll := unfold str, char in *; cbn [length] in *; lia.

(** The number of characters of the strings among some tokens. *)
Inductive measures : list gtok -> nat -> Prop :=
| ms_nil : measures [] 0
| ms_keyword k ts n : measures ts n -> measures (GKeyword k :: ts) n
| ms_string b t ts n : gettext_means b t -> measures ts n -> measures (GString b :: ts) (len t + n).
Lemma measures_app a x b y : measures a x -> measures b y -> measures (a ++ b) (x + y).
Proof.
  induction 1 as [|k ts n H IH|c t ts n G H IH]; intros Y; cbn [app].
  - exact Y.
  - constructor. apply IH, Y.
  - rewrite <- Nat.add_assoc. constructor; [exact G|apply IH, Y].
Qed.
Lemma measures_split a : forall b z, measures (a ++ b) z -> exists x y, measures a x /\ measures b y /\ z = (x + y)%nat.
Proof.
  induction a as [|g a IH]; intros b z H; cbn [app] in H.
  - exists 0%nat, z. split; [constructor|auto].
  - inversion H as [|k ts n H'|c t ts n G H']; subst; destruct (IH b _ H') as (x & y & A & B & ->).
    + exists x, y. split; [constructor; exact A|auto].
    + exists (len t + x)%nat, y. split; [constructor; assumption|]. split; [exact B|lia].
Qed.
Lemma means_length b t : gettext_means b t -> (len t <= len (unescape b))%nat /\ (len t = len (unescape b) -> common_escapes b).
Proof.
  intros G. destruct (common_split b t G) as [[C U]|(NC & t' & U & Lt)]; apply unescape_iff in U; rewrite U.
  - split; [lia|auto].
  - split; [lia|]. intros E. lia.
Qed.

(** * Lines *)
Definition lweight (l : po_line) : nat := match l with PMessage _ _ _ s | PCont _ _ s => len s | _ => 0%nat end.
Inductive looks : po_line -> list gtok -> Prop :=
| lk_keyword n kw x q : looks (PMessage n [] kw x) (GKeyword kw :: q)
| lk_string n x b q : looks (PCont n [] x) (GString b :: q).
(** A keyword is followed by a string. *)
Definition fed (ts : list gtok) : Prop := forall x kw y, ts = x ++ GKeyword kw :: y -> exists b y', y = GString b :: y'.
Lemma fed_cons g ts : fed (g :: ts) -> fed ts.
Proof. intros H x kw y ->. apply (H (g :: x) kw y). reflexivity. Qed.
Lemma fed_skip a : forall b, fed (a ++ b) -> fed b.
Proof. induction a as [|g a IH]; intros b H; [exact H|]. apply IH, (fed_cons g), H. Qed.

Lemma no_backslash_keyword kw : gettext_keyword kw -> forall c, In c kw -> c <> 92.
Proof.
  intros [ | | | |i k (ds & D & ->)] c I; try (cbn in I; intuition (subst; discriminate)).
  apply in_app_or in I as [I|I]; [cbn in I; intuition (subst; discriminate)|]. apply in_app_or in I as [I|I]; [|cbn in I; intuition (subst; discriminate)].
  clear - D I. induction D as [d L|m d s M L D IH].
  - destruct I as [<-|[]]. lia.
  - apply in_app_or in I as [I|[<-|[]]]; [exact (IH I)|lia].
Qed.
Lemma no_backslash_blank w : gettext_blank w -> forall c, In c w -> c <> 92.
Proof. intros B c I. specialize (B c I). cbn in B. intuition (subst; discriminate). Qed.
Lemma unescape_copy a s : (forall c, In c a -> c <> 92) -> unescape (a ++ s) = a ++ unescape s.
Proof. intros H. apply unescape_iff, copy_list; [exact H|apply unescape_unescapes]. Qed.
Lemma unescape_closed b s : closed b -> unescape (b ++ s) = unescape b ++ unescape s.
Proof. intros C. apply unescape_iff, closed_app; [exact C|apply unescape_unescapes|apply unescape_unescapes]. Qed.
Lemma tokens_weight s ts : line_tokens s ts -> forall ts' b m, ts = ts' ++ [GString b] -> measures ts m ->
  exists a w, s = a ++ [34] ++ w /\ blanks w /\ (m < len (unescape a))%nat.
Proof.
  induction 1 as [w B|w kw r ts B K F H IH|w b r ts B C H IH]; intros ts' b' m E M.
  - destruct ts'; discriminate.
  - destruct ts' as [|t ts']; [discriminate|]. injection E as _ E. inversion M as [|k q n M'|]; subst. destruct (IH _ _ _ eq_refl M') as (a & w' & -> & B' & L).
    exists (w ++ kw ++ a), w'. split; [rewrite <- !app_assoc; reflexivity|]. split; [exact B'|].
    rewrite unescape_copy by (apply no_backslash_blank; exact B). rewrite unescape_copy by (apply no_backslash_keyword; exact K). rewrite !app_length. ll.
  - inversion M as [| |c t q n G M']; subst. pose proof (proj1 (means_length _ _ G)) as L0. destruct ts' as [|t1 ts']; cbn [app] in E.
    + injection E as -> ->. inversion H as [w' B'| |]; subst. inversion M'; subst.
      exists (w ++ [34] ++ b'), r. split; [rewrite <- !app_assoc; reflexivity|]. split; [apply gettext_blank_blanks; assumption|].
      rewrite unescape_copy by (apply no_backslash_blank; exact B). rewrite unescape_copy by (intros c [<-|[]]; discriminate). rewrite !app_length. cbn [length]. ll.
    + injection E as _ E. destruct (IH ts' b' n E M') as (a & w' & -> & B' & L). exists (w ++ [34] ++ b ++ [34] ++ a), w'.
      split; [rewrite <- !app_assoc; reflexivity|]. split; [exact B'|].
      rewrite unescape_copy by (apply no_backslash_blank; exact B). rewrite unescape_copy by (intros c [<-|[]]; discriminate).
      rewrite unescape_closed by exact C. rewrite unescape_copy by (intros c [<-|[]]; discriminate). rewrite !app_length. cbn [length]. ll.
Qed.

(** The text of a line that begins with a string, or with a keyword and a string. *)
Lemma line_text w1 kw w2 b r ts n m : one_line (w1 ++ opt_str kw ++ w2 ++ [34] ++ b ++ [34] ++ r) -> gettext_blank w1 -> gettext_blank w2 ->
  (forall k, kw = Some k -> gettext_keyword k) -> closed b -> line_tokens r ts -> (forall ts' k, ts <> ts' ++ [GKeyword k]) -> measures ts m ->
  exists x, parse_line (w1 ++ opt_str kw ++ w2 ++ [34] ++ b ++ [34] ++ r) n = Some (match kw with Some k => PMessage n [] k x | None => PCont n [] x end)
  /\ ((ts = [] /\ x = unescape b) \/ (len (unescape b) + m < len x)%nat).
Proof.
  intros O B1 B2 K C T NL M.
  assert (exists q w4, b ++ [34] ++ r = q ++ [34] ++ w4 /\ blanks w4 /\ ((ts = [] /\ q = b) \/ (len (unescape b) + m < len (unescape q))%nat)) as (q & w4 & E & B4 & L).
  { destruct ts as [|g ts] using rev_ind.
    - inversion T; subst. exists b, r. split; [reflexivity|]. split; [apply gettext_blank_blanks; assumption|]. auto.
    - clear IHts. destruct g as [k|b']; [destruct (NL ts k eq_refl)|]. destruct (tokens_weight _ _ T ts b' m eq_refl M) as (a & w4 & -> & B4 & L).
      exists (b ++ [34] ++ a), w4. split; [rewrite <- !app_assoc; reflexivity|]. split; [exact B4|]. right.
      rewrite unescape_closed by exact C. rewrite unescape_copy by (intros c [<-|[]]; discriminate). rewrite !app_length. cbn [length]. ll. }
  exists (unescape q). split.
  - assert (quoted_line (w1 ++ opt_str kw ++ w2 ++ [34] ++ b ++ [34] ++ r) [] kw q) as Q.
    { exists [], w1, [], w2, w4. split; [rewrite E; reflexivity|]. split; [constructor|]. split; [intros k Ek; apply gettext_keyword_keyword, K, Ek|].
      repeat split; try (apply gettext_blank_blanks; assumption); try exact blanks_nil; try exact B4.
      intros I. apply O. rewrite E, !in_app_iff. auto 10. }
    destruct kw as [k|].
    + apply parse_line_message; [exact O|]. split; [reflexivity|]. exists k, q. split; [exact Q|]. split; [reflexivity|apply unescape_unescapes].
    + apply parse_line_cont; [exact O|]. split; [reflexivity|]. exists q. split; [exact Q|apply unescape_unescapes].
  - destruct L as [[-> ->]|L]; auto.
Qed.
Lemma line_counted s ts n l m : one_line s -> line_tokens s ts -> fed ts \/ (exists x kw, ts = x ++ [GKeyword kw]) -> measures ts m -> line_of s n l ->
  (m <= lweight l)%nat /\ (m = lweight l -> usual_tokens ts) /\ ((ts = [] /\ l = PBlank) \/ looks l ts).
Proof.
  intros O T Fd M Lo.
  assert (NL : forall x kw, ts <> x ++ [GKeyword kw]) by (intros x kw ->; exact (keyword_last_line _ _ _ _ T _ Lo)).
  destruct Fd as [Fd|(x & kw & E)]; [|destruct (NL x kw E)]. apply line_of_iff in Lo; [|exact O].
  destruct T as [w B|w kw s ts B K F T|w b s ts B C T].
  - inversion M; subst. rewrite (proj2 (parse_line_blank w n O) (gettext_blank_blanks _ B)) in Lo. injection Lo as <-.
    split; [cbn; ll|]. split; [constructor|auto].
  - destruct (Fd [] kw ts eq_refl) as (b & ts' & ->). remember (GString b :: ts') as q eqn:E. destruct T as [| |w2 b' s ts B2 C T]; try discriminate. injection E as -> ->.
    inversion M as [|k' q' n' M1|]; subst. inversion M1 as [| |b' t q' n' G M2]; subst.
    destruct (line_text w (Some kw) w2 b s ts' n n') as (x & P & L); try assumption.
    { intros k [= <-]. exact K. } { intros x k ->. apply (NL (GKeyword kw :: GString b :: x) k). reflexivity. }
    assert (P' := eq_trans (eq_sym Lo) P). injection P' as ->. cbn [lweight]. destruct (means_length _ _ G) as [G1 G2].
    destruct L as [[-> ->]|L].
    + inversion M2; subst. split; [ll|]. split; [|right; constructor]. intros E. constructor. apply G2. ll.
    + split; [ll|]. split; [ll|right; constructor].
  - inversion M as [| |b' t q' n' G M2]; subst.
    destruct (line_text [] None w b s ts n n') as (x & P & L); try assumption.
    { exact blank_nil. } { discriminate. } { intros x k ->. apply (NL (GString b :: x) k). reflexivity. }
    assert (P' := eq_trans (eq_sym Lo) P). injection P' as ->. cbn [lweight]. destruct (means_length _ _ G) as [G1 G2].
    destruct L as [[-> ->]|L].
    + inversion M2; subst. split; [ll|]. split; [|right; constructor]. intros E. constructor. apply G2. ll.
    + split; [ll|]. split; [ll|right; constructor].
Qed.
Definition weight (pl : list po_line) : nat := fold_right (fun l a => (lweight l + a)%nat) 0%nat pl.
Lemma weight_app a b : weight (a ++ b) = (weight a + weight b)%nat.
Proof. unfold weight. induction a as [|l a IH]; cbn [app fold_right]; [reflexivity|rewrite IH; ll]. Qed.
Lemma fed_prefix a b : fed (a ++ b) -> fed a \/ exists x kw, a = x ++ [GKeyword kw].
Proof.
  intros H. destruct a as [|g a] using rev_ind; [left; intros [|? x] kw y E; discriminate|]. clear IHa. destruct g as [kw|s]; [eauto|]. left.
  intros x kw y E. destruct y as [|g y] using rev_ind.
  - apply app_inj_tail in E as [_ E]. discriminate.
  - clear IHy. rewrite app_comm_cons, app_assoc in E. apply app_inj_tail in E as [-> <-].
    destruct (H x kw (y ++ GString s :: b)) as (b' & y' & E).
    { rewrite <- !app_assoc. cbn [app]. reflexivity. }
    destruct y as [|g y]; cbn [app] in E; injection E as E1 E2; [exists s, []; reflexivity|]. exists b', (y ++ [GString s]). cbn [app]. rewrite E1. reflexivity.
Qed.
Lemma lines_counted n ls e pl tl : parsed n ls e pl tl -> e = None -> tl = None -> forall tss z, Forall2 line_tokens ls tss -> fed (concat tss) -> measures (concat tss) z ->
  exists qs, Forall2 looks pl qs /\ concat qs = concat tss /\ (z <= weight pl)%nat /\ (z = weight pl -> Forall usual_tokens tss).
Proof.
  induction 1 as [n|n e|n s ls e O B|n s ls e pl tl O L H IH|n s l ls e pl tl O L Nb H IH]; intros Ee Et tss z F Fd M; try discriminate.
  - inversion F; subst. inversion M; subst. exists []. split; [constructor|]. split; [reflexivity|]. split; [apply le_n|intros _; constructor].
  - inversion F as [|? ts ? tss' T F']; subst. cbn [concat] in Fd, M. destruct (measures_split _ _ _ M) as (x & y & M1 & M2 & ->).
    destruct (line_counted _ _ _ _ _ O T (fed_prefix _ _ Fd) M1 L) as (X1 & X2 & [[-> _]|X3]); [|inversion X3].
    destruct (IH eq_refl eq_refl tss' y F' (fed_skip _ _ Fd) M2) as (qs & A & B & C & D). exists qs. cbn [concat app]. cbn [lweight] in X1.
    split; [exact A|]. split; [exact B|]. split; [ll|]. intros E. constructor; [constructor|apply D; ll].
  - inversion F as [|? ts ? tss' T F']; subst. cbn [concat] in Fd, M. destruct (measures_split _ _ _ M) as (x & y & M1 & M2 & ->).
    destruct (line_counted _ _ _ _ _ O T (fed_prefix _ _ Fd) M1 L) as (X1 & X2 & [[_ X3]|X3]); [contradiction|].
    destruct (IH eq_refl eq_refl tss' y F' (fed_skip _ _ Fd) M2) as (qs & A & B & C & D). exists (ts :: qs). cbn [concat]. unfold weight. cbn [fold_right]. fold (weight pl).
    split; [constructor; assumption|]. split; [congruence|]. split; [ll|]. intros E. constructor; [apply X2; ll|apply D; ll].
Qed.

(** * Entries *)
Definition mweight (m : message) : nat :=
  match m with
  | MSimple id t => (len id + len (opt_str t))%nat
  | MPlural p => (len (pl_singular p) + len (pl_plural p) + fold_right (fun v a => (len v + a)%nat) 0%nat (pl_values p))%nat
  end.
Definition uweight (u : unit_) : nat := (len (opt_str (u_context u)) + mweight (u_message u))%nat.
Definition uweights (us : list unit_) : nat := fold_right (fun u a => (uweight u + a)%nat) 0%nat us.
Definition is_id (kw : str) : nat := if str_eqb kw (lit "msgid") then 1%nat else 0%nat.
Definition ids (ts : list gtok) : nat := fold_right (fun g a => (match g with GKeyword kw => is_id kw | _ => 0%nat end + a)%nat) 0%nat ts.
Definition id_lines (pl : list po_line) : nat := fold_right (fun l a => (match l with PMessage _ _ kw _ => is_id kw | _ => 0%nat end + a)%nat) 0%nat pl.
Lemma ids_app a b : ids (a ++ b) = (ids a + ids b)%nat.
Proof. unfold ids. induction a as [|g a IH]; cbn [app fold_right]; [reflexivity|rewrite IH; lia]. Qed.
Lemma id_lines_app a b : id_lines (a ++ b) = (id_lines a + id_lines b)%nat.
Proof. unfold id_lines. induction a as [|g a IH]; cbn [app fold_right]; [reflexivity|rewrite IH; lia]. Qed.

(** ** In the syntax of gettext *)
Lemma strings_measure bs ts : Forall2 gettext_means bs ts -> measures (map GString bs) (len (concat ts)) /\ ids (map GString bs) = 0%nat.
Proof.
  induction 1 as [|b t bs ts G F [IH1 IH2]]; [split; [constructor|reflexivity]|]. cbn [map concat]. rewrite app_length. split; [constructor; assumption|exact IH2].
Qed.
Lemma field_measure kw f v : gettext_field kw f v -> measures f (len v) /\ ids f = is_id kw.
Proof.
  intros [b bs t ts G F]. destruct (strings_measure _ _ F) as [M I]. rewrite app_length. split; [repeat constructor; assumption|].
  unfold ids in *. cbn [fold_right]. rewrite I. lia.
Qed.
Lemma msgstr_kw_other i kw : msgstr_kw i kw -> is_id kw = 0%nat /\ kw <> lit "msgctxt".
Proof. intros (ds & _ & ->). split; [reflexivity|discriminate]. Qed.
Lemma forms_measure i f vs : gettext_forms i f vs -> measures f (fold_right (fun v a => (len v + a)%nat) 0%nat vs) /\ ids f = 0%nat.
Proof.
  induction 1 as [i|i kw a v b vs K F G [IH1 IH2]]; [split; [constructor|reflexivity]|]. destruct (field_measure _ _ _ F) as [M I].
  cbn [fold_right]. split; [apply measures_app; assumption|]. rewrite ids_app, I, IH2. rewrite (proj1 (msgstr_kw_other _ _ K)). reflexivity.
Qed.
Lemma opt_some_text s : opt_str (some_text s) = s.
Proof. destruct s; reflexivity. Qed.
Lemma entry_measure forms f u : gettext_entry forms f u -> measures f (uweight u) /\ ids f = 1%nat.
Proof.
  intros [a c b m st Cx Bo St]. unfold uweight. cbn [u_context u_message]. rewrite ids_app.
  assert (measures a (len (opt_str c)) /\ ids a = 0%nat) as [A1 A2].
  { destruct Cx as [|a s F]; [split; [constructor|reflexivity]|]. exact (field_measure _ _ _ F). }
  assert (measures b (mweight m) /\ ids b = 1%nat) as [B1 B2].
  { destruct Bo as [f1 id f2 text F1 F2|f1 id f2 pl f3 vs F1 F2 F3 _ _]; destruct (field_measure _ _ _ F1) as [M1 I1], (field_measure _ _ _ F2) as [M2 I2]; cbn [mweight].
    - rewrite opt_some_text, ids_app, I1, I2. split; [apply measures_app; assumption|reflexivity].
    - destruct (forms_measure _ _ _ F3) as [M3 I3]. rewrite !ids_app, I1, I2, I3. cbn [pl_singular pl_plural pl_values]. split; [|reflexivity].
      rewrite <- Nat.add_assoc. repeat (apply measures_app; try assumption). }
  rewrite A2, B2. split; [apply measures_app; assumption|reflexivity].
Qed.
Lemma entries_measure forms es us : Forall2 (gettext_entry forms) es us -> measures (concat es) (uweights us) /\ ids (concat es) = length us.
Proof.
  induction 1 as [|f u es us G F [IH1 IH2]]; [split; [constructor|reflexivity]|]. cbn [concat length]. destruct (entry_measure _ _ _ G) as [M I].
  rewrite ids_app, I, IH2. split; [|reflexivity]. apply measures_app; assumption.
Qed.
(** Each keyword is followed by a string, each msgctxt by a later msgid. *)
Definition sound (ts : list gtok) : Prop := fed ts /\ forall x y, ts = x ++ GKeyword (lit "msgctxt") :: y -> (0 < ids y)%nat.
Lemma sound_nil : sound [].
Proof. split; [intros [|? x] kw y E; discriminate|intros [|? x] y E; discriminate]. Qed.
Lemma sound_string b ts : sound ts -> sound (GString b :: ts).
Proof.
  intros [F C]. split.
  - intros [|g x] kw y E; [discriminate|]. injection E as _ E. exact (F x kw y E).
  - intros [|g x] y E; [discriminate|]. injection E as _ E. exact (C x y E).
Qed.
Lemma sound_strings bs ts : sound ts -> sound (map GString bs ++ ts).
Proof. intros S. induction bs as [|b bs IH]; [exact S|]. cbn [map app]. apply sound_string, IH. Qed.
Lemma sound_field kw f v ts : gettext_field kw f v -> sound ts -> (kw = lit "msgctxt" -> (0 < ids ts)%nat) -> sound (f ++ ts).
Proof.
  intros [b bs t xs G F] S H. cbn [app]. pose proof (sound_string b _ (sound_strings bs ts S)) as [S1 S2]. split.
  - intros [|g x] kw' y E; injection E as E1 E2; [subst; eauto|]. exact (S1 x kw' y E2).
  - intros [|g x] y E; injection E as E1 E2; [|exact (S2 x y E2)]. subst y. unfold ids. cbn [fold_right]. fold (ids (map GString bs ++ ts)). rewrite ids_app. specialize (H E1). lia.
Qed.
Lemma sound_forms i f vs ts : gettext_forms i f vs -> sound ts -> sound (f ++ ts).
Proof.
  induction 1 as [i|i kw a v b vs K F G IH]; intros S; [exact S|]. rewrite <- app_assoc. eapply sound_field; [exact F|exact (IH S)|].
  intros E. destruct (proj2 (msgstr_kw_other _ _ K) E).
Qed.
Lemma sound_entries forms es us : Forall2 (gettext_entry forms) es us -> sound (concat es).
Proof.
  induction 1 as [|f u es us G F IH]; [exact sound_nil|]. cbn [concat]. destruct G as [a c b m st Cx Bo St]. rewrite <- app_assoc.
  assert (sound (b ++ concat es) /\ (0 < ids b)%nat) as [S I].
  { destruct Bo as [f1 id f2 text F1 F2|f1 id f2 pl f3 vs F1 F2 F3 _ _]; rewrite <- ?app_assoc; destruct (field_measure _ _ _ F1) as [_ I1].
    - split; [|rewrite ids_app, I1; cbn; lia]. eapply sound_field; [exact F1| |discriminate]. eapply sound_field; [exact F2|exact IH|discriminate].
    - split; [|rewrite ids_app, I1; cbn; lia]. eapply sound_field; [exact F1| |discriminate]. eapply sound_field; [exact F2| |discriminate]. eapply sound_forms; [exact F3|exact IH]. }
  destruct Cx as [|a s Fa]; [exact S|]. eapply sound_field; [exact Fa|exact S|]. intros _. rewrite ids_app. lia.
Qed.

(** ** As read *)
Definition unmarked (l : po_line) : Prop := match l with PMessage _ p _ _ | PCont _ p _ => p = [] | _ => False end.
Lemma looks_unmarked pl qs : Forall2 looks pl qs -> Forall unmarked pl.
Proof. induction 1 as [|l q pl qs L F IH]; constructor; [destruct L; reflexivity|exact IH]. Qed.
Lemma strings_weight p f t : strings p f t -> weight f = len t /\ id_lines f = 0%nat.
Proof.
  unfold weight, id_lines. induction 1 as [|n s ls t S [IH1 IH2]]; [split; reflexivity|]. cbn [fold_right lweight]. rewrite app_length, IH1, IH2. split; reflexivity.
Qed.
Lemma field_weight p kw f t : field p kw f t -> Forall unmarked f -> p = [] /\ weight f = len t /\ id_lines f = is_id kw.
Proof.
  intros [n s ls t' S] U. inversion U as [|? ? U1 U2]; subst. cbn in U1. subst p. split; [reflexivity|]. destruct (strings_weight _ _ _ S) as [W I].
  unfold weight, id_lines in *. cbn [fold_right lweight]. rewrite W, I, app_length. split; [reflexivity|]. rewrite Nat.add_0_r. reflexivity.
Qed.
Lemma opt_weight p kw f t : opt_field p kw f t -> Forall unmarked f -> (p = [] \/ f = []) /\ weight f = len (opt_str t).
Proof.
  intros [|ls s F] U; [split; [auto|reflexivity]|]. destruct (field_weight _ _ _ _ F U) as (A & B & _). split; [auto|exact B].
Qed.
Lemma values_weight p count i f vs : values p count i f vs -> Forall unmarked f -> weight f = fold_right (fun v a => (len v + a)%nat) 0%nat vs.
Proof.
  induction 1 as [i|i k kw ls s ls' vs L1 L2 K F V IH]; intros U; [reflexivity|]. apply Forall_app in U as [U1 U2]. rewrite weight_app, (IH U2).
  destruct (field_weight _ _ _ _ F U1) as (_ & W & _). cbn [fold_right]. rewrite W. reflexivity.
Qed.
Lemma prev_not o : prev o <> [].
Proof. destruct o; discriminate. Qed.
Lemma entry_weight forms b u : entry forms b u -> Forall unmarked b -> weight b = uweight u /\ (0 < id_lines b)%nat.
Proof.
  intros [cs F N L C obs ks pc pm c m st Bc K St] U. apply Forall_app in U as [Uc U]. unfold uweight. cbn [u_context u_message].
  assert (cs = []) as ->. { apply block_comments_comment in Bc. destruct Bc as [|l cs Cl Bc]; [reflexivity|]. inversion Uc as [|? ? X _]; subst. destruct Cl as (? & ? & ? & ->). destruct X. }
  cbn [app]. destruct K as [l1 pc l2 pm l3 c l4 m F1 F2 F3 Bo]. repeat (apply Forall_app in U as [? U]).
  assert (l1 = []) as ->. { destruct (opt_weight _ _ _ _ F1) as ([E|E] & _); [assumption|destruct (prev_not _ E)|exact E]. }
  assert (l2 = []) as ->.
  { destruct F2 as [|l id F2|l id l' pl F2 F2']; [reflexivity| |]; exfalso.
    - destruct (field_weight _ _ _ _ F2) as (E & _); [assumption|destruct (prev_not _ E)].
    - repeat match goal with X : Forall unmarked (_ ++ _) |- _ => apply Forall_app in X as [? ?] end. destruct (field_weight _ _ _ _ F2) as (E & _); [assumption|destruct (prev_not _ E)]. }
  cbn [app]. destruct (opt_weight _ _ _ _ F3) as [_ W3]; [assumption|]. rewrite weight_app, id_lines_app, W3.
  assert (weight l4 = mweight m /\ (0 < id_lines l4)%nat) as [W4 I4]; [|rewrite W4; split; [reflexivity|lia]].
  destruct Bo as [f1 id f2 text B1 B2|f1 id f2 pl f3 vs B1 B2 B3 _]; repeat (apply Forall_app in U as [? U]); rewrite !weight_app, !id_lines_app.
  - destruct (field_weight _ _ _ _ B1) as (_ & X1 & Y1); [assumption|]. destruct (field_weight _ _ _ _ B2) as (_ & X2 & Y2); [assumption|]. cbn [mweight]. rewrite opt_some_text, X1, X2, Y1. split; [reflexivity|cbn; lia].
  - destruct (field_weight _ _ _ _ B1) as (_ & X1 & Y1); [assumption|]. destruct (field_weight _ _ _ _ B2) as (_ & X2 & Y2); [assumption|].
    rewrite (values_weight _ _ _ _ _ B3) by assumption. cbn [mweight pl_singular pl_plural pl_values]. rewrite X1, X2, Y1. split; [lia|cbn; lia].
Qed.
Lemma blocks_weight forms bls us : Forall2 (unit_entry forms) bls us -> Forall unmarked (concat bls) -> weight (concat bls) = uweights us /\ (length us <= id_lines (concat bls))%nat.
Proof.
  induction 1 as [|b u bls us [E _] F IH]; intros U; [split; [reflexivity|cbn; lia]|]. cbn [concat] in *. apply Forall_app in U as [U1 U2].
  destruct (IH U2) as [A B]. destruct (entry_weight _ _ _ E U1) as [C D]. rewrite weight_app, id_lines_app, A, C. cbn [length]. split; [reflexivity|lia].
Qed.
Lemma looks_ids pl qs : Forall2 looks pl qs -> (id_lines pl <= ids (concat qs))%nat.
Proof.
  induction 1 as [|l q pl qs L F IH]; [apply le_n|]. cbn [concat]. rewrite ids_app. unfold id_lines. cbn [fold_right]. fold (id_lines pl).
  destruct L as [n kw x q|n x b q]; unfold ids at 1; cbn [fold_right]; lia.
Qed.

(** * The theorem *)
Lemma parsed_rest n a h : rd n a h -> forall b e pl tl, parsed n (a ++ b) e pl tl -> exists pl', pl = h ++ pl' /\ parsed (n + N.of_nat (length a)) b e pl' tl.
Proof.
  unfold rd. intros P. remember (None : option ioerr) as e0 eqn:E0 in P. remember (None : option error) as t0 eqn:T0 in P. revert E0 T0.
  induction P as [n|n e|n s ls e O B|n s ls e pl tl O L H IH|n s l ls e pl tl O L Nb H IH]; intros E0 T0 b e' pl' tl' P'; try discriminate; cbn [app length] in *.
  - exists pl'. rewrite N.add_0_r. auto.
  - replace (n + N.of_nat (Datatypes.S (length ls))) with (n + 1 + N.of_nat (length ls)) by lia.
    inversion P' as [| |? ? ? ? O' B'|? ? ? ? ? ? O' L' H'|? ? l' ? ? ? ? O' L' N' H']; subst.
    + destruct (B' _ L).
    + exact (IH eq_refl eq_refl _ _ _ _ H').
    + apply line_of_iff in L; [|exact O]. apply line_of_iff in L'; [|exact O]. congruence.
  - replace (n + N.of_nat (Datatypes.S (length ls))) with (n + 1 + N.of_nat (length ls)) by lia.
    inversion P' as [| |? ? ? ? O' B'|? ? ? ? ? ? O' L' H'|? ? l' ? ? ? ? O' L' N' H']; subst.
    + destruct (B' _ L).
    + apply line_of_iff in L; [|exact O]. apply line_of_iff in L'; [|exact O]. congruence.
    + destruct (IH eq_refl eq_refl _ _ _ _ H') as (r & -> & X). apply line_of_iff in L; [|exact O]. apply line_of_iff in L'; [|exact O].
      assert (l' = l) as -> by congruence. exists r. auto.
Qed.
Lemma items_same us us' o : map UOk us = map UOk us' ++ error_item o -> us' = us /\ o = None.
Proof.
  revert us'. induction us as [|u us IH]; intros [|u' us'] E; cbn [map app] in E; try discriminate.
  - destruct o; [discriminate|auto].
  - destruct o; discriminate.
  - injection E as -> E. destruct (IH us' E) as [-> ->]. auto.
Qed.
Lemma first_starter forms es us pl qs : Forall2 (gettext_entry forms) es us -> Forall2 looks pl qs -> concat qs = concat es -> match pl with [] => True | l :: _ => starter l end.
Proof.
  intros G L E. destruct L as [|l q pl qs L F]; [exact Logic.I|]. destruct G as [|f u es us G _]; [destruct L; discriminate|]. cbn [concat] in E.
  assert (exists kw r, f = GKeyword kw :: r /\ In kw [lit "msgctxt"; lit "msgid"]) as (kw & r & -> & I).
  { destruct G as [a c b m st Cx Bo St]. destruct Cx as [|a s [b0 bs t ts _ _]]; [|cbn [app]; eexists _, _; split; [reflexivity|left; reflexivity]].
    destruct Bo as [f1 id f2 text [b0 bs t ts _ _] _|f1 id f2 pl' f3 vs [b0 bs t ts _ _] _ _ _ _]; cbn [app]; eexists _, _; (split; [reflexivity|right; left; reflexivity]). }
  cbn [app] in E. destruct L as [n kw' x q|n x b q]; [|discriminate]. injection E as -> _. right. exists n, [], kw, x. split; [reflexivity|]. cbn in *. intuition auto.
Qed.
Theorem layout_exact lib pf hls v ps forms ls tss es us bs evs : heading_text pf hls v ps forms ->
  Forall2 line_tokens ls tss -> Forall2 (gettext_entry forms) es us -> concat tss = concat es -> Forall has_source us ->
  contents bs None (hls ++ ls) None -> delivers evs bs None ->
  ((exists c, read_catalogue lib pf evs = Ok c /\ c_items c = map UOk us) <-> Forall usual_tokens tss).
Proof.
  intros Hd T G Q Hs Ct D. split; [|intros U; destruct (layout_read lib pf hls v ps forms ls tss es us bs evs Hd T G Q Hs U Ct D) as (c & A & _ & B); eauto].
  intros (c & R & I). pose proof (contents_one_line _ _ _ _ Ct) as P. destruct (parsed_total _ None P 1) as (pl & tl & Pa).
  assert (file evs (hls ++ ls) None pl tl) as Fi by (exists bs, None; auto).
  destruct (catalogue_entries lib pf evs _ _ _ _ c Fi R) as (_ & -> & _).
  { intros x. rewrite I. intros Ix. apply in_map_iff in Ix as (? & ? & _). discriminate. }
  destruct Hd as (h & Rh & E & H & HF). destruct (parsed_rest _ _ _ Rh _ _ _ _ Pa) as (pl2 & -> & P2).
  destruct (entries_measure _ _ _ G) as [M Ids]. pose proof (sound_entries _ _ _ G) as [S1 S2]. rewrite <- Q in M, S1.
  destruct (lines_counted _ _ _ _ _ P2 eq_refl eq_refl tss _ T S1 M) as (qs & Lk & Eq & _ & Exact).
  assert (first_entry h pl2 None v) as Fe.
  { apply fe_entry; [exact E|]. assert (Y := first_starter _ _ _ _ _ G Lk (eq_trans Eq Q)). destruct pl2 as [|l r]; [reflexivity|]. exact (starter_ends _ _ _ _ _ _ E Y). }
  pose proof (parsed_written _ _ _ _ _ P2) as W.
  destruct (blocks_total forms pl2 None W) as (us' & o & B).
  destruct (read_header lib pf evs _ _ _ _ h v ps pl2 forms us' o Fi eq_refl Fe H HF B) as (c' & R' & _ & I').
  rewrite R in R'. injection R' as <-. rewrite I in I'. destruct (items_same _ _ _ I') as [-> ->].
  apply blocks_entries in B as [(bls & tail & -> & F & Inc) _].
  pose proof (looks_unmarked _ _ Lk) as Un. apply Forall_app in Un as [Un _]. destruct (blocks_weight _ _ _ F Un) as [Wt Idl].
  destruct tail as [|l tail]; [rewrite app_nil_r in *; apply Exact; congruence|]. exfalso.
  apply Forall2_app_inv_l in Lk as (q1 & q2 & L1 & L2 & ->). rewrite concat_app in Eq.
  pose proof (looks_ids _ _ L1) as X. rewrite Q in Eq. pose proof Ids as Ids'. rewrite <- Eq, ids_app in Ids'.
  assert (ids (concat q2) = 0%nat) as Z by lia.
  assert (starter l) as St by (apply (begun_starter forms l tail); right; exact Inc).
  apply Forall_app in W as [_ W]. inversion W as [|? ? Wl _]; subst. inversion L2 as [|? q ? q2' Ll L3]; subst.
  cbn [concat] in *. destruct Ll as [n kw x q|n x b q].
  - destruct Wl as [_ (kw' & K & Ek)]. cbn in Ek. subst kw'. destruct St as [(? & ? & ? & St)|(n' & p' & t' & s' & E' & It)]; [discriminate|]. injection E' as <- <- <- <-.
    destruct It as [<-|[<-|[<-|[<-|[]]]]]; try (inversion K; fail).
    + cbn [app] in Eq. specialize (S2 (concat q1) (q ++ concat q2')). unfold ids in Z. cbn [app fold_right] in Z. fold (ids (q ++ concat q2')) in Z. specialize (S2 (eq_sym Eq)). lia.
    + unfold ids in Z. cbn in Z. lia.
  - destruct St as [(? & ? & ? & St)|(n' & p' & t' & s' & E' & It)]; [discriminate|discriminate].
Qed.
