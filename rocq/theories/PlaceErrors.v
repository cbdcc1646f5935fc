(** How many lines come before the one an error is about, at least. *)
From Coq Require Import String Arith NArith ZArith Bool List Lia.
From Verif Require Import ModelBase ModelUtf8 ModelLine ModelFormula ModelData ModelSource ModelReader
  SpecLine SpecSource SpecReader SpecBlock SpecHeader SpecFile SpecAny BaseFacts LineFacts ReaderFacts ReadsFacts
  BlockFacts FileFacts PieceFacts AnyFacts AnyErrors.
Import ListNotations.

Definition commented (l : po_line) : Prop := exists n k c, l = PComment n k c.
(** The line [l], with [k] lines before it, can be found instead of the keyword [w]. *)
Definition due (l : po_line) (w : str) (k : nat) : Prop :=
  (w = lit "msgid" /\ (commented l -> 2 <= k)) \/ (w = lit "msgstr" /\ 1 <= k) \/ (w = lit "msgstr[0]" /\ 2 <= k).
(** An error about [rs], with [d] lines before. *)
Inductive located (rs : lines) (d : nat) : error -> Prop :=
| lc_failure x : In (Some (IFail x)) rs -> located rs d x
| lc_line a l b w : kept rs = a ++ l :: b -> due l w (d + length a) -> located rs d (EParse (po_line_no l) (shown l) w)
| lc_source a l b : kept rs = a ++ l :: b -> 1 <= d + length a -> located rs d (EUnexpected (po_line_no l) (lit "Source should not be empty")).

Lemma located_app p rs d x : located rs (d + length (kept p)) x -> located (p ++ rs) d x.
Proof.
  intros [y I|a l b w E D|a l b E D].
  - apply lc_failure, in_or_app. right. exact I.
  - apply (lc_line _ _ (kept p ++ a) l b); [rewrite kept_app, E, app_assoc; reflexivity|]. rewrite app_length, Nat.add_assoc. exact D.
  - apply (lc_source _ _ (kept p ++ a) l b); [rewrite kept_app, E, app_assoc; reflexivity|]. rewrite app_length, Nat.add_assoc. exact D.
Qed.
Lemma due_mono l w j k : j <= k -> due l w j -> due l w k.
Proof. intros L [[E H]|[[E H]|[E H]]]; [left|right; left|right; right]; (split; [exact E|]); [intros C; specialize (H C)| |]; lia. Qed.
Lemma located_mono rs d d' x : d <= d' -> located rs d x -> located rs d' x.
Proof.
  intros L [y I|a l b w E D|a l b E D]; [apply lc_failure, I|eapply lc_line; [exact E|]|eapply lc_source; [exact E|lia]]. eapply due_mono; [|exact D]. lia.
Qed.

Definition locates {A} (m : res A) (ls : lines) (d : nat) : Prop := forall e l, m = (Err e, l) -> located ls d e.
Lemma bind_locates {A B} (m : res A) (f : A -> lines -> res B) ls d :
  locates m ls d -> suffix (snd m) ls -> (forall a p l, m = (Ok a, l) -> ls = p ++ l -> locates (f a l) l (d + length (kept p))) -> locates (bind m f) ls d.
Proof.
  intros H S Hf e l' E. apply bind_err in E as [E|(a & l & E & E')]; [exact (H e l' E)|].
  rewrite E in S. cbn [snd] in S. destruct S as (p & ->). apply located_app. exact (Hf a p l E eq_refl e l' E').
Qed.
Lemma ok_locates {A} (x : A) l ls d : locates (Ok x, l) ls d.
Proof. intros e l'; discriminate. Qed.
Lemma located_skip x ls d e : located ls d e -> located (x :: ls) d e.
Proof. intros H. apply (located_app [x]). eapply located_mono; [|exact H]. lia. Qed.
Lemma append_conts_locates p ls d : forall s, locates (append_conts p s ls) ls d.
Proof.
  induction ls as [|i ls IH]; intros s e l H; cbn [append_conts] in H; [discriminate|].
  destruct i as [[[|n k c|n q t c|n q c]|y]|]; try discriminate.
  - destruct (str_eqb q p); [|discriminate]. exact (located_skip _ _ _ _ (IH _ _ _ H)).
  - injection H as <- <-. apply lc_failure. left. reflexivity.
Qed.
Lemma parse_msg_locates o t ls d : locates (parse_msg o t ls) ls d.
Proof.
  intros e l H. rewrite parse_msg_eq in H. destruct ls as [|[[[|n k c|n p tag c|n p c]|y]|] ls]; try discriminate.
  - destruct (_ && _); [|discriminate]. exact (located_skip _ _ _ _ (append_conts_locates _ _ _ _ _ _ H)).
  - injection H as <- <-. apply lc_failure. left. reflexivity.
Qed.
(** A line that is awaited is one line more. *)
Lemma parse_msg_takes o t ls v p l : parse_msg o t ls = (Ok (Some v), l) -> ls = p ++ l -> 1 <= length (kept p).
Proof.
  intros H E. rewrite parse_msg_eq in H. destruct ls as [|[[[|n k c|n q tag c|n q c]|y]|] ls]; try discriminate.
  destruct (_ && _); [|discriminate]. pose proof (append_conts_suffix q ls c) as S. rewrite H in S. apply suffix_length in S. cbn [snd] in S.
  destruct p as [|i p]; [apply (f_equal (@length _)) in E; cbn in E; lia|]. injection E as <- _. cbn. lia.
Qed.
Lemma expected_locates w ls d : (forall l r, ls = Some (ILine l) :: r -> due l w d) -> locates (expected w ls) ls d.
Proof.
  intros D e l H. unfold expected, peek, next in H. destruct ls as [|[[[|n k c|n p t c|n p c]|y]|] ls]; cbn [hd tl] in H; try discriminate; injection H as <- <-.
  1-3: specialize (D _ _ eq_refl).
  - apply (lc_line _ _ [] (PComment n k c) (kept ls)); [reflexivity|]. rewrite Nat.add_0_r. exact D.
  - apply (lc_line _ _ [] (PMessage n p t c) (kept ls)); [reflexivity|]. rewrite Nat.add_0_r. exact D.
  - apply (lc_line _ _ [] (PCont n p c) (kept ls)); [reflexivity|]. rewrite Nat.add_0_r. exact D.
  - apply lc_failure. left. reflexivity.
Qed.
#[local] Hint Resolve ok_locates parse_msg_locates parse_msg_suffix expected_suffix : core.
Lemma parse_values_locates o k d : forall i vs ls, locates (parse_values o k i vs ls) ls d.
Proof.
  induction k as [|k IH]; intros i vs ls; cbn [parse_values]; [auto|]. apply bind_locates; auto. intros a p l _ _ e l' H.
  eapply located_mono; [|exact (IH _ _ _ _ _ H)]. lia.
Qed.
Lemma new_message_locates forms o id pl ls d : (id <> None -> 1 <= d) -> (id <> None -> pl <> None -> 2 <= d) -> locates (new_message forms o id pl ls) ls d.
Proof.
  intros D1 D2. unfold new_message. destruct id as [id|]; [|auto]. destruct pl as [pl|].
  - apply bind_locates; [apply parse_values_locates|apply parse_values_suffix|]. intros vs p l _ _. destruct (is_empty vs); [|auto]. apply bind_locates; auto.
    apply expected_locates. intros k r _. right. right. split; [reflexivity|]. enough (2 <= d) by lia. apply D2; discriminate.
  - apply bind_locates; auto. intros [t|] p l _ _; [auto|]. apply bind_locates; auto.
    apply expected_locates. intros k r _. right. left. split; [reflexivity|]. enough (1 <= d) by lia. apply D1. discriminate.
Qed.
Lemma front (k : po_line) ls p l x r : Some (ILine k) :: ls = p ++ l -> l = Some (ILine x) :: r -> ~ commented k -> commented x -> 1 <= length (kept p).
Proof.
  intros E -> NC C. destruct p as [|i p]; [injection E as -> _; contradiction|]. injection E as <- _. cbn. lia.
Qed.
Lemma fields_locates forms first u k ls d : ~ commented k -> first = true \/ 1 <= d -> locates (parse_message_fields forms first u (Some (ILine k) :: ls)) (Some (ILine k) :: ls) d.
Proof.
  intros NC F. set (ls0 := Some (ILine k) :: ls). unfold parse_message_fields.
  apply bind_locates; auto; intros pc p1 l1 _ E1.
  apply bind_locates; auto; intros pi p2 l2 _ E2.
  apply bind_locates; [destruct pi; auto|destruct pi; cbn; auto|]; intros pp p3 l3 _ E3.
  apply bind_locates; auto; intros c p4 l4 _ E4.
  apply bind_locates; auto; intros i p5 l5 Q5 E5.
  assert (ls0 = (p1 ++ p2 ++ p3 ++ p4 ++ p5) ++ l5) as E by (rewrite E1, E2, E3, E4, E5, <- !app_assoc; reflexivity).
  destruct (negb first && _) eqn:B.
  - apply bind_locates; auto. apply expected_locates. intros x r El. left. split; [reflexivity|]. intros C. pose proof (front _ _ _ _ _ _ E El NC C) as L.
    rewrite !kept_app, !app_length in L. destruct F as [->|F]; [discriminate B|]. lia.
  - apply bind_locates; auto; intros pl p6 l6 Q6 E6.
    apply bind_locates; [apply new_message_locates|apply new_message_suffix|intros [m|] p7 l7 _ _; auto].
    + intros N. destruct i as [i|]; [|contradiction]. pose proof (parse_msg_takes _ _ _ _ _ _ Q5 E5). lia.
    + intros N M. destruct i as [i|]; [|contradiction]. pose proof (parse_msg_takes _ _ _ _ _ _ Q5 E5). destruct pl as [pl|]; [|contradiction]. pose proof (parse_msg_takes _ _ _ _ _ _ Q6 E6). lia.
Qed.
Lemma comments_locates d ls : forall u, locates (parse_comments u ls) ls d.
Proof.
  induction ls as [|i ls IH]; intros u e l H; cbn [parse_comments] in H; [discriminate|].
  destruct i as [[[|n k c|n q t c|n q c]|y]|]; try discriminate.
  - exact (located_skip _ _ _ _ (IH _ _ _ H)).
  - injection H as <- <-. apply lc_failure. left. reflexivity.
Qed.
Lemma comments_stop ls : forall u v k l, parse_comments u ls = (Ok v, Some (ILine k) :: l) -> ~ commented k.
Proof.
  induction ls as [|i ls IH]; intros u v k l H; cbn [parse_comments] in H; [discriminate|].
  destruct i as [[[|n j c|n q t c|n q c]|y]|]; try discriminate; [| eapply IH; exact H | |]; injection H as _ <- _; intros (? & ? & ? & ?); discriminate.
Qed.
Lemma runit_locates forms first ls d : first = true \/ 1 <= d -> locates (runit forms first ls) ls d.
Proof.
  intros F. unfold runit. apply bind_locates; [apply comments_locates|apply parse_comments_suffix|]. intros u p l1 C _ e l H.
  destruct l1 as [|[[k|y]|] l1]; unfold peek in H; cbn [hd] in H; try discriminate. pose proof (comments_stop _ _ _ _ _ C) as NC.
  apply bind_err in H as [H|(o & l2 & E & H)].
  - revert H. apply fields_locates; [exact NC|]. destruct F as [F|F]; [left; exact F|right; lia].
  - destruct o as [v|]; cbn [finish_unit] in H; [|discriminate]. destruct first; cbn [negb andb] in H; [discriminate|].
    destruct (msg_is_empty (u_message v)); [|discriminate]. injection H as <- <-. destruct F as [F|F]; [discriminate F|]. apply (lc_source _ _ [] k (kept l1)); [reflexivity|lia].
Qed.
Lemma reads_locates forms ls l x d : 1 <= d -> reads forms ls l -> In (UErr x) l -> located ls d x.
Proof.
  intros D. induction 1 as [ls r E|ls e r E|ls u r l E H IH]; intros I; [destruct I| |].
  - destruct I as [[= <-]|[]]. revert E. apply runit_locates. right. exact D.
  - destruct I as [?|I]; [discriminate|]. pose proof (runit_suffix forms false ls) as S. rewrite E in S. cbn [snd] in S. destruct S as (p & ->).
    apply located_app. eapply located_mono; [|exact (IH I)]. lia.
Qed.

(** * When the first entry takes nothing *)
Lemma parse_msg_stays o t k ls a l : parse_msg o t (Some (ILine k) :: ls) = (Ok a, l) -> (a = None /\ l = Some (ILine k) :: ls) \/ length l <= length ls.
Proof.
  rewrite parse_msg_eq. destruct k as [|n j c|n q tag c|n q c]; try (intros [= <- <-]; left; split; reflexivity).
  destruct (_ && _); [|intros [= <- <-]; left; split; reflexivity]. intros H. right. pose proof (append_conts_suffix q ls c) as S. rewrite H in S. apply suffix_length in S. exact S.
Qed.
Lemma shorter {A} (m : res A) ls a l k : suffix (snd m) ls -> m = (Ok a, l) -> length ls <= k -> length l <= k.
Proof. intros S -> L. apply suffix_length in S. cbn [snd] in S. lia. Qed.
Lemma fields_stay forms u k ls v : parse_message_fields forms true u (Some (ILine k) :: ls) = (Ok (Some v), Some (ILine k) :: ls) ->
  forall t, In t [lit "|msgctxt"; lit "|msgid"; lit "msgctxt"; lit "msgid"] -> parse_msg (u_obsolete u) t (Some (ILine k) :: ls) = (Ok None, Some (ILine k) :: ls).
Proof.
  intros H. unfold parse_message_fields in H. set (n := length ls).
  assert (forall l, length l <= n -> l <> Some (ILine k) :: ls) as K by (intros l L ->; cbn in L; lia).
  apply bind_ok in H as (a1 & l1 & H1 & H). apply bind_ok in H as (a2 & l2 & H2 & H). apply bind_ok in H as (a3 & l3 & H3 & H). apply bind_ok in H as (a4 & l4 & H4 & H).
  apply bind_ok in H as (a5 & l5 & H5 & H). cbn [negb andb] in H. apply bind_ok in H as (a6 & l6 & H6 & H). apply bind_ok in H as (a7 & l7 & H7 & H).
  assert (l7 = Some (ILine k) :: ls) as -> by (destruct a7; injection H; auto; discriminate).
  assert (length l5 <= n -> False) as K5.
  { intros L. pose proof (shorter _ _ _ _ _ (parse_msg_suffix _ _ _) H6 L) as L6. exact (K _ (shorter _ _ _ _ _ (new_message_suffix _ _ _ _ _) H7 L6) eq_refl). }
  assert (length l4 <= n -> False) as K4 by (intros L; exact (K5 (shorter _ _ _ _ _ (parse_msg_suffix _ _ _) H5 L))).
  assert (length l3 <= n -> False) as K3 by (intros L; exact (K4 (shorter _ _ _ _ _ (parse_msg_suffix _ _ _) H4 L))).
  assert (length l2 <= n -> False) as K2.
  { intros L. apply K3. destruct a2; [exact (shorter _ _ _ _ _ (parse_msg_suffix _ _ _) H3 L)|]. injection H3 as _ <-. exact L. }
  assert (length l1 <= n -> False) as K1 by (intros L; exact (K2 (shorter _ _ _ _ _ (parse_msg_suffix _ _ _) H2 L))).
  destruct (parse_msg_stays _ _ _ _ _ _ H1) as [[-> ->]|L]; [|destruct (K1 L)].
  destruct (parse_msg_stays _ _ _ _ _ _ H2) as [[-> ->]|L]; [|destruct (K2 L)]. injection H3 as <- <-.
  destruct (parse_msg_stays _ _ _ _ _ _ H4) as [[-> ->]|L]; [|destruct (K4 L)].
  destruct (parse_msg_stays _ _ _ _ _ _ H5) as [[-> ->]|L]; [|destruct (K5 L)].
  intros t [<-|[<-|[<-|[<-|[]]]]]; assumption.
Qed.
Lemma comments_stay ls u v k l : parse_comments u ls = (Ok v, Some (ILine k) :: l) -> length ls <= length (Some (ILine k) :: l) -> ls = Some (ILine k) :: l /\ v = u.
Proof.
  destruct ls as [|i ls]; cbn [parse_comments]; [discriminate|]. destruct i as [[[|n j c|n q t c|n q c]|y]|]; try discriminate;
    try (intros [= <- <- <-] _; split; reflexivity).
  intros H L. pose proof (parse_comments_suffix ls (apply_comment u j c)) as S. rewrite H in S. apply suffix_length in S. cbn [snd length] in *. lia.
Qed.
Lemma second_try forms ls u : runit None true ls = (Ok (Some u), ls) -> (forall v r, runit forms false ls <> (Ok (Some v), r)) /\ locates (runit forms false ls) ls 0.
Proof.
  intros H. unfold runit in H. apply bind_ok in H as (v & l1 & C & H). destruct l1 as [|[[k|y]|] l1]; unfold peek in H; cbn [hd] in H; try discriminate.
  apply bind_ok in H as (o & l2 & E & H). destruct o as [w|]; [|discriminate]. cbn [finish_unit negb andb] in H. injection H as _ ->.
  pose proof (parse_message_fields_suffix None true (set_obsolete v (line_obsolete k)) (Some (ILine k) :: l1)) as S. rewrite E in S. apply suffix_length in S. cbn [snd] in S.
  pose proof (comments_stop _ _ _ _ _ C) as NC. destruct (comments_stay _ _ _ _ _ C S) as [-> ->]. pose proof (fields_stay _ _ _ _ _ E) as K. clear S.
  assert (runit forms false (Some (ILine k) :: l1) = bind (bind (expected (lit "msgid") (Some (ILine k) :: l1)) (fun _ l => (Ok None, l))) (finish_unit false (po_line_no k))) as R.
  { unfold runit. rewrite C. cbn [bind]. unfold peek. cbn [hd]. unfold parse_message_fields. rewrite (K (lit "|msgctxt")) by (cbn; auto). cbn [bind]. rewrite (K (lit "|msgid")) by (cbn; auto). cbn [bind].
    rewrite (K (lit "msgctxt")) by (cbn; auto). cbn [bind]. rewrite (K (lit "msgid")) by (cbn; auto). cbn [bind negb andb]. reflexivity. }
  rewrite R. split.
  - intros v' r H. apply bind_ok in H as (o & l2 & H & H'). apply bind_ok in H as (a & l3 & H & [= <- <-]). discriminate H'.
  - intros e l H. apply bind_err in H as [H|(o & l2 & H & H')].
    + apply bind_err in H as [H|(a & l2 & _ & H)]; [|discriminate H]. revert H. apply expected_locates. intros x r [= <- _]. left. split; [reflexivity|]. intros X. contradiction.
    + apply bind_ok in H as (a & l3 & H & [= <- <-]). discriminate H'.
Qed.
Lemma later_locates ls u r forms l x : runit None true ls = (Ok (Some u), r) -> reads forms r l -> In (UErr x) l -> located ls 0 x.
Proof.
  intros E R I. pose proof (runit_suffix None true ls) as S. rewrite E in S. cbn [snd] in S. destruct S as (p & Ep).
  destruct p as [|i p].
  - cbn [app] in Ep. subst r. destruct (second_try forms _ _ E) as [N L]. inversion R as [? ? E'|? e ? E'|? v ? ? E']; subst; [destruct I| |destruct (N _ _ E')].
    destruct I as [[= <-]|[]]. exact (L _ _ E').
  - rewrite Ep. apply located_app. apply (reads_locates forms _ l); [|exact R|exact I]. rewrite Ep in E. cbn [app] in E. unfold runit in E.
    destruct i as [[k|y]|]; [cbn; lia|cbn in E; discriminate E|cbn in E; discriminate E].
Qed.
Theorem catalogue_locates lib pf ls c x : catalogue_of lib pf ls (Ok c) -> In (UErr x) (c_items c) -> located ls 0 x.
Proof.
  intros R I. remember (Ok c) as o eqn:Eo.
  destruct R as [e r E|r E|u r l E M R|u r e E M HF|u r forms l E M HF R]; try discriminate; injection Eo as <-; cbn [c_items] in I.
  - destruct I.
  - destruct I as [?|I]; [discriminate|]. exact (later_locates _ _ _ _ _ _ E R I).
  - exact (later_locates _ _ _ _ _ _ E R I).
Qed.

(** * Numbers of lines *)
Lemma split_app {A} (a b c d : list A) l : a ++ b = c ++ l :: d -> (exists e, a = c ++ l :: e) \/ exists e, c = a ++ e /\ b = e ++ l :: d.
Proof.
  revert c. induction a as [|x a IH]; intros c E; [right; exists c; auto|]. destruct c as [|y c].
  - injection E as -> E. left. exists a. reflexivity.
  - injection E as -> E. destruct (IH c E) as [(e & ->)|(e & -> & ->)]; [left; exists e; reflexivity|right; exists e; auto].
Qed.
Lemma numbered s n l : line_of s n l -> l <> PBlank -> po_line_no l = n.
Proof. intros [] N; try reflexivity. contradiction. Qed.
Lemma parsed_position n ls e pl tl : parsed n ls e pl tl -> length pl <= length ls /\ forall a l b, pl = a ++ l :: b -> (n + N.of_nat (length a) <= po_line_no l)%N.
Proof.
  induction 1 as [n|n e|n s ls e O NL|n s ls e pl tl O L P IH|n s l ls e pl tl O L NB P IH]; try (split; [cbn; lia|intros [|? a] l b; discriminate]).
  - destruct IH as [A B]. split; [cbn; lia|]. intros a l b E. specialize (B _ _ _ E). lia.
  - destruct IH as [A B]. split; [cbn; lia|]. intros [|x a] k b E.
    + injection E as <- _. rewrite (numbered _ _ _ L NB). cbn. lia.
    + injection E as -> E. specialize (B _ _ _ E). cbn [length]. lia.
Qed.
Theorem answers_position n bs f rs : answers n bs f rs -> forall a l b, kept rs = a ++ l :: b -> (n + N.of_nat (length a) <= po_line_no l)%N.
Proof.
  induction 1 as [n b f ls e pl tl C P|n b b' bs f ls e pl y C P|n b bs f ls pl rs C P T A IH|n b bs f ls pl rs C P T A IH]; intros a l d;
    destruct (parsed_position _ _ _ _ _ P) as [Ln Hp]; rewrite kept_app, kept_map; intros E; apply split_app in E as [(r & E)|(r & -> & E)]; try exact (Hp _ _ _ E).
  - destruct tl; destruct r; discriminate E.
  - destruct r; discriminate E.
  - specialize (IH r l d E). rewrite app_length. lia.
  - specialize (IH r l d E). rewrite app_length. lia.
Qed.
