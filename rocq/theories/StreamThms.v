(** Theorems about whole streams: line ends, spacing, iteration, truncation. *)
From Coq Require Import String Arith NArith ZArith Bool List Lia.
From Verif Require Import ModelBase ModelUtf8 ModelLine ModelFormula ModelData ModelSource ModelReader
  SpecLine SpecSource SpecReader BaseFacts LineFacts LineThms SourceFacts IterFacts ReaderFacts ReadsFacts
  CatalogueFacts LocalFacts CutFacts StreamFacts.
Import ListNotations.
Local Open Scope N_scope.

(** * Line ends *)
Lemma text_file_contents ls bs : text_file ls bs -> (forall s, In s ls -> text_line s) ->
  exists ls', contents bs None ls' None /\ forall n, items n ls' None = items n ls None.
Proof.
  induction 1 as [|s|s ls bs F IH|s ls bs F IH]; intros H.
  - exists []. split; [constructor|reflexivity].
  - destruct (H s (or_introl eq_refl)) as (O & S & C). destruct s as [|c s]; [|exists [c :: s]; split; [constructor; auto; discriminate|reflexivity]].
    exists []. split; [constructor|reflexivity].
  - destruct (H s (or_introl eq_refl)) as (O & S & C). destruct IH as (ls' & C' & E); [intros x I; apply H; right; exact I|].
    exists (s :: ls'). split; [apply ct_line; auto; constructor; exact C|]. intros n. cbn [items]. rewrite E. reflexivity.
  - destruct (H s (or_introl eq_refl)) as (O & S & C). destruct IH as (ls' & C' & E); [intros x I; apply H; right; exact I|].
    exists (s :: ls'). split; [apply ct_line; auto; constructor|]. intros n. cbn [items]. rewrite E. reflexivity.
Qed.
Lemma items_catalogue lib pf evs evs' bs bs' f f' ls ls' e e' : delivers evs bs f -> delivers evs' bs' f' ->
  contents bs f ls e -> contents bs' f' ls' e' -> items 1 ls e = items 1 ls' e' ->
  read_catalogue lib pf evs = read_catalogue lib pf evs'.
Proof.
  intros D D' C C' E. apply (catalogue_contents lib pf _ _ _ _ _ _ D C). rewrite E.
  apply (catalogue_contents lib pf _ _ _ _ _ _ D' C'). reflexivity.
Qed.
Theorem line_ends lib pf ls bs bs' evs evs' : (forall s, In s ls -> text_line s) ->
  text_file ls bs -> text_file ls bs' -> delivers evs bs None -> delivers evs' bs' None ->
  read_catalogue lib pf evs = read_catalogue lib pf evs'.
Proof.
  intros H F F' D D'. destruct (text_file_contents _ _ F H) as (l & C & E), (text_file_contents _ _ F' H) as (l' & C' & E').
  eapply items_catalogue; [exact D|exact D'|exact C|exact C'|]. rewrite E, E'. reflexivity.
Qed.
(** The lines of a text file are those written. *)
Lemma text_file_catalogue lib pf ls bs evs o : (forall s, In s ls -> text_line s) ->
  text_file ls bs -> delivers evs bs None -> (read_catalogue lib pf evs = o <-> catalogue_of lib pf (items 1 ls None) o).
Proof.
  intros H F D. destruct (text_file_contents _ _ F H) as (l & C & E). rewrite (catalogue_contents lib pf _ _ _ _ _ o D C), E. reflexivity.
Qed.

(** * Spacing *)
Lemma parse_line_renumber s n m : one_line s ->
  match parse_line s n, parse_line s m with
  | Some PBlank, Some PBlank => True
  | Some (PComment a k t), Some (PComment b k' t') => a = n /\ b = m /\ k = k' /\ t = t'
  | Some (PMessage a p k t), Some (PMessage b p' k' t') => a = n /\ b = m /\ p = p' /\ k = k' /\ t = t'
  | Some (PCont a p t), Some (PCont b p' t') => a = n /\ b = m /\ p = p' /\ t = t'
  | None, None => True
  | _, _ => False
  end.
Proof.
  intros O. pose proof (parse_line_spec s n O) as H.
  assert (match parse_line s n with None => parse_line s m = None | Some PBlank => parse_line s m = Some PBlank
    | Some (PComment a k t) => a = n /\ parse_line s m = Some (PComment m k t)
    | Some (PMessage a p k t) => a = n /\ parse_line s m = Some (PMessage m p k t)
    | Some (PCont a p t) => a = n /\ parse_line s m = Some (PCont m p t) end) as K.
  { inversion H as [B E|f k b Q E|kd ct C NQ E|B Q C E].
    - apply parse_line_iff; [exact O|constructor; exact B].
    - rewrite (parse_line_quoted _ m _ _ _ Q). unfold quoted_result. destruct k; auto.
    - split; [reflexivity|]. apply parse_line_iff; [exact O|constructor; assumption].
    - apply parse_line_iff; [exact O|constructor; assumption]. }
  destruct (parse_line s n) as [[| | |]|]; [|destruct K as [-> K]..|]; rewrite K; auto 10.
Qed.
Lemma respaced_lsim n n' c ls ls' e : respaced n n' c ls ls' -> (forall s, In s ls -> one_line s) -> (forall s, In s ls' -> one_line s) ->
  forall Rn : N -> N -> Prop, (forall a b, corresponding c a b -> Rn a b) -> lsim Rn indented (items n ls e) (items n' ls' e).
Proof.
  induction 1 as [n n'|n n' c w w' s ls ls' B B' H IH|n n' c w ls ls' B H IH|n n' c w ls ls' B H IH]; intros O O' Rn HR.
  - cbn [items]. destruct e as [e|]; constructor; [|constructor]. constructor. constructor. apply HR. left. left. reflexivity.
  - cbn [items].
    assert (one_line (w ++ s)) as Ow by (apply O; left; reflexivity).
    assert (one_line (w' ++ s)) as Ow' by (apply O'; left; reflexivity).
    assert (lsim Rn indented (items (n + 1) ls e) (items (n' + 1) ls' e)) as L.
    { apply IH.
      - intros x I; apply O; right; exact I.
      - intros x I; apply O'; right; exact I.
      - intros a b [I|(m & m' & I & E)]; apply HR; [left; right; exact I|right; exists m, m'; split; [right; exact I|exact E]]. }
    rewrite (parse_line_indent w s n B Ow), (parse_line_indent w' s n' B' Ow').
    assert (one_line s) as Os by (intros I; apply Ow, in_or_app; right; exact I).
    assert (Rn n n') as R by (apply HR; left; left; reflexivity).
    pose proof (parse_line_renumber s n n' Os) as K.
    destruct (parse_line s n) as [[|a k t|a p k t|a p t]|], (parse_line s n') as [[|b k' t'|b p' k' t'|b p' t']|]; try contradiction; try exact L.
    1-3: decompose [and] K; subst; constructor; try exact L; constructor; constructor; exact R.
    constructor; [|constructor]. constructor. constructor.
    + apply HR. right. exists n, n'. split; [left; reflexivity|auto].
    + exists w, w', s. auto.
  - cbn [items]. assert (one_line w) as Ow by (apply O; left; reflexivity).
    rewrite (proj2 (parse_line_blank w n Ow) B). apply IH; auto.
    intros x I; apply O; right; exact I.
  - cbn [items]. assert (one_line w) as Ow by (apply O'; left; reflexivity).
    rewrite (proj2 (parse_line_blank w n' Ow) B). apply IH; auto. intros x I; apply O'; right; exact I.
Qed.
Theorem spacing lib pf evs evs' bs bs' f f' ls ls' e c : delivers evs bs f -> delivers evs' bs' f' ->
  contents bs f ls e -> contents bs' f' ls' e -> respaced 1 1 c ls ls' ->
  catalogue_sim (corresponding c) indented (read_catalogue lib pf evs) (read_catalogue lib pf evs').
Proof.
  intros D D' C C' R. eapply lsim_catalogue; [intros s; exists [], [], s; split; [intros c' I; destruct I|split; [intros c' I; destruct I|auto]]|exact D|exact D'|exact C|exact C'|].
  apply respaced_lsim with (c := c); auto.
  - exact (contents_one_line _ _ _ _ C).
  - exact (contents_one_line _ _ _ _ C').
Qed.

(** * The iterator *)
Lemma po_next_none r r' : po_next r = (Val None, r') -> r' = r /\ rd_next_unit r = None.
Proof.
  unfold po_next. destruct (rd_next_unit r) as [[u|e]|] eqn:EU; try discriminate.
  - pose proof (next_unit_keeps false r) as K. destruct (next_unit false r) as [[x|] r1]; [|discriminate].
    cbn in K. rewrite K, EU. discriminate.
  - intros [= <-]. auto.
Qed.
Lemma nth_call_ended k : forall r, rd_next_unit r = None -> nth_call k r = Val None.
Proof. induction k as [|k IH]; intros r H; cbn [nth_call]; unfold po_next; rewrite H; cbn; auto. Qed.
Theorem fused k : forall r, nth_call k r = Val None -> forall j, (k <= j)%nat -> nth_call j r = Val None.
Proof.
  induction k as [|k IH]; intros r H j L.
  - apply nth_call_ended. cbn [nth_call] in H. destruct (po_next r) as [x r'] eqn:E. cbn in H. subst x. exact (proj2 (po_next_none _ _ E)).
  - destruct j as [|j]; [lia|]. cbn [nth_call] in *. apply IH; [exact H|lia].
Qed.
Theorem error_last k : forall r e, nth_call k r = Val (Some (UErr e)) -> forall j, (k < j)%nat -> nth_call j r = Val None.
Proof.
  induction k as [|k IH]; intros r e H j L.
  - destruct j as [|j]; [lia|]. cbn [nth_call] in *. apply nth_call_ended. unfold po_next in *.
    destruct (rd_next_unit r) as [[u|e']|] eqn:EU; cbn in *; try discriminate; [|reflexivity].
    pose proof (next_unit_keeps false r) as K. destruct (next_unit false r) as [[x|] r1]; [|discriminate].
    cbn in K, H. rewrite K, EU in H. discriminate.
  - destruct j as [|j]; [lia|]. cbn [nth_call] in *. eapply IH; [exact H|lia].
Qed.
Theorem nth_call_no_panic k : forall r, nth_call k r <> Crash.
Proof. induction k as [|k IH]; intros r; cbn [nth_call]; [apply po_next_no_panic|apply IH]. Qed.
(** The items of a catalogue are the results of the calls. *)
Lemma pending_calls l : forall r, pending r l -> forall k, nth_call k r = Val (nth_error l k).
Proof.
  induction l as [|x l IH]; intros r P k; pose proof (po_next_pending r _ P) as H.
  - assert (rd_next_unit r = None) as E by exact (proj2 (po_next_none _ _ H)).
    rewrite nth_call_ended by exact E. destruct k; reflexivity.
  - destruct H as (r' & H & P' & _). destruct k as [|k]; cbn [nth_call nth_error]; rewrite H; cbn; [reflexivity|apply IH, P'].
Qed.
Theorem catalogue_calls lib pf evs c : read_catalogue lib pf evs = Ok c ->
  exists r, po_parse lib pf evs = Ok r /\ forall k, nth_call k r = Val (nth_error (c_items c) k).
Proof.
  unfold read_catalogue, po_parse. pose proof (reader_new_cases lib pf (responses (li_new evs))) as H.
  destruct (reader_new lib pf (responses (li_new evs))) as [r|e|]; try discriminate.
  destruct H as (l & P & Hl & _). rewrite (po_collect_pending _ r l P).
  - intros [= <-]. exists r. split; [reflexivity|]. exact (pending_calls l r P).
  - pose proof (some_count_length (responses (li_new evs))). lia.
Qed.
Theorem read_catalogue_no_panic lib pf evs : read_catalogue lib pf evs <> Panic.
Proof.
  intros E. apply read_catalogue_of in E. inversion E.
Qed.
Theorem parse_failure lib pf evs e : read_catalogue lib pf evs = Err e <-> po_parse lib pf evs = Err e.
Proof.
  unfold read_catalogue. pose proof (read_catalogue_no_panic lib pf evs) as NP. unfold read_catalogue in NP.
  destruct (po_parse lib pf evs) as [r|e'|]; [|split; congruence|congruence].
  destruct (po_collect _ r); split; congruence.
Qed.

(** * The length of the iteration *)
Lemma catalogue_length lib pf ls c : catalogue_of lib pf ls (Ok c) -> (length (c_items c) <= some_count ls)%nat.
Proof.
  intros H. assert (forall forms r l, reads forms r l -> (length l <= some_count r)%nat) as K.
  { intros forms r l R. destruct (reads_total forms r) as (l' & R' & L). rewrite (reads_det _ _ _ _ R R'). exact L. }
  remember (Ok c) as o eqn:Q. destruct H as [e' r E|r E|u r l1 E M R|u r e' E M F|u r forms l1 E M F R]; try discriminate; injection Q as <-; cbn [c_items length].
  - lia.
  - apply K in R. apply runit_count_first in E; [lia|exact M].
  - apply K in R. pose proof (runit_suffix None true ls) as S. rewrite E in S. apply suffix_some_count in S. cbn [snd] in S. lia.
Qed.
Lemma blank_line_iff s : blank_line s = true <-> blanks s.
Proof.
  unfold blank_line, blanks, white. rewrite forallb_forall. split; intros H c I; specialize (H c I).
  - apply existsb_exists in H as (x & Ix & E). apply N.eqb_eq in E. subst. exact Ix.
  - apply existsb_exists. exists c. split; [exact H|apply N.eqb_refl].
Qed.
Lemma responses_fuel_length fuel : forall it, (length (responses_fuel fuel it) <= fuel)%nat.
Proof.
  induction fuel as [|fuel IH]; intros it; cbn [responses_fuel]; [apply le_n|].
  destruct (li_done it); [cbn; lia|]. destruct (li_next it) as [r it']. cbn [length]. specialize (IH it'). lia.
Qed.
Theorem iteration_bounded_any lib pf evs c : read_catalogue lib pf evs = Ok c -> (length (c_items c) <= S (events_size evs))%nat.
Proof.
  intros H. apply read_catalogue_of, catalogue_length in H. pose proof (some_count_length (responses (li_new evs))).
  pose proof (responses_fuel_length (S (li_size (li_new evs))) (li_new evs)) as L. fold (responses (li_new evs)) in L.
  exact (Nat.le_trans _ _ _ H (Nat.le_trans _ _ _ H0 L)).
Qed.

(** * Byte order mark *)
Lemma first_line_bad lib pf evs bs f s ls e : delivers evs bs f -> contents bs f (s :: ls) e -> parse_line s 1 = None ->
  read_catalogue lib pf evs = Err (EParse 2 s []).
Proof.
  intros D C P. apply (catalogue_contents lib pf _ _ _ _ _ _ D C). cbn [items]. rewrite P.
  eapply co_err. reflexivity.
Qed.
Theorem byte_order_mark lib pf evs bs f : delivers evs (utf8 [65279] ++ bs) f ->
  (exists s, read_catalogue lib pf evs = Err (EParse 2 (65279 :: s) [])) \/ (exists e, read_catalogue lib pf evs = Err (EIo 1 e)).
Proof.
  intros D. destruct (contents_total (utf8 [65279] ++ bs) f) as (ls & e & C).
  destruct ls as [|s ls].
  - destruct e as [e|].
    + right. exists e. apply (catalogue_contents lib pf _ _ _ _ _ _ D C). eapply co_err. reflexivity.
    + exfalso. remember (utf8 [65279] ++ bs) as b eqn:B. inversion C; subst; discriminate.
  - left. assert (one_line s) as O by (apply (contents_one_line _ _ _ _ C); left; reflexivity).
    assert (exists s', s = 65279 :: s') as (s' & ->).
    { remember (utf8 [65279] ++ bs) as b eqn:B. remember (s :: ls) as l eqn:L.
      assert (scalars [65279]) as SB by (intros c [<-|[]]; right; split; reflexivity || (intros X; discriminate)).
      destruct C as [|s1 Hn Hl Hs|l1 Hl Hb|l1 code Hl|s1 t bs' f0 ls0 e0 Hl Hs Ht C|l1 bs' f0 Hl Hb]; try discriminate; injection L as <- EL.
      - symmetry in B. destruct (utf8_prefix [65279] s1 bs SB Hs B) as (z & -> & _). exists z; reflexivity.
      - assert (~ In 10 (utf8 [65279])) as N10 by (intros I; repeat (destruct I as [I|I]; [discriminate|]); exact I).
        destruct Ht as [Hc|]; symmetry in B.
        + destruct (app_no_first 10 _ _ _ _ N10 B) as (r' & E'). symmetry in E'.
          destruct (utf8_prefix [65279] s1 r' SB Hs E') as (z & -> & _). exists z; reflexivity.
        + change ([13; 10] ++ bs') with ([13] ++ 10 :: bs') in B. rewrite app_assoc in B.
          destruct (app_no_first 10 _ _ _ _ N10 B) as (r' & E').
          assert (utf8 (s1 ++ [13]) = utf8 s1 ++ [13]) as U by (rewrite utf8_app_ascii by reflexivity; reflexivity).
          assert (utf8 [65279] ++ r' = utf8 (s1 ++ [13])) as E2 by (etransitivity; [symmetry; exact E'|symmetry; exact U]).
          assert (scalars (s1 ++ [13])) as Hs3. { apply scalars_app. split; [exact Hs|]. intros c [<-|[]]. left. reflexivity. }
          destruct (utf8_prefix [65279] (s1 ++ [13]) r' SB Hs3 E2) as (z & Ez & _).
          destruct s1 as [|c s1]; cbn [app] in Ez; injection Ez as Ez _; [discriminate|]. subst. eauto. }
    exists s'. apply (first_line_bad lib pf _ _ _ _ _ _ D C). apply (bad_first_char [] 65279 s' 1).
    + intros c [].
    + exact O.
    + apply is_ws_not_white. reflexivity.
    + intros I. repeat (destruct I as [I|I]; [discriminate|]). exact I.
Qed.

(** * Truncation at an arbitrary place *)
Lemma reads_cut_two forms i ls u0 : reads forms ls u0 -> forall c, ls = c ++ [Some i] -> forall l0 y z, u0 = l0 ++ [y; z] ->
  forall x, exists rest, reads forms (c ++ x) (l0 ++ rest).
Proof.
  assert (forall c l x, [] = l -> exists rest, reads forms (c ++ x) (l ++ rest)) as K0.
  { intros c l x <-. destruct (reads_total forms (c ++ x)) as (rest & Hr & _). exists rest; exact Hr. }
  induction 1 as [ls r E|ls e r E|ls u r l1 E R IH]; intros c -> l0 y z L x.
  - destruct l0; discriminate.
  - destruct l0 as [|a l0]; [discriminate|]. injection L as _ L. destruct l0; discriminate.
  - destruct l0 as [|a l0]; [apply K0; reflexivity|]. injection L as <- ->.
    pose proof (runit_suffix forms false (c ++ [Some i])) as S. rewrite E in S. cbn [snd] in S.
    apply suffix_snoc in S as [->|(c2 & -> & S2)].
    + exfalso. assert (reads forms [] []) as R0 by (eapply reads_end; reflexivity).
      pose proof (reads_det _ _ _ _ R R0) as X. destruct l0; discriminate.
    + destruct c2 as [|b c2].
      * exfalso. apply reads_one_line in R. rewrite app_length in R. cbn in R. lia.
      * destruct (IH (b :: c2) eq_refl l0 y z eq_refl x) as (rest & Hr). exists rest. cbn [app].
        refine (reads_unit _ _ _ _ _ _ Hr). exact (runit_local forms false c [Some i] _ (b :: c2) ltac:(discriminate) E _).
Qed.
Lemma catalogue_cut_two lib pf c i a b p t l0 y z :
  catalogue_of lib pf (c ++ [Some i]) (Ok (Catalogue a b p t (l0 ++ [y; z]))) -> l0 <> [] ->
  forall x, exists rest, catalogue_of lib pf (c ++ x) (Ok (Catalogue a b p t (l0 ++ rest))).
Proof.
  intros H NL x.
  assert (forall forms l, reads forms [] l -> l = []) as R0.
  { intros forms l0' R. eapply reads_det; [exact R|]. eapply reads_end; reflexivity. }
  remember (Ok (Catalogue a b p t (l0 ++ [y; z]))) as o eqn:Q.
  destruct H as [e' r E|r E|u r l1 E M R|u r e' E M F|u r forms l1 E M F R]; try discriminate.
  - injection Q as <- <- <- <- Q. destruct l0; discriminate.
  - injection Q as <- <- <- <- Q. destruct l0 as [|d l0]; [contradiction|]. injection Q as <- ->.
    pose proof (runit_suffix None true (c ++ [Some i])) as S. rewrite E in S. cbn [snd] in S.
    apply suffix_snoc in S as [->|(c2 & -> & S2)]; [apply R0 in R; destruct l0; discriminate|].
    destruct c2 as [|b c2]; [exfalso; apply reads_one_line in R; rewrite app_length in R; cbn in R; lia|].
    destruct (reads_cut_two _ _ _ _ R (b :: c2) eq_refl l0 y z eq_refl x) as (rest & Hr). exists rest.
    eapply co_plain; [|exact M|exact Hr]. exact (runit_local None true c [Some i] _ (b :: c2) ltac:(discriminate) E _).
  - injection Q as <- <- <- <- ->.
    pose proof (runit_suffix None true (c ++ [Some i])) as S. rewrite E in S. cbn [snd] in S.
    apply suffix_snoc in S as [->|(c2 & -> & S2)]; [apply R0 in R; destruct l0; discriminate|].
    destruct c2 as [|b c2]; [exfalso; apply reads_one_line in R; rewrite app_length in R; destruct l0; [contradiction|cbn in R; lia]|].
    destruct (reads_cut_two _ _ _ _ R (b :: c2) eq_refl l0 y z eq_refl x) as (rest & Hr). exists rest.
    eapply co_header; [|exact M|exact F|exact Hr]. exact (runit_local None true c [Some i] _ (b :: c2) ltac:(discriminate) E _).
Qed.
Theorem stream_cut_two lib pf evs evs' bs1 bs2 f f' l0 y z : delivers evs bs1 f -> delivers evs' (bs1 ++ bs2) f' ->
  delivered (read_catalogue lib pf evs) = l0 ++ [y; z] -> exists rest, delivered (read_catalogue lib pf evs') = l0 ++ rest.
Proof.
  intros D D' HD. destruct (contents_total bs1 f) as (ls & e1 & C). destruct (contents_total (bs1 ++ bs2) f') as (ls' & e' & C').
  assert (forall o', delivered o' = l0 ++ [y; z] -> exists rest, delivered o' = l0 ++ rest) as TR by eauto.
  pose proof (proj1 (catalogue_contents lib pf _ _ _ _ _ _ D C) eq_refl) as H.
  pose proof (proj1 (catalogue_contents lib pf _ _ _ _ _ _ D' C') eq_refl) as H'.
  set (o := read_catalogue lib pf evs) in *. set (o' := read_catalogue lib pf evs') in *.
  assert (e1 <> None -> exists rest, delivered o' = l0 ++ rest) as KE.
  { intros NE. destruct e1 as [e1|]; [|contradiction].
    destruct (items_fail 1 ls e1) as (c & x & E & Cc & Sc & Kc & K). rewrite E in H.
    assert ((exists y, items 1 ls' e' = c ++ y)) as HY.
    { destruct (contents_cut _ _ _ _ C _ _ _ _ C') as [(H0 & _)|[(_ & -> & ->)|[(_ & more & ->)|(H0 & _)]]]; try discriminate.
      - rewrite E. eauto.
      - destruct K as [[K1 K2]|K]; [|rewrite K, E; eauto].
        destruct (items_app ls 1) as [[_ HA]|((c0 & x0 & E0 & _) & _)].
        + rewrite HA, K1. eauto.
        + exfalso. rewrite K1 in E0. apply (Cc x0). rewrite E0. apply in_or_app; right; left; reflexivity. }
    destruct HY as (y0 & HY). rewrite HY in H'.
    destruct (catalogue_fail lib pf c x o Sc Cc Kc H) as [Eo|[(a & b & p & t & us & Eo & HX)|[HE HX]]].
    - rewrite Eo in HD. destruct l0; discriminate.
    - rewrite Eo in HD. cbn in HD. change (l0 ++ [y; z]) with (l0 ++ [y] ++ [z]) in HD. rewrite app_assoc in HD.
      apply app_inj_tail in HD as [HD _]. destruct (HX y0) as (rest & Hr).
      rewrite (catalogue_of_det _ _ _ _ _ H' Hr). exists ([y] ++ rest). cbn [delivered c_items]. rewrite HD. rewrite <- app_assoc. reflexivity.
    - apply TR. rewrite (catalogue_of_det _ _ _ _ _ H' (HX y0)). exact HD. }
  assert (forall x c, catalogue_of lib pf c o -> catalogue_of lib pf (c ++ x) o' -> exists rest, delivered o' = l0 ++ rest) as K1.
  { intros x c Hc Hx. change (l0 ++ [y; z]) with (l0 ++ [y] ++ [z]) in HD. rewrite app_assoc in HD.
    destruct (delivered_cut lib pf c (c ++ x) o o' (l0 ++ [y]) z Hc Hx) as (rest & Er).
    - intros a b p t Eo N. rewrite Eo in Hc. exact (catalogue_cut lib pf _ _ _ _ _ _ _ Hc N _).
    - exact HD.
    - exists ([y] ++ rest). rewrite app_assoc. exact Er. }
  destruct (contents_cut _ _ _ _ C _ _ _ _ C') as [(H0 & more & ->)|[(H0 & _)|[(H0 & _)|(H0 & ls0 & s & more & -> & Os & -> & Hm)]]]; eauto.
  - subst e1. destruct (items_app ls 1) as [[_ HA]|(_ & HA)].
    + rewrite HA in H'. exact (K1 _ _ H H').
    + rewrite HA in H'. apply TR. rewrite (catalogue_of_det _ _ _ _ _ H' H). exact HD.
  - subst e1. destruct (items_app ls0 1) as [[Cl HI]|(_ & HI)].
    2: { rewrite HI in H, H'. apply TR. rewrite (catalogue_of_det _ _ _ _ _ H' H). exact HD. }
    rewrite HI in H, H'. set (n := 1 + N.of_nat (length ls0)) in *.
    assert (items n [s] None = [] \/ exists i, items n [s] None = [Some i]) as [E|(i & E)].
    { cbn [items]. destruct (parse_line s n) as [[| | |]|]; eauto. }
    + rewrite E, app_nil_r in H. exact (K1 _ _ H H').
    + rewrite E in H. destruct l0 as [|d l0]; [eexists; reflexivity|].
      assert (exists a b p t, o = Ok (Catalogue a b p t ((d :: l0) ++ [y; z]))) as (a & b & p & t & Eo).
      { destruct o as [[a b p t l]|e|]; try discriminate. cbn in HD. rewrite HD. eauto. }
      rewrite Eo in H. destruct (catalogue_cut_two lib pf _ _ _ _ _ _ _ _ _ H ltac:(discriminate) (items n more e')) as (rest & Hr).
      rewrite (catalogue_of_det _ _ _ _ _ H' Hr). exists rest. reflexivity.
Qed.
Theorem cut_inside_line : exists bs1 bs2 x y,
  delivered (read_catalogue demo_lib demo_pf [RdData bs1]) = [x; y]
  /\ forall rest, delivered (read_catalogue demo_lib demo_pf [RdData (bs1 ++ bs2)]) <> x :: rest.
Proof.
  exists (utf8 (lit "msgid ""a""") ++ [10] ++ utf8 (lit "msgstr ""b""") ++ [10] ++ utf8 (lit "msgstr ""x""")), (utf8 (lit " junk")).
  do 2 eexists. split; [vm_compute; reflexivity|]. intros rest. vm_compute. discriminate.
Qed.
