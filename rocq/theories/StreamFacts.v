(** Streams that fail or end early; line ends and spacing. *)
From Coq Require Import String Arith NArith ZArith Bool List Lia.
From Verif Require Import ModelBase ModelUtf8 ModelLine ModelFormula ModelData ModelSource ModelReader
  SpecLine SpecSource SpecReader BaseFacts LineFacts LineThms SourceFacts IterFacts ReaderFacts ReadsFacts
  CatalogueFacts LocalFacts CutFacts.
Import ListNotations.
Local Open Scope N_scope.

(** * The lines of a cut stream *)
Lemma utf8_prefix s : forall s2 r, scalars s -> scalars s2 -> utf8 s ++ r = utf8 s2 -> exists z, s2 = s ++ z /\ utf8 z = r.
Proof.
  induction s as [|c s IH]; intros s2 r Hs H2 E; [exists s2; split; [reflexivity|symmetry; exact E]|].
  apply scalars_cons in Hs as [Hc Hs]. pose proof (decode_utf8 s2 H2) as D. rewrite <- E in D.
  cbn [utf8 flat_map] in D. rewrite <- app_assoc in D. rewrite decode_char in D by exact Hc.
  apply option_map_some in D as (s3 & D & ->). apply utf8_decode_iff in D as [H3 E3].
  destruct (IH s3 r Hs H3 E3) as (z & -> & Ez). exists z. split; [reflexivity|exact Ez].
Qed.
Lemma app_no_first {A} (a : A) p r q t : ~ In a p -> p ++ r = q ++ a :: t -> exists r', q = p ++ r'.
Proof.
  revert q. induction p as [|x p IH]; intros q N E; [exists q; reflexivity|].
  destruct q as [|y q]; cbn [app] in E; injection E as -> E; [exfalso; apply N; left; reflexivity|].
  destruct (IH q) as (r' & ->); [intros I; apply N; right; exact I|exact E|]. exists r'; reflexivity.
Qed.
Lemma in_lf_utf8 s : one_line s -> ~ In 10 (utf8 s).
Proof. intros H I. apply H. apply (utf8_in_ascii 10 s); [reflexivity|exact I]. Qed.

Lemma contents_snoc_line s t bs f ls e ls' e' : one_line s -> scalars s -> eol s t ->
  contents (utf8 s ++ t ++ bs) f ls' e' -> contents bs f ls e -> ls' = s :: ls /\ e' = e.
Proof.
  intros H1 H2 H3 C C'. assert (contents (utf8 s ++ t ++ bs) f (s :: ls) e) as C2 by (apply ct_line; assumption).
  exact (contents_det _ _ _ _ C _ _ C2).
Qed.

Theorem contents_cut bs1 f1 ls e1 : contents bs1 f1 ls e1 -> forall bs2 f ls' e', contents (bs1 ++ bs2) f ls' e' ->
  (e1 = None /\ exists more, ls' = ls ++ more)
  \/ (e1 <> None /\ ls' = ls /\ e' = e1)
  \/ (e1 <> None /\ exists more, ls' = ls ++ more)
  \/ (e1 = None /\ exists ls0 s more, ls = ls0 ++ [s] /\ one_line s /\ ls' = ls0 ++ more /\
      match more with
      | [] => e' <> None
      | s' :: _ => one_line s' /\ ((exists z, s' = s ++ z) \/ s = s' ++ [13])
      end).
Proof.
  induction 1 as [|s Hn Hl Hs|l Hl Hb|l code Hl|s t bs f0 ls e Hl Hs Ht C IH|l bs f0 Hl Hb]; intros bs2 f ls' e' C'.
  - left. split; [reflexivity|]. exists ls'. reflexivity.
  - right; right; right. split; [reflexivity|]. exists [], s, ls'. split; [reflexivity|]. split; [exact Hl|]. split; [reflexivity|].
    pose proof (in_lf_utf8 s Hl) as N10.
    remember (utf8 s ++ bs2) as b eqn:E. destruct C' as [|s2 Hn2 Hl2 Hs2|l2 Hl2 Hb2|l2 code Hl2|s2 t2 bs' f' ls2 e2 Hl2 Hs2 Ht2 C2|l2 bs' f' Hl2 Hb2]; try discriminate.
    + symmetry in E. apply app_eq_nil in E as [E _]. apply utf8_nil in E. contradiction.
    + symmetry in E. destruct (utf8_prefix s s2 bs2 Hs Hs2 E) as (z & -> & _). split; [exact Hl2|]. left. exists z; reflexivity.
    + split; [exact Hl2|]. destruct Ht2 as [Hc|].
      * symmetry in E. destruct (app_no_first 10 _ _ _ _ N10 E) as (r' & E').
        symmetry in E'. destruct (utf8_prefix s s2 r' Hs Hs2 E') as (z & -> & _). left; exists z; reflexivity.
      * symmetry in E. change ([13; 10] ++ bs') with ([13] ++ 10 :: bs') in E. rewrite app_assoc in E.
        destruct (app_no_first 10 _ _ _ _ N10 E) as (r' & E').
        assert (utf8 (s2 ++ [13]) = utf8 s2 ++ [13]) as U by (rewrite utf8_app_ascii by reflexivity; reflexivity).
        assert (utf8 s ++ r' = utf8 (s2 ++ [13])) as E2 by (etransitivity; [symmetry; exact E'|symmetry; exact U]).
        assert (scalars (s2 ++ [13])) as Hs3. { apply scalars_app. split; [exact Hs2|]. intros c [<-|[]]. left. reflexivity. }
        destruct (utf8_prefix s (s2 ++ [13]) r' Hs Hs3 E2) as (z & Ez & _).
        destruct z as [|y z] using rev_ind.
        -- right. rewrite app_nil_r in Ez. symmetry; exact Ez.
        -- left. rewrite app_assoc in Ez. apply app_inj_tail in Ez as [-> _]. exists z; reflexivity.
  - right; right; left. split; [discriminate|]. exists ls'; reflexivity.
  - right; right; left. split; [discriminate|]. exists ls'; reflexivity.
  - rewrite <- !app_assoc in C'. destruct (contents_total (bs ++ bs2) f) as (ls2 & e2 & C2).
    destruct (contents_snoc_line _ _ _ _ _ _ _ _ Hl Hs Ht C' C2) as [-> ->].
    destruct (IH _ _ _ _ C2) as [(H & more & ->)|[(H & -> & ->)|[(H & more & ->)|(H & ls0 & s0 & more & -> & Ho & -> & Hm)]]].
    + left. split; [exact H|]. exists more; reflexivity.
    + right; left. auto.
    + right; right; left. split; [exact H|]. exists more; reflexivity.
    + right; right; right. split; [exact H|]. exists (s :: ls0), s0, more. auto.
  - right; left. split; [discriminate|]. rewrite <- app_assoc in C'. cbn [app] in C'.
    assert (contents (l ++ 10 :: bs ++ bs2) f [] (Some IoInvalidUtf8)) as C2 by (apply ct_bad; assumption).
    destruct (contents_det _ _ _ _ C' _ _ C2) as [-> ->]. auto.
Qed.
Lemma contents_fail_error bs code ls e : contents bs (Some code) ls e -> e <> None.
Proof. remember (Some code) as f. induction 1; subst; try discriminate; auto. Qed.
Lemma contents_one_line bs f ls e : contents bs f ls e -> forall s, In s ls -> one_line s.
Proof.
  induction 1 as [|s Hn Hl Hs|l Hl Hb|l code Hl|s t bs f0 ls e Hl Hs Ht C IH|l bs f0 Hl Hb]; intros s0 I; try destruct I as [<-|I]; auto; destruct I.
Qed.

Lemma contents_nil_lines f ls e : contents [] f ls e -> ls = [].
Proof.
  remember [] as b0 eqn:B0. intros C0. destruct C0 as [|s1 Hn Hl Hs|l1 Hl Hb|l1 code Hl|s1 t bs f0 ls0 e0 Hl Hs Ht C|l1 bs f0 Hl Hb]; try reflexivity.
  - apply utf8_nil in B0; contradiction.
  - destruct Ht; destruct (utf8 s1); discriminate.
Qed.

(** * The items of consecutive lines *)
Lemma items_solid ls e : forall n, solid (items n ls e).
Proof.
  induction ls as [|l ls IH]; intros n; cbn [items].
  - destruct e; intros I; [destruct I as [I|[]]; discriminate|destruct I].
  - destruct (parse_line l n) as [[| | |]|]; try apply IH; intros [I|I]; try discriminate; try (exact (IH _ I)). destruct I.
Qed.
Lemma items_app ls : forall n,
  (clear (items n ls None) /\ forall more e, items n (ls ++ more) e = items n ls None ++ items (n + N.of_nat (length ls)) more e)
  \/ ((exists c e, items n ls None = c ++ [Some (IFail e)] /\ clear c /\ solid c /\ clean c) /\ forall more e, items n (ls ++ more) e = items n ls None).
Proof.
  induction ls as [|l ls IH]; intros n.
  - left. split; [intros e []|]. intros more e. cbn. rewrite N.add_0_r. reflexivity.
  - cbn [items app length]. destruct (IH (n + 1)) as [[C H]|((c & e0 & E & C & S & K) & H)].
    + assert (forall more e, items (n + 1) (ls ++ more) e = items (n + 1) ls None ++ items (n + N.of_nat (S (length ls))) more e) as H'.
      { intros more e. rewrite H. f_equal. f_equal. lia. }
      destruct (parse_line l n) as [[| | |]|].
      1-4: left; split; [first [exact C|apply clear_cons; [discriminate|exact C]]|intros more e; rewrite H'; reflexivity].
      right. split; [|intros; reflexivity]. exists [], (EParse (n + 1) l []). split; [reflexivity|]. split; [intros e []|]. split; intros [].
    + right. split; [|intros more e; rewrite H; destruct (parse_line l n) as [[| | |]|]; reflexivity].
      destruct (parse_line l n) as [[|n0 k0 s0|n0 p0 t0 s0|n0 p0 s0]|].
      1: exists c, e0; auto.
      4: exists [], (EParse (n + 1) l []); split; [reflexivity|]; split; [intros e []|]; split; intros [].
      all: eexists (_ :: c), e0; rewrite E; split; [reflexivity|]; split; [apply clear_cons; [discriminate|exact C]|]; split;
        [intros [I|I]; [discriminate|exact (S I)]|apply clean_cons; split; [discriminate|exact K]].
Qed.
Lemma items_fail n ls e : exists c x, items n ls (Some e) = c ++ [Some (IFail x)] /\ clear c /\ solid c /\ clean c
  /\ ((items n ls None = c /\ x = EIo (n + N.of_nat (length ls)) e) \/ forall more e', items n (ls ++ more) e' = items n ls (Some e)).
Proof.
  destruct (items_app ls n) as [[C H]|((c & x & E & C & S & K) & H)].
  - exists (items n ls None), (EIo (n + N.of_nat (length ls)) e). specialize (H [] (Some e)). rewrite app_nil_r in H. cbn [items] in H.
    split; [exact H|]. split; [exact C|]. split; [apply items_solid|]. split; [apply items_clean|]. left; auto.
  - exists c, x. pose proof (H [] (Some e)) as H0. rewrite app_nil_r in H0. split; [congruence|]. split; [exact C|]. split; [exact S|]. split; [exact K|].
    right. intros more e'. rewrite H. congruence.
Qed.

Lemma units_map us : units (map UOk us) = us.
Proof. induction us as [|u us IH]; cbn; [reflexivity|]. f_equal; exact IH. Qed.
Lemma units_app a b : units (a ++ b) = units a ++ units b.
Proof. apply flat_map_app. Qed.
Lemma begins_refl o : begins o o.
Proof. intros c ->. exists c, []. split; [reflexivity|]. split; [repeat split|]. rewrite app_nil_r; reflexivity. Qed.
Lemma catalogue_of_fail_begins lib pf c x o ls o' : solid c -> clear c -> clean c ->
  catalogue_of lib pf (c ++ [Some (IFail x)]) o -> (exists y, ls = c ++ y) -> catalogue_of lib pf ls o' ->
  (ends_with_error o x /\ begins o o') \/ ((exists x', ends_with_error o x') /\ o = o').
Proof.
  intros S C K H (y & ->) H'. destruct (catalogue_fail lib pf c x o S C K H) as [->|[(a & b & p & t & us & -> & HX)|[HE HX]]].
  - left. split; [left; reflexivity|]. intros c0; discriminate.
  - left. split; [right; exists (Catalogue a b p t (map UOk us ++ [UErr x])), us; auto|]. intros c0 [= <-]. destruct (HX y) as (rest & Hr).
    rewrite (catalogue_of_det _ _ _ _ _ H' Hr). exists (Catalogue a b p t (map UOk us ++ rest)), (units rest).
    split; [reflexivity|]. split; [repeat split|]. cbn [c_items]. rewrite !units_app, !units_map. cbn. rewrite app_nil_r. reflexivity.
  - right. split; [|symmetry; exact (catalogue_of_det _ _ _ _ _ H' (HX y))].
    destruct HE as [(e' & ->)|(a & b & p & t & us & e' & ->)]; exists e'; [left; reflexivity|right; do 2 eexists; split; reflexivity].
Qed.

(** * A failing stream *)
Theorem stream_failure lib pf evs evs' bs1 bs2 code f : delivers evs bs1 (Some code) -> delivers evs' (bs1 ++ bs2) f ->
  let o := read_catalogue lib pf evs in let o' := read_catalogue lib pf evs' in
  (exists n e, ends_with_error o (EIo n e) /\ begins o o') \/ ((exists e, ends_with_error o e) /\ o = o').
Proof.
  intros D D' o o'. destruct (contents_total bs1 (Some code)) as (ls & e1 & C). destruct (contents_total (bs1 ++ bs2) f) as (ls' & e' & C').
  pose proof (proj1 (catalogue_contents lib pf _ _ _ _ _ o D C) eq_refl) as H.
  pose proof (proj1 (catalogue_contents lib pf _ _ _ _ _ o' D' C') eq_refl) as H'.
  pose proof (contents_fail_error _ _ _ _ C) as NE. destruct e1 as [e1|]; [|contradiction].
  destruct (items_fail 1 ls e1) as (c & x & E & Cc & Sc & Kc & K). rewrite E in H.
  assert ((exists y, items 1 ls' e' = c ++ y) \/ items 1 ls' e' = items 1 ls (Some e1)) as HY.
  { destruct (contents_cut _ _ _ _ C _ _ _ _ C') as [(H0 & _)|[(_ & -> & ->)|[(_ & more & ->)|(H0 & _)]]]; try discriminate.
    - right; reflexivity.
    - destruct K as [[K1 K2]|K].
      + left. destruct (items_app ls 1) as [[_ HA]|((c0 & x0 & E0 & _) & _)].
        * rewrite HA, K1. eauto.
        * exfalso. rewrite K1 in E0. apply (Cc x0). rewrite E0. apply in_or_app; right; left; reflexivity.
      + right. apply K. }
  destruct K as [[K1 ->]|K].
  - assert (exists y, items 1 ls' e' = c ++ y) as HY'.
    { destruct HY as [HY|HY]; [exact HY|]. rewrite HY, E. eauto. }
    destruct (catalogue_of_fail_begins lib pf c _ o _ o' Sc Cc Kc H HY' H') as [[H1 H2]|[H1 H2]]; [left; eauto|right; eauto].
  - right. assert (items 1 ls' e' = c ++ [Some (IFail x)]) as EQ.
    { destruct (contents_cut _ _ _ _ C _ _ _ _ C') as [(H0 & _)|[(_ & -> & ->)|[(_ & more & ->)|(H0 & _)]]]; try discriminate.
      - exact E.
      - rewrite K. exact E. }
    rewrite EQ in H'. pose proof (catalogue_of_det _ _ _ _ _ H H') as EO. split; [|exact EO].
    destruct (catalogue_of_fail_begins lib pf c x o _ o' Sc Cc Kc H (ex_intro _ _ eq_refl) H') as [[H1 H2]|[H1 H2]]; eauto.
Qed.
Lemma ends_with_error_det o e e' : ends_with_error o e -> ends_with_error o e' -> e = e'.
Proof.
  intros [->|(c & us & -> & E)] [H|(c' & us' & H & E')]; try discriminate; [congruence|].
  injection H as <-. rewrite E in E'. apply app_inj_tail in E' as [_ E']. congruence.
Qed.
(** A line that is not UTF-8. *)
Theorem invalid_line lib pf evs bs f ls : delivers evs bs f -> contents bs f ls (Some IoInvalidUtf8) ->
  let o := read_catalogue lib pf evs in
  ends_with_error o (EIo (1 + N.of_nat (length ls)) IoInvalidUtf8)
  \/ ((exists e, ends_with_error o e) /\
      forall evs' bs' f' more e', delivers evs' bs' f' -> contents bs' f' (ls ++ more) e' -> read_catalogue lib pf evs' = o).
Proof.
  intros D C o. pose proof (proj1 (catalogue_contents lib pf _ _ _ _ _ o D C) eq_refl) as H.
  destruct (items_fail 1 ls IoInvalidUtf8) as (c & x & E & Cc & Sc & Kc & K). rewrite E in H.
  destruct K as [[K1 ->]|K].
  - destruct (catalogue_fail lib pf c _ o Sc Cc Kc H) as [->|[(a & b & p & t & us & -> & HX)|[HE HX]]].
    + left; left; reflexivity.
    + left; right; do 2 eexists; split; reflexivity.
    + right. split; [destruct HE as [(e' & ->)|(a & b & p & t & us & e' & ->)]; exists e'; [left; reflexivity|right; do 2 eexists; split; reflexivity]|].
      intros evs' bs' f' more e' D' C'. apply (catalogue_contents lib pf _ _ _ _ _ o D' C').
      destruct (items_app ls 1) as [[_ HA]|((c0 & x0 & E0 & _) & _)].
      * rewrite HA, K1. apply HX.
      * exfalso. rewrite K1 in E0. apply (Cc x0). rewrite E0. apply in_or_app; right; left; reflexivity.
  - right. split.
    + destruct (catalogue_of_fail_begins lib pf c x o _ o Sc Cc Kc H (ex_intro _ _ eq_refl) H) as [[H1 H2]|[H1 H2]]; eauto.
    + intros evs' bs' f' more e' D' C'. apply (catalogue_contents lib pf _ _ _ _ _ o D' C'). rewrite K, E. exact H.
Qed.

(** * A truncated stream *)
Definition quoteless (w : str) : Prop := ~ In 34 w.
Lemma first_quote p r p' r' : quoteless p -> quoteless p' -> p ++ 34 :: r = p' ++ 34 :: r' -> p = p' /\ r = r'.
Proof.
  revert p'. induction p as [|c p IH]; intros [|c' p'] Q Q' E; cbn [app] in E.
  - injection E as ->. auto.
  - injection E as <- _. exfalso; apply Q'; left; reflexivity.
  - injection E as -> _. exfalso; apply Q; left; reflexivity.
  - injection E as -> E2. destruct (IH p') as [-> ->]; [intros I; apply Q; right; exact I|intros I; apply Q'; right; exact I|exact E2|auto].
Qed.
Lemma blanks_quoteless w : blanks w -> quoteless w.
Proof. intros H I. specialize (H _ I). apply is_ws_white in H. discriminate. Qed.
Lemma marker_quoteless m f : marker m f -> quoteless m.
Proof. intros [] I; repeat (destruct I as [I|I]; [discriminate|]); exact I. Qed.
Lemma keyword_quoteless k : keyword k -> quoteless k.
Proof.
  intros K I. apply keyword_chars in K. rewrite forallb_forall in K. specialize (K _ I). unfold kwc in K.
  apply andb_true_iff in K as [_ K]. discriminate.
Qed.
Lemma quoteless_app a b : quoteless a -> quoteless b -> quoteless (a ++ b).
Proof. intros H H' I. apply in_app_or in I as [I|I]; auto. Qed.
Lemma quoted_same_start s s' f k b f' k' b' : quoted_line s f k b -> quoted_line s' f' k' b' ->
  (exists z, s' = s ++ z) \/ s = s' ++ [13] -> f = f' /\ k = k'.
Proof.
  intros (m & w1 & w2 & w3 & w4 & E & M & K & B1 & B2 & B3 & B4 & O) (m' & w1' & w2' & w3' & w4' & E' & M' & K' & B1' & B2' & B3' & B4' & O') R.
  set (P := w1 ++ m ++ w2 ++ opt_str k ++ w3). set (P' := w1' ++ m' ++ w2' ++ opt_str k' ++ w3').
  assert (quoteless P) as Q.
  { unfold P. repeat apply quoteless_app; try (apply blanks_quoteless; assumption); [eapply marker_quoteless, M|].
    destruct k as [k|]; [apply keyword_quoteless, K; reflexivity|intros []]. }
  assert (quoteless P') as Q'.
  { unfold P'. repeat apply quoteless_app; try (apply blanks_quoteless; assumption); [eapply marker_quoteless, M'|].
    destruct k' as [k'|]; [apply keyword_quoteless, K'; reflexivity|intros []]. }
  assert (s = P ++ 34 :: (b ++ [34] ++ w4)) as ES by (rewrite E; unfold P; rewrite <- !app_assoc; reflexivity).
  assert (s' = P' ++ 34 :: (b' ++ [34] ++ w4')) as ES' by (rewrite E'; unfold P'; rewrite <- !app_assoc; reflexivity).
  assert (P = P') as EP.
  { destruct R as [(z & R)|R].
    - rewrite ES, <- app_assoc in R. cbn [app] in R. rewrite ES' in R. symmetry in R. exact (proj1 (first_quote _ _ _ _ Q Q' R)).
    - rewrite ES', <- app_assoc in R. cbn [app] in R. rewrite ES in R. exact (proj1 (first_quote _ _ _ _ Q Q' R)). }
  assert (quoted_line s' f k b') as H1.
  { exists m, w1, w2, w3, w4'. split; [|auto 10]. rewrite ES', <- EP. unfold P. rewrite <- !app_assoc. reflexivity. }
  assert (quoted_line s' f' k' b') as H2 by (exists m', w1', w2', w3', w4'; auto 10).
  destruct (quoted_line_unique _ _ _ _ _ _ _ H1 H2) as (? & ? & _). auto.
Qed.
(** What a cut line and the complete line look like. *)
Lemma cut_line_start s s' n p p' : one_line s -> one_line s' -> (exists z, s' = s ++ z) \/ s = s' ++ [13] ->
  parse_line s n = Some p -> parse_line s' n = Some p' ->
  p = PBlank \/ (exists m k t, p = PComment m k t) \/ same_start p p'.
Proof.
  intros O O' R H H'. apply parse_line_iff in H; [|exact O]. apply parse_line_iff in H'; [|exact O'].
  inversion H as [B EQ|f k b Q EQ|kd ct C NQ EQ|]; subst; [auto| |right; left; do 3 eexists; reflexivity].
  right; right.
  inversion H' as [B' EQ'|f' k' b' Q' EQ'|kd' ct' C' NQ' EQ'|]; subst.
  - exfalso. destruct Q as (m & w1 & w2 & w3 & w4 & E & _).
    assert (In 34 s) as I by (rewrite E; do 5 (apply in_or_app; right); left; reflexivity).
    assert (In 34 s') as I'.
    { destruct R as [(z & ->)| ->]; [apply in_or_app; left; exact I|]. apply in_app_or in I as [I|[I|[]]]; [exact I|discriminate]. }
    specialize (B' _ I'). apply is_ws_white in B'. discriminate.
  - destruct (quoted_same_start _ _ _ _ _ _ _ _ Q Q' R) as [<- <-]. unfold quoted_result. destruct k; constructor.
  - unfold quoted_result. destruct k; constructor.
Qed.

Definition acceptable (s : str) : Prop := parse_line s 0 <> None.
Lemma parse_line_number s n m : one_line s -> parse_line s n = None -> parse_line s m = None.
Proof. intros O H. exact (proj2 (parse_line_none s m O) (proj1 (parse_line_none s n O) H)). Qed.

(** Cut at a line boundary. *)
Lemma delivered_cut lib pf c ls o o' l0 z : catalogue_of lib pf c o -> catalogue_of lib pf ls o' ->
  (forall a b p t, o = Ok (Catalogue a b p t (l0 ++ [z])) -> l0 <> [] ->
     exists rest, catalogue_of lib pf ls (Ok (Catalogue a b p t (l0 ++ rest)))) ->
  delivered o = l0 ++ [z] -> exists rest, delivered o' = l0 ++ rest.
Proof.
  intros H H' HX E. destruct l0 as [|y l0]; [exists (delivered o'); reflexivity|].
  destruct o as [[a b p t l]|e|]; try discriminate. cbn in E. subst l.
  destruct (HX a b p t eq_refl ltac:(discriminate)) as (rest & Hr). rewrite (catalogue_of_det _ _ _ _ _ H' Hr). exists rest. reflexivity.
Qed.
Theorem stream_cut lib pf evs evs' bs1 bs2 f f' ls' e' l0 z : delivers evs bs1 f -> delivers evs' (bs1 ++ bs2) f' ->
  contents (bs1 ++ bs2) f' ls' e' ->
  (bs1 = [] \/ (exists b, bs1 = b ++ [10]) \/ (e' = None /\ forall s, In s ls' -> acceptable s)) ->
  delivered (read_catalogue lib pf evs) = l0 ++ [z] -> exists rest, delivered (read_catalogue lib pf evs') = l0 ++ rest.
Proof.
  intros D D' C' HC HD. destruct (contents_total bs1 f) as (ls & e1 & C).
  pose proof (proj1 (catalogue_contents lib pf _ _ _ _ _ _ D C) eq_refl) as H.
  pose proof (proj1 (catalogue_contents lib pf _ _ _ _ _ _ D' C') eq_refl) as H'.
  set (o := read_catalogue lib pf evs) in *. set (o' := read_catalogue lib pf evs') in *.
  (* e1 <> None *)
  assert (e1 <> None -> exists rest, delivered o' = l0 ++ rest) as KE.
  { intros NE. destruct e1 as [e1|]; [|contradiction].
    destruct (items_fail 1 ls e1) as (c & x & E & Cc & Sc & Kc & K). rewrite E in H.
    assert ((exists y, items 1 ls' e' = c ++ y)) as HY.
    { destruct (contents_cut _ _ _ _ C _ _ _ _ C') as [(H0 & _)|[(_ & -> & ->)|[(_ & more & ->)|(H0 & _)]]]; try discriminate.
      - rewrite E. eauto.
      - destruct K as [[K1 K2]|K]; [|rewrite K, E; eauto].
        destruct (items_app ls 1) as [[_ HA]|((c0 & x0 & E0 & _) & _)].
        + rewrite HA, K1. eauto.
        + exfalso. rewrite K1 in E0. apply (Cc x0). rewrite E0. apply in_or_app; right; left; reflexivity. }
    destruct HY as (y & HY). rewrite HY in H'.
    destruct (catalogue_fail lib pf c x o Sc Cc Kc H) as [Eo|[(a & b & p & t & us & Eo & HX)|[HE HX]]].
    - rewrite Eo in HD. destruct l0; discriminate.
    - rewrite Eo in HD. cbn in HD. apply app_inj_tail in HD as [<- _]. destruct (HX y) as (rest & Hr).
      rewrite (catalogue_of_det _ _ _ _ _ H' Hr). exists rest; reflexivity.
    - rewrite (catalogue_of_det _ _ _ _ _ H' (HX y)). exists [z]. exact HD. }
  (* nothing of the last line is missing *)
  assert ((exists more, ls' = ls ++ more) -> e1 = None -> exists rest, delivered o' = l0 ++ rest) as KA.
  { intros (more & ->) ->. destruct (items_app ls 1) as [[_ HA]|(_ & HA)].
    - rewrite HA in H'. eapply delivered_cut; [exact H|exact H'| |exact HD].
      intros a b p t Eo N. fold o in H. rewrite Eo in H. exact (catalogue_cut lib pf _ _ _ _ _ _ _ H N _).
    - rewrite HA in H'. rewrite (catalogue_of_det _ _ _ _ _ H' H). exists [z]. exact HD. }
  destruct (contents_cut _ _ _ _ C _ _ _ _ C') as [(H0 & more & ->)|[(H0 & _)|[(H0 & _)|(H0 & ls0 & s & more & -> & Os & -> & Hm)]]]; eauto.
  subst e1. destruct HC as [->|[(b & ->)|[-> HA]]].
  - apply KA; [|reflexivity]. assert (ls0 ++ [s] = []) as EL; [|destruct ls0; discriminate].
    exact (contents_nil_lines _ _ _ C).
  - assert (forall bs f ls e, contents bs f ls e -> e = None -> forall b s ls0, bs = b ++ [10] -> ls = ls0 ++ [s] ->
      forall bs2 f' more e', contents (bs ++ bs2) f' (ls0 ++ more) e' -> exists more', more = s :: more') as LEM.
    { clear. induction 1 as [|s Hn Hl Hs|l Hl Hb|l code Hl|s t bs f0 ls e Hl Hs Ht C IH|l bs f0 Hl Hb]; intros EN b s0 ls0 EB EL bs2 f' more e' C'; try discriminate.
      - destruct ls0; discriminate.
      - exfalso. apply (in_lf_utf8 s Hl). rewrite EB. apply in_or_app; right; left; reflexivity.
      - rewrite <- !app_assoc in C'. destruct (contents_total (bs ++ bs2) f') as (ls2 & e2 & C2).
        destruct (contents_snoc_line _ _ _ _ _ _ _ _ Hl Hs Ht C' C2) as [E2 _].
        destruct ls0 as [|y ls0]; cbn [app] in *; injection EL as <- EL.
        + eauto.
        + injection E2 as E2. destruct ls as [|l1 ls]; [destruct ls0; discriminate|].
          assert (exists b', bs = b' ++ [10]) as (b' & ->).
          { destruct bs as [|x bs] using rev_ind; [apply contents_nil_lines in C; discriminate|]. rewrite !app_assoc in EB. apply app_inj_tail in EB as [_ <-]. eauto. }
          rewrite <- E2 in C2. exact (IH EN b' s0 ls0 eq_refl EL _ _ _ _ C2). }
    destruct (LEM _ _ _ _ C eq_refl b s ls0 eq_refl eq_refl _ _ _ _ C') as (more' & ->).
    apply KA; [|reflexivity]. exists more'. rewrite <- app_assoc. reflexivity.
  - destruct more as [|s' more]; [contradiction|]. destruct Hm as [Os' HR].
    pose proof (HA s' ltac:(apply in_or_app; right; left; reflexivity)) as HA'.
    assert (forall n, parse_line s' n <> None) as HA2 by (intros n En; apply HA'; exact (parse_line_number _ _ _ Os' En)).
    destruct (items_app ls0 1) as [[Cl HI]|(_ & HI)].
    2: { rewrite HI in H, H'. rewrite (catalogue_of_det _ _ _ _ _ H' H). exists [z]. exact HD. }
    rewrite HI in H, H'. set (n := 1 + N.of_nat (length ls0)) in *. cbn [items] in H, H'.
    specialize (HA2 n). destruct (parse_line s' n) as [p'|] eqn:P'; [|contradiction]. clear HA HA'.
    destruct (parse_line s n) as [p|] eqn:P.
    + assert (exists p2 x, p = PBlank \/ (exists m k t, p = PComment m k t) \/
         (same_start p p2 /\ match p' with PBlank => items (n + 1) more None | _ => Some (ILine p') :: items (n + 1) more None end = Some (ILine p2) :: x)) as (p2 & x & HS).
      { exists p', (items (n + 1) more None).
        destruct (cut_line_start s s' n p p' Os Os' HR P P') as [->|[HS|HS]]; auto.
        right; right. split; [exact HS|]. inversion HS; reflexivity. }
      destruct HS as [->|[(m & k & t & ->)|[HS EX]]].
      * rewrite app_nil_r in H. eapply delivered_cut; [exact H|exact H'| |exact HD].
        intros a b0 p0 t Eo N. rewrite Eo in H. exact (catalogue_cut lib pf _ _ _ _ _ _ _ H N _).
      * eapply delivered_cut; [exact H|exact H'| |exact HD].
        intros a b0 p0 t0 Eo N. rewrite Eo in H. exact (catalogue_cut_comment lib pf _ _ _ _ _ _ _ _ _ _ H N _).
      * rewrite EX in H'. eapply delivered_cut; [exact H|exact H'| |exact HD].
        intros a b0 p0 t0 Eo N. rewrite Eo in H. apply (catalogue_cut_line p p2 HS x lib pf (items 1 ls0 None) a b0 p0 t0 l0 z); [|exact N].
        inversion HS; subst; exact H.
    + destruct (catalogue_fail lib pf _ _ _ (items_solid ls0 None 1) Cl (items_clean ls0 None 1) H) as [Eo|[(a & b0 & p & t & us & Eo & HX)|[HE HX]]].
      * rewrite Eo in HD. destruct l0; discriminate.
      * rewrite Eo in HD. cbn in HD. apply app_inj_tail in HD as [<- _].
        match type of H' with catalogue_of _ _ (_ ++ ?y) _ => destruct (HX y) as (rest & Hr) end.
        rewrite (catalogue_of_det _ _ _ _ _ H' Hr). exists rest; reflexivity.
      * rewrite (catalogue_of_det _ _ _ _ _ H' (HX _)). exists [z]. exact HD.
Qed.
