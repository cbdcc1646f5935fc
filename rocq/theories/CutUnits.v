(** Truncation of a file, when what is left is read without an error. *)
From Coq Require Import String Arith NArith ZArith Bool List Lia.
From Verif Require Import ModelBase ModelUtf8 ModelLine ModelFormula ModelData ModelSource ModelReader
  SpecLine SpecSource SpecReader SpecBlock SpecAny BaseFacts LineFacts LineThms SourceFacts IterFacts ReaderFacts ReadsFacts
  CatalogueFacts LocalFacts CutFacts StreamFacts StreamThms BlockFacts BlocksFacts AnyFacts ItemFacts.
Import ListNotations.
Local Open Scope N_scope.

(** One line is no entry. *)
Definition alone (i : item) : Prop := forall forms u r, runit forms false [Some i] <> (Ok (Some u), r).
Lemma line_alone s n i : one_line s -> items n [s] None = [Some i] -> alone i.
Proof.
  intros O E forms u r R. assert (Forall written (kept [Some i])) as W.
  { cbn [items] in E. destruct (parse_line s n) as [l|] eqn:P.
    - destruct l; try discriminate E; injection E as <-; (apply Forall_cons; [|apply Forall_nil]; eapply parse_line_written; [exact O|exact P|discriminate]).
    - injection E as <-. constructor. }
  destruct (runit_any _ _ _ _ _ W R) as (a & Ea & [En|[X _]] & _); [|discriminate].
  apply entry_length in En. assert (length (kept a) <= 1)%nat as L; [|lia].
  assert (length (kept [Some i]) <= 1)%nat as L1 by (destruct i; cbn; lia).
  assert (length (kept a) <= length (kept (a ++ r)))%nat as L2 by (rewrite kept_app, app_length; lia).
  rewrite <- Ea in L2. lia.
Qed.
Lemma alone_reads forms i u : alone i -> ~ reads forms [Some i] [UOk u].
Proof.
  intros A R. remember [Some i] as ls eqn:L. remember [UOk u] as l eqn:E. destruct R as [ls r H|ls e r H|ls v r l1 H R]; subst; try discriminate.
  injection E as -> ->. exact (A _ _ _ H).
Qed.
Lemma reads_cut_unit forms i : alone i -> forall ls u0, reads forms ls u0 -> forall c, ls = c ++ [Some i] -> forall l0 u, u0 = l0 ++ [UOk u] ->
  forall x, exists rest, reads forms (c ++ x) (l0 ++ rest).
Proof.
  intros A ls u0.
  assert (forall c l x, [] = l -> exists rest, reads forms (c ++ x) (l ++ rest)) as K0.
  { intros c l x <-. destruct (reads_total forms (c ++ x)) as (rest & Hr & _). exists rest; exact Hr. }
  induction 1 as [ls r E|ls e r E|ls v r l1 E R IH]; intros c -> l0 u L x.
  - destruct l0; discriminate.
  - destruct l0 as [|a l0]; [discriminate|]. injection L as _ L. destruct l0; discriminate.
  - destruct l0 as [|a l0]; [apply K0; reflexivity|]. injection L as <- ->.
    pose proof (runit_suffix forms false (c ++ [Some i])) as S. rewrite E in S. cbn [snd] in S.
    apply suffix_snoc in S as [->|(c2 & -> & S2)].
    + exfalso. assert (reads forms [] []) as R0 by (eapply reads_end; reflexivity).
      pose proof (reads_det _ _ _ _ R R0) as X. destruct l0; discriminate.
    + destruct c2 as [|b c2].
      * exfalso. cbn [app] in R. pose proof (reads_one_line _ _ _ R) as L1. rewrite app_length in L1. destruct l0; [|cbn in L1; lia].
        exact (alone_reads _ _ _ A R).
      * destruct (IH (b :: c2) eq_refl l0 u eq_refl x) as (rest & Hr). exists rest. cbn [app].
        refine (reads_unit _ _ _ _ _ _ Hr). exact (runit_local forms false c [Some i] _ (b :: c2) ltac:(discriminate) E _).
Qed.
Lemma catalogue_cut_unit lib pf c i a b p t l0 v : alone i ->
  catalogue_of lib pf (c ++ [Some i]) (Ok (Catalogue a b p t (l0 ++ [UOk v]))) -> l0 <> [] ->
  forall x, exists rest, catalogue_of lib pf (c ++ x) (Ok (Catalogue a b p t (l0 ++ rest))).
Proof.
  intros A H NL x.
  assert (forall forms l, reads forms [] l -> l = []) as R0.
  { intros forms l0' R. eapply reads_det; [exact R|]. eapply reads_end; reflexivity. }
  remember (Ok (Catalogue a b p t (l0 ++ [UOk v]))) as o eqn:Q.
  destruct H as [e' r E|r E|u r l1 E M R|u r e' E M F|u r forms l1 E M F R]; try discriminate.
  - injection Q as <- <- <- <- Q. destruct l0; discriminate.
  - injection Q as <- <- <- <- Q. destruct l0 as [|d l0]; [contradiction|]. injection Q as <- ->.
    pose proof (runit_suffix None true (c ++ [Some i])) as S. rewrite E in S. cbn [snd] in S.
    apply suffix_snoc in S as [->|(c2 & -> & S2)]; [apply R0 in R; destruct l0; discriminate|].
    destruct c2 as [|b c2].
    { exfalso. cbn [app] in R. pose proof (reads_one_line _ _ _ R) as L1. rewrite app_length in L1. destruct l0; [|cbn in L1; lia].
      exact (alone_reads _ _ _ A R). }
    destruct (reads_cut_unit _ _ A _ _ R (b :: c2) eq_refl l0 v eq_refl x) as (rest & Hr). exists rest.
    eapply co_plain; [|exact M|exact Hr]. exact (runit_local None true c [Some i] _ (b :: c2) ltac:(discriminate) E _).
  - injection Q as <- <- <- <- ->.
    pose proof (runit_suffix None true (c ++ [Some i])) as S. rewrite E in S. cbn [snd] in S.
    apply suffix_snoc in S as [->|(c2 & -> & S2)]; [apply R0 in R; destruct l0; discriminate|].
    destruct c2 as [|b c2]; [exfalso; apply reads_one_line in R; rewrite app_length in R; destruct l0; [contradiction|cbn in R; lia]|].
    destruct (reads_cut_unit _ _ A _ _ R (b :: c2) eq_refl l0 v eq_refl x) as (rest & Hr). exists rest.
    eapply co_header; [|exact M|exact F|exact Hr]. exact (runit_local None true c [Some i] _ (b :: c2) ltac:(discriminate) E _).
Qed.
Theorem stream_cut_unit lib pf evs evs' bs1 bs2 f f' l0 v : delivers evs bs1 f -> delivers evs' (bs1 ++ bs2) f' ->
  delivered (read_catalogue lib pf evs) = l0 ++ [UOk v] -> exists rest, delivered (read_catalogue lib pf evs') = l0 ++ rest.
Proof.
  intros D D' HD. destruct (contents_total bs1 f) as (ls & e1 & C). destruct (contents_total (bs1 ++ bs2) f') as (ls' & e' & C').
  assert (forall o', delivered o' = l0 ++ [UOk v] -> exists rest, delivered o' = l0 ++ rest) as TR by eauto.
  pose proof (proj1 (catalogue_contents lib pf _ _ _ _ _ _ D C) eq_refl) as H.
  pose proof (proj1 (catalogue_contents lib pf _ _ _ _ _ _ D' C') eq_refl) as H'.
  set (o := read_catalogue lib pf evs) in *. set (o' := read_catalogue lib pf evs') in *.
  assert (e1 <> None -> exists rest, delivered o' = l0 ++ rest) as KE.
  { intros NE. destruct e1 as [e1|]; [|contradiction].
    destruct (items_fail 1 ls e1) as (c & x & E & Cc & Sc & Kc & K). rewrite E in H.
    assert ((exists y, items 1 ls' e' = c ++ y)) as HY.
    { destruct (contents_cut _ _ _ _ C _ _ _ _ C') as [(H0 & _)|[(_ & -> & ->)|[(_ & more & ->)|(H0 & _)]]]; try discriminate.
      - rewrite E. eauto.
      - destruct K as [[K1 K2]|K]; [|rewrite K, E; eauto].
        destruct (items_app ls 1) as [[_ HA]|((c0 & x0 & E0 & _) & _)].
        + rewrite HA, K1. eauto.
        + exfalso. rewrite K1 in E0. apply (Cc x0). rewrite E0. apply in_or_app; right; left; reflexivity. }
    destruct HY as (y0 & HY). rewrite HY in H'.
    destruct (catalogue_fail lib pf c x o Sc Cc Kc H) as [Eo|[(a & b & p & t & us & Eo & HX)|[HE HX]]].
    - rewrite Eo in HD. destruct l0; discriminate.
    - rewrite Eo in HD. cbn in HD. apply app_inj_tail in HD as [_ HD]. discriminate HD.
    - apply TR. rewrite (catalogue_of_det _ _ _ _ _ H' (HX y0)). exact HD. }
  assert (forall x c, catalogue_of lib pf c o -> catalogue_of lib pf (c ++ x) o' -> exists rest, delivered o' = l0 ++ rest) as K1.
  { intros x c Hc Hx. destruct (delivered_cut lib pf c (c ++ x) o o' l0 (UOk v) Hc Hx) as (rest & Er); [|exact HD|eauto].
    intros a b p t Eo N. rewrite Eo in Hc. exact (catalogue_cut lib pf _ _ _ _ _ _ _ Hc N _). }
  destruct (contents_cut _ _ _ _ C _ _ _ _ C') as [(H0 & more & ->)|[(H0 & _)|[(H0 & _)|(H0 & ls0 & s & more & -> & Os & -> & Hm)]]]; eauto.
  - subst e1. destruct (items_app ls 1) as [[_ HA]|(_ & HA)].
    + rewrite HA in H'. exact (K1 _ _ H H').
    + rewrite HA in H'. apply TR. rewrite (catalogue_of_det _ _ _ _ _ H' H). exact HD.
  - subst e1. destruct (items_app ls0 1) as [[Cl HI]|(_ & HI)].
    2: { rewrite HI in H, H'. apply TR. rewrite (catalogue_of_det _ _ _ _ _ H' H). exact HD. }
    rewrite HI in H, H'. set (n := 1 + N.of_nat (length ls0)) in *.
    assert (items n [s] None = [] \/ exists i, items n [s] None = [Some i]) as [E|(i & E)].
    { cbn [items]. destruct (parse_line s n) as [[| | |]|]; eauto. }
    + rewrite E, app_nil_r in H. exact (K1 _ _ H H').
    + rewrite E in H. destruct l0 as [|d l0]; [eexists; reflexivity|].
      assert (exists a b p t, o = Ok (Catalogue a b p t ((d :: l0) ++ [UOk v]))) as (a & b & p & t & Eo).
      { destruct o as [[a b p t l]|e|]; try discriminate. cbn in HD. rewrite HD. eauto. }
      rewrite Eo in H. destruct (catalogue_cut_unit lib pf _ _ _ _ _ _ _ _ (line_alone _ _ _ Os E) H ltac:(discriminate) (items n more e')) as (rest & Hr).
      rewrite (catalogue_of_det _ _ _ _ _ H' Hr). exists rest. reflexivity.
Qed.
