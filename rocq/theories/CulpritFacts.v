(** The line that decides an error. *)
From Coq Require Import String Arith NArith ZArith Bool List Lia.
From Verif Require Import ModelBase ModelUtf8 ModelLine ModelFormula ModelData ModelSource ModelReader
  SpecLine SpecFormula SpecSource SpecReader SpecBlock SpecHeader SpecFile SpecWhole SpecLazy SpecCulprit BaseFacts LineFacts
  BlockFacts BlocksFacts FirstFacts HeaderFacts FileFacts BlockThms EntryThms ErrorFacts IndepFacts WholeFacts FileIntro FlagFacts.
Import ListNotations.
Local Open Scope N_scope.

(** * Lines *)
Lemma parsed_cut A : forall n B e pl tl, parsed n (A ++ B) e pl tl ->
  (forall B' e', parsed n (A ++ B') e' pl tl) \/ exists pa pb, pl = pa ++ pb /\ parsed n A None pa None /\ parsed (n + N.of_nat (length A)) B e pb tl.
Proof.
  induction A as [|s A IH]; intros n B e pl tl P.
  - right. exists [], pl. cbn [length]. rewrite N.add_0_r. repeat split; [constructor|exact P].
  - cbn [app] in P. inversion P as [| |n0 s0 ls e0 O E|n0 s0 ls e0 pl0 tl0 O E P0|n0 s0 l ls e0 pl0 tl0 O E NB P0]; subst.
    + left. intros B' e'. constructor; assumption.
    + destruct (IH _ _ _ _ _ P0) as [L|(pa & pb & -> & Pa & Pb)].
      * left. intros B' e'. cbn [app]. apply ps_blank; auto.
      * right. exists pa, pb. split; [reflexivity|]. split; [apply ps_blank; assumption|]. replace (n + N.of_nat (length (s :: A))) with (n + 1 + N.of_nat (length A)) by (cbn [length]; lia). exact Pb.
    + destruct (IH _ _ _ _ _ P0) as [L|(pa & pb & -> & Pa & Pb)].
      * left. intros B' e'. cbn [app]. apply ps_line; auto.
      * right. exists (l :: pa), pb. split; [reflexivity|]. split; [apply ps_line; assumption|]. replace (n + N.of_nat (length (s :: A))) with (n + 1 + N.of_nat (length A)) by (cbn [length]; lia). exact Pb.
Qed.
Lemma line_of_no s n l : line_of s n l -> l <> PBlank -> po_line_no l = n.
Proof. intros L NB. destruct L; try reflexivity. contradiction. Qed.
Lemma parsed_range n ls e pl tl : parsed n ls e pl tl ->
  (forall l, In l pl -> n <= po_line_no l < n + N.of_nat (length ls)) /\ forall m g w, tl = Some (EParse m g w) -> w = [] /\ n < m <= n + N.of_nat (length ls).
Proof.
  induction 1 as [n|n e|n s ls e O E|n s ls e pl tl O E P [IH IH']|n s l ls e pl tl O E NB P [IH IH']]; cbn [length].
  - split; [intros l []|discriminate].
  - split; [intros l []|discriminate].
  - split; [intros l []|]. intros m g w [= <- <- <-]. split; [reflexivity|lia].
  - split; [intros l H; apply IH in H; lia|]. intros m g w H. apply IH' in H as [-> H]. split; [reflexivity|lia].
  - split; [|intros m g w H; apply IH' in H as [-> H]; split; [reflexivity|lia]]. intros l' [<-|H]; [rewrite (line_of_no _ _ _ E NB); lia|apply IH in H; lia].
Qed.

(** * Meaning *)
Lemma closing_decided forms p tl m g w : closing forms p tl (Some (EParse m g w)) ->
  tl = Some (EParse m g w) \/ exists q l r, p = q ++ l :: r /\ po_line_no l = m /\ w <> [] /\ forall r' tl', closing forms (q ++ l :: r') tl' (Some (EParse m g w)).
Proof.
  remember (Some (EParse m g w)) as o eqn:E. intros H. destruct H as [rest I|rest x G|inc v l r tl0 A NG|cs F N L C obs k ks pc pm c text r tl0 B K En]; try discriminate E.
  - left. reflexivity.
  - right. injection E as <- <- <-. exists inc, l, r. split; [reflexivity|]. split; [reflexivity|]. split; [|intros r' tl'; constructor; assumption].
    intros ->. destruct (awaited_word _ _ _ A) as [H|[H|[H|[]]]]; discriminate.
Qed.
Lemma blocks_decided forms p tl us m g w : blocks forms p tl us (Some (EParse m g w)) ->
  tl = Some (EParse m g w) \/ exists q l r, p = q ++ l :: r /\ po_line_no l = m /\ w <> [] /\ forall r' tl', blocks forms (q ++ l :: r') tl' us (Some (EParse m g w)).
Proof.
  remember (Some (EParse m g w)) as o eqn:E. induction 1 as [rest tl o C|b u r tl us o U En B IH]; subst.
  - destruct (closing_decided _ _ _ _ _ _ C) as [T|(q & l & r & -> & H & W & K)]; [left; exact T|]. right. exists q, l, r. repeat split; auto. intros r' tl'. constructor. apply K.
  - destruct (IH eq_refl) as [T|(q & l & r0 & -> & H & W & K)]; [left; exact T|]. right. exists (b ++ q), l, r0. split; [apply app_assoc|]. split; [exact H|]. split; [exact W|].
    intros r' tl'. rewrite <- app_assoc. constructor; [exact U| |apply K]. destruct q; exact En.
Qed.
Lemma first_entry_head h q l r r' tl tl' u : first_entry h (q ++ l :: r) tl u -> first_entry h (q ++ l :: r') tl' u.
Proof. intros [E H|E H]; [apply fe_entry|apply fe_headless]; try assumption; destruct q; exact H. Qed.
Lemma whole_decided lib pf pl tl o m g w : whole lib pf pl tl o -> ends_with_error o (EParse m g w) ->
  tl = Some (EParse m g w) \/ exists q l r, pl = q ++ l :: r /\ po_line_no l = m /\ w <> [] /\ forall r' tl', whole lib pf (q ++ l :: r') tl' o.
Proof.
  assert (X : forall c us o', c_items c = map UOk us ++ error_item o' -> ends_with_error (Ok c) (EParse m g w) -> o' = Some (EParse m g w)).
  { intros c us o' Ei [E|(c0 & vs & [= <-] & E)]; [discriminate|]. rewrite Ei in E. destruct o' as [x|]; cbn [error_item] in E.
    - apply app_inj_tail in E as [_ [= ->]]. reflexivity.
    - exfalso. rewrite app_nil_r in E. assert (In (UErr (EParse m g w)) (map UOk us)) as I by (rewrite E; apply in_or_app; right; left; reflexivity).
      apply in_map_iff in I as (? & ? & _). discriminate. }
  assert (Y : forall x, ends_with_error (Err x) (EParse m g w) -> x = EParse m g w).
  { intros x [[= ->]|(c & us & E & _)]; [reflexivity|discriminate]. }
  intros [c T H N Ei|e T G|inc v l r -> A NW NG|u us o' c B N Ei|h u ps r forms us o' c -> Fe H HF B S Ei|h u ps r x -> Fe H HE] En.
  - apply (X c [] None) in En; [discriminate|exact Ei].
  - apply Y in En as ->. left. exact T.
  - apply Y in En. injection En as <- <- <-. right. exists inc, l, r. split; [reflexivity|]. split; [reflexivity|]. split.
    + intros ->. destruct (awaited_word _ _ _ A) as [E|[E|[E|[]]]]; discriminate.
    + intros r' tl'. eapply wh_line; eauto.
  - apply (X c _ _ Ei) in En as ->. destruct (blocks_decided _ _ _ _ _ _ _ B) as [T|(q & l & r & -> & E & W & K)]; [left; exact T|]. right. exists q, l, r. repeat split; auto.
    intros r' tl'. eapply wh_units; [apply K|exact N|exact Ei].
  - apply (X c _ _ Ei) in En as ->. destruct (blocks_decided _ _ _ _ _ _ _ B) as [T|(q & l & r0 & -> & E & W & K)]; [left; exact T|]. right. exists (h ++ q), l, r0. split; [apply app_assoc|].
    split; [exact E|]. split; [exact W|]. intros r' tl'. rewrite <- app_assoc. eapply wh_header; [reflexivity|eapply first_entry_head; exact Fe|exact H|exact HF|apply K|exact S|exact Ei].
  - apply Y in En as ->. inversion HE.
Qed.

(** * Files *)
Lemma whole_read lib pf evs ls e pl tl : file evs ls e pl tl -> whole lib pf pl tl (read_catalogue lib pf evs).
Proof.
  intros Fi. apply (whole_file lib pf evs ls e pl tl _ Fi). apply alike_refl. destruct Fi as (bs & f & D & C & P).
  pose proof (file_shape lib pf evs bs f ls e pl tl D C P) as S. destruct S; discriminate.
Qed.
Lemma firstn_split {A} k (l : list A) : exists b, l = firstn k l ++ b /\ (length (firstn k l) < k -> b = [])%nat.
Proof. exists (skipn k l). split; [symmetry; apply firstn_skipn|]. rewrite firstn_length. intros H. apply skipn_all2. lia. Qed.
Theorem error_decided lib pf evs ls e pl tl evs' ls' e' pl' tl' n g w : file evs ls e pl tl -> ends_with_error (read_catalogue lib pf evs) (EParse n g w) ->
  file evs' ls' e' pl' tl' -> firstn (culprit n w) ls' = firstn (culprit n w) ls -> SpecWhole.alike (read_catalogue lib pf evs') (read_catalogue lib pf evs).
Proof.
  intros Fi En Fi' E. pose proof (whole_read lib pf _ _ _ _ _ Fi) as W. apply (whole_file lib pf _ _ _ _ _ _ Fi').
  destruct Fi as (bs & f & _ & _ & P). destruct Fi' as (bs' & f' & _ & _ & P').
  destruct (firstn_split (culprit n w) ls) as (B & EB & LB). destruct (firstn_split (culprit n w) ls') as (B' & EB' & _). rewrite E in EB'.
  remember (firstn (culprit n w) ls) as A eqn:EA. assert (length A <= culprit n w)%nat as LA by (subst A; rewrite firstn_length; lia). clear E EA. subst ls ls'.
  destruct (parsed_cut _ _ _ _ _ _ P) as [K|(pa & pb & -> & Pa & Pb)].
  { destruct (parsed_det _ _ _ _ _ P' _ _ (K B' e')) as [-> ->]. exact W. }
  destruct (parsed_range _ _ _ _ _ Pb) as [R Rt]. destruct (parsed_range _ _ _ _ _ Pa) as [Ra _].
  destruct (whole_decided _ _ _ _ _ _ _ _ W En) as [T|(q & l & r & Eq & El & Nw & K)].
  - exfalso. destruct (Rt _ _ _ T) as [-> H]. unfold culprit in *. destruct (Nat.eq_dec (length A) (N.to_nat (n - 1))) as [L|L]; [lia|].
    rewrite LB in H by lia. cbn [length] in H. lia.
  - assert (EC : culprit n w = N.to_nat n) by (unfold culprit; destruct w; [contradiction|reflexivity]). rewrite EC in *. clear EC.
    assert (exists r1, pa = q ++ l :: r1) as (r1 & ->).
    { assert (In l (pa ++ pb)) as I by (rewrite Eq; apply in_or_app; right; left; reflexivity). apply app_eq_app in Eq as (x & [(-> & Eq)|(-> & Eq)]).
      - destruct x as [|y x]; [|cbn in Eq; injection Eq as <- _; eauto]. exfalso. cbn in Eq.
        assert (In l pb) as I' by (rewrite <- Eq; left; reflexivity). apply R in I'. destruct (Nat.eq_dec (length A) (N.to_nat n)) as [L|L]; [lia|]. rewrite LB in I' by lia. cbn [length] in I'. lia.
      - exfalso. assert (In l pb) as I' by (rewrite Eq; apply in_or_app; right; left; reflexivity). apply R in I'.
        destruct (Nat.eq_dec (length A) (N.to_nat n)) as [L|L]; [lia|]. rewrite LB in I' by lia. cbn [length] in I'. lia. }
    destruct (parsed_cut _ _ _ _ _ _ P') as [K'|(pa' & pb' & -> & Pa' & _)].
    + destruct (parsed_det _ _ _ _ _ P _ _ (K' B e)) as [-> ->]. exact W.
    + destruct (parsed_det _ _ _ _ _ Pa _ _ Pa') as [-> _]. rewrite <- app_assoc. apply K.
Qed.
Lemma culprit_exists lib pf evs ls e pl tl n g w : file evs ls e pl tl -> ends_with_error (read_catalogue lib pf evs) (EParse n g w) -> (0 < culprit n w <= length ls)%nat.
Proof.
  intros Fi En. pose proof (whole_read lib pf _ _ _ _ _ Fi) as W. destruct Fi as (bs & f & _ & _ & P). destruct (parsed_range _ _ _ _ _ P) as [R Rt].
  destruct (whole_decided _ _ _ _ _ _ _ _ W En) as [T|(q & l & r & -> & <- & Nw & _)]; unfold culprit.
  - destruct (Rt _ _ _ T) as [-> H]. lia.
  - assert (In l (q ++ l :: r)) as I by (apply in_or_app; right; left; reflexivity). apply R in I. destruct w; [contradiction|]. lia.
Qed.
Lemma alike_error o o' x y : SpecWhole.alike o o' -> ends_with_error o (EParse (fst (fst x)) (snd (fst x)) (snd x)) -> ends_with_error o' (EParse (fst (fst y)) (snd (fst y)) (snd y)) -> x = y.
Proof.
  destruct x as [[n g] w], y as [[n' g'] w']. cbn. intros [c c' _ _ _ _ E|e|a b].
  - intros [H|(? & us & [= <-] & H)] [H'|(? & us' & [= <-] & H')]; try discriminate. rewrite H, H' in E. apply app_inj_tail in E as [_ [= -> -> ->]]. reflexivity.
  - intros [H|(? & ? & H & _)] [H'|(? & ? & H' & _)]; try discriminate. rewrite H in H'. injection H' as -> -> ->. reflexivity.
  - intros [H|(? & ? & H & _)]; discriminate.
Qed.
Theorem error_first lib pf evs ls e pl tl evs' e' pl' tl' n g w k : file evs ls e pl tl -> ends_with_error (read_catalogue lib pf evs) (EParse n g w) ->
  (k < culprit n w)%nat -> file evs' (firstn k ls) e' pl' tl' -> forall n' g' w', ~ ends_with_error (read_catalogue lib pf evs') (EParse n' g' w').
Proof.
  intros Fi En Lk Fi' n' g' w' En'. pose proof (culprit_exists _ _ _ _ _ _ _ _ _ _ Fi' En') as [_ C]. rewrite firstn_length in C.
  assert (firstn (culprit n' w') ls = firstn (culprit n' w') (firstn k ls)) as E by (rewrite firstn_firstn; f_equal; lia).
  pose proof (error_decided _ _ _ _ _ _ _ _ _ _ _ _ _ _ _ Fi' En' Fi E) as A. pose proof (alike_error _ _ (n, g, w) (n', g', w') A En En') as [= -> -> ->]. lia.
Qed.

(** * Entries without source *)
Lemma parsed_swap A B B' e e' pl tl pl' tl' q l r : parsed 1 (A ++ B) e pl tl -> parsed 1 (A ++ B') e' pl' tl' -> pl = q ++ l :: r -> po_line_no l <= N.of_nat (length A) ->
  (pl' = pl /\ tl' = tl) \/ exists r', pl' = q ++ l :: r'.
Proof.
  intros P P' -> H. destruct (parsed_cut _ _ _ _ _ _ P) as [K|(pa & pb & E & Pa & Pb)].
  { left. destruct (parsed_det _ _ _ _ _ P' _ _ (K B' e')) as [-> ->]. auto. }
  destruct (parsed_range _ _ _ _ _ Pb) as [R _].
  assert (exists r1, pa = q ++ l :: r1) as (r1 & ->).
  { symmetry in E. apply app_eq_app in E as (x & [(-> & E)|(-> & E)]).
    - destruct x as [|y x]; [|cbn in E; injection E as <- _; eauto]. exfalso. cbn in E. assert (In l pb) as I by (rewrite <- E; left; reflexivity). apply R in I. lia.
    - exfalso. assert (In l pb) as I by (rewrite E; apply in_or_app; right; left; reflexivity). apply R in I. lia. }
  destruct (parsed_cut _ _ _ _ _ _ P') as [K'|(pa' & pb' & -> & Pa' & _)].
  - left. destruct (parsed_det _ _ _ _ _ P _ _ (K' B e)) as [-> ->]. auto.
  - right. destruct (parsed_det _ _ _ _ _ Pa _ _ Pa') as [-> _]. exists (r1 ++ pb'). rewrite <- app_assoc. reflexivity.
Qed.
Lemma parsed_no_unexpected n ls e pl tl : parsed n ls e pl tl -> forall m s, tl <> Some (EUnexpected m s).
Proof. induction 1; intros; try discriminate; auto. Qed.
Lemma sourceless_app h pl tl n r : sourceless_at pl tl n r -> sourceless_at (h ++ pl) tl n r.
Proof.
  intros (forms & a & cs & F & N & L & C & obs & k & ks & pc & pm & c & text & -> & H). exists forms, (h ++ a), cs, F, N, L, C, obs, k, ks, pc, pm, c, text.
  split; [rewrite (app_assoc h a); reflexivity|exact H].
Qed.
Lemma blocks_sourceless forms p tl us n s : blocks forms p tl us (Some (EUnexpected n s)) -> tl <> Some (EUnexpected n s) -> exists q r, p = q ++ r /\ sourceless_at p tl n r /\
  forall l r0, r = l :: r0 -> forall r' tl', blocks forms (q ++ l :: r') tl' us (Some (EUnexpected n s)).
Proof.
  remember (Some (EUnexpected n s)) as o eqn:E. intros B NT. induction B as [rest tl o C|b u r tl us o U En B IH]; subst.
  - remember (Some (EUnexpected n s)) as o eqn:E. destruct C as [rest I|rest x G|inc v l r tl0 A NG|cs F N L C obs k ks pc pm c text r tl0 B K En]; try discriminate E; [contradiction|].
    injection E as <- <-. exists (cs ++ k :: ks), r. split; [reflexivity|]. split.
    + exists forms, [], cs, F, N, L, C, obs, k, ks, pc, pm, c, text. repeat split; auto.
    + intros l r0 -> r' tl'. constructor. econstructor; [exact B|exact K|exact En].
  - destruct (IH eq_refl NT) as (q & r0 & E & S & K). exists (b ++ q), r0. split; [rewrite E; apply app_assoc|]. split; [apply sourceless_app, S|].
    intros l r1 -> r' tl'. rewrite <- app_assoc. constructor; [exact U| |eapply K; reflexivity]. subst r. destruct q; exact En.
Qed.
Lemma whole_sourceless lib pf pl tl o n s : whole lib pf pl tl o -> ends_with_error o (EUnexpected n s) -> n <> 0 -> tl <> Some (EUnexpected n s) -> exists q r, pl = q ++ r /\ sourceless_at pl tl n r /\
  forall l r0, r = l :: r0 -> forall r' tl', whole lib pf (q ++ l :: r') tl' o.
Proof.
  assert (X : forall c us o', c_items c = map UOk us ++ error_item o' -> ends_with_error (Ok c) (EUnexpected n s) -> o' = Some (EUnexpected n s)).
  { intros c us o' Ei [E|(c0 & vs & [= <-] & E)]; [discriminate|]. rewrite Ei in E. destruct o' as [x|]; cbn [error_item] in E.
    - apply app_inj_tail in E as [_ [= ->]]. reflexivity.
    - exfalso. rewrite app_nil_r in E. assert (In (UErr (EUnexpected n s)) (map UOk us)) as I by (rewrite E; apply in_or_app; right; left; reflexivity).
      apply in_map_iff in I as (? & ? & _). discriminate. }
  assert (Y : forall x, ends_with_error (Err x) (EUnexpected n s) -> x = EUnexpected n s).
  { intros x [[= ->]|(c & us & E & _)]; [reflexivity|discriminate]. }
  intros [c T H N Ei|e T G|inc v l r -> A NW NG|u us o' c B N Ei|h u ps r forms us o' c -> Fe H HF B S Ei|h u ps r x -> Fe H HE] En N0 NT.
  - apply (X c [] None) in En; [discriminate|exact Ei].
  - apply Y in En as ->. contradiction.
  - apply Y in En. discriminate.
  - apply (X c _ _ Ei) in En as ->. destruct (blocks_sourceless _ _ _ _ _ _ B NT) as (q & r & E & S & K). exists q, r. split; [exact E|]. split; [exact S|].
    intros l r0 -> r' tl'. eapply wh_units; [eapply K; reflexivity|exact N|exact Ei].
  - apply (X c _ _ Ei) in En as ->. destruct (blocks_sourceless _ _ _ _ _ _ B NT) as (q & r1 & -> & S1 & K). exists (h ++ q), r1. split; [apply app_assoc|]. split; [apply sourceless_app, S1|].
    intros l r0 -> r' tl'. rewrite <- app_assoc. eapply wh_header; [reflexivity|eapply first_entry_head; exact Fe|exact H|exact HF|eapply K; reflexivity|exact S|exact Ei].
  - apply Y in En as ->. inversion HE; subst; contradiction.
Qed.
Theorem sourceless_decided lib pf evs ls e pl tl n s : file evs ls e pl tl -> ends_with_error (read_catalogue lib pf evs) (EUnexpected n s) -> n <> 0 ->
  exists r, sourceless_at pl tl n r /\ forall l r0 evs' ls' e' pl' tl', r = l :: r0 -> file evs' ls' e' pl' tl' -> firstn (N.to_nat (po_line_no l)) ls' = firstn (N.to_nat (po_line_no l)) ls ->
    SpecWhole.alike (read_catalogue lib pf evs') (read_catalogue lib pf evs).
Proof.
  intros Fi En N0. pose proof (whole_read lib pf _ _ _ _ _ Fi) as W. destruct Fi as (bs & f & _ & _ & P). destruct (parsed_range _ _ _ _ _ P) as [R _].
  assert (NT : tl <> Some (EUnexpected n s)).
  { exact (parsed_no_unexpected _ _ _ _ _ P n s). }
  destruct (whole_sourceless _ _ _ _ _ _ _ W En N0 NT) as (q & r & Eq & S & K). exists r. split; [exact S|]. intros l r0 evs' ls' e' pl' tl' -> Fi' E. apply (whole_file lib pf _ _ _ _ _ _ Fi').
  destruct Fi' as (bs' & f' & _ & _ & P'). assert (In l pl) as I by (rewrite Eq; apply in_or_app; right; left; reflexivity). apply R in I.
  destruct (firstn_split (N.to_nat (po_line_no l)) ls) as (B & EB & _). destruct (firstn_split (N.to_nat (po_line_no l)) ls') as (B' & EB' & _). rewrite E in EB'.
  assert (length (firstn (N.to_nat (po_line_no l)) ls) = N.to_nat (po_line_no l)) as LA by (rewrite firstn_length; lia).
  rewrite EB in P. rewrite EB' in P'. destruct (parsed_swap _ _ _ _ _ _ _ _ _ _ _ _ P P' Eq) as [[-> ->]|(r' & ->)]; [lia|exact W|]. eapply K. reflexivity.
Qed.

(** An entry whose id goes on in the next line. *)
Definition unsourced_lines : list string := ["msgid ""a"""; "msgstr ""b"""; "msgid """""; "msgstr ""c"""]%string.
Definition sourced_lines : list string := ["msgid ""a"""; "msgstr ""b"""; "msgid """""; """x"""; "msgstr ""c"""]%string.
Theorem decided_refuted : exists evs ls pl evs' ls' pl' n s, file evs ls None pl None /\ file evs' ls' None pl' None /\ firstn (N.to_nat n) ls' = firstn (N.to_nat n) ls
  /\ forall lib pf, ends_with_error (read_catalogue lib pf evs) (EUnexpected n s) /\ exists c u v, read_catalogue lib pf evs' = Ok c /\ c_items c = [UOk u; UOk v].
Proof.
  exists (lf_stream unsourced_lines), (map lit unsourced_lines). eexists. exists (lf_stream sourced_lines), (map lit sourced_lines). eexists. exists 3, (lit "Source should not be empty").
  split; [apply lf_file; [discriminate|vm_compute; reflexivity|vm_compute; reflexivity]|]. split; [apply lf_file; [discriminate|vm_compute; reflexivity|vm_compute; reflexivity]|]. split; [reflexivity|].
  intros lib pf. split.
  - right. eexists. eexists [_]. split; vm_compute; reflexivity.
  - do 3 eexists. split; vm_compute; reflexivity.
Qed.
