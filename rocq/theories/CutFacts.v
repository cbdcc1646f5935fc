(** Lines followed by a line that was cut. *)
From Coq Require Import String Arith NArith ZArith Bool List Lia.
From Verif Require Import ModelBase ModelUtf8 ModelLine ModelFormula ModelData ModelSource ModelReader
  SpecLine SpecSource SpecReader BaseFacts ReaderFacts ReadsFacts LocalFacts.
Import ListNotations.

(** A unit with a non-empty message has a msgid line, also when it comes first. *)
Lemma parse_message_fields_count_first forms first u ls v ls' :
  parse_message_fields forms first u ls = (Ok (Some v), ls') -> msg_is_empty (u_message v) = false -> some_count ls' < some_count ls.
Proof.
  unfold parse_message_fields. intros H M.
  apply bind_ok in H as (pc & l1 & E1 & H). pose proof (parse_msg_suffix (u_obsolete u) (lit "|msgctxt") ls) as S1. rewrite E1 in S1.
  apply bind_ok in H as (pi & l2 & E2 & H). pose proof (parse_msg_suffix (u_obsolete u) (lit "|msgid") l1) as S2. rewrite E2 in S2.
  apply bind_ok in H as (pp & l3 & E3 & H).
  assert (suffix l3 l2) as S3.
  { destruct pi; [pose proof (parse_msg_suffix (u_obsolete u) (lit "|msgid_plural") l2) as S3; rewrite E3 in S3; exact S3|].
    injection E3 as _ ->. auto. }
  apply bind_ok in H as (c & l4 & E4 & H). pose proof (parse_msg_suffix (u_obsolete u) (lit "msgctxt") l3) as S4. rewrite E4 in S4.
  apply bind_ok in H as (i & l5 & E5 & H). destruct i as [i|].
  - apply parse_msg_some_count in E5. rewrite andb_false_r in H.
    apply bind_ok in H as (pl & l6 & E6 & H). pose proof (parse_msg_suffix (u_obsolete u) (lit "msgid_plural") l5) as S6. rewrite E6 in S6.
    apply bind_ok in H as (m & l7 & E7 & H). pose proof (new_message_suffix forms (u_obsolete u) (Some i) pl l6) as S7. rewrite E7 in S7.
    destruct m; [|discriminate]. injection H as _ <-. cbn [snd] in *.
    apply suffix_some_count in S1, S2, S3, S4, S6, S7. lia.
  - destruct first; cbn [negb andb] in H.
    + apply bind_ok in H as (pl & l6 & E6 & H). cbn [new_message bind] in H. injection H as <- <-. discriminate.
    + apply bind_ok in H as (? & l6 & E6 & H). discriminate.
Qed.
Lemma finalize_message u : u_message (finalize_state u) = u_message u.
Proof. unfold finalize_state. destruct (u_state u); try reflexivity. destruct (msg_is_blank _); reflexivity. Qed.
Theorem runit_count_first forms first ls u ls' :
  runit forms first ls = (Ok (Some u), ls') -> msg_is_empty (u_message u) = false -> some_count ls' < some_count ls.
Proof.
  unfold runit. intros H M. apply bind_ok in H as (v & l1 & C & H).
  pose proof (parse_comments_suffix ls unit_default) as S. rewrite C in S. apply suffix_some_count in S. cbn [snd] in S.
  destruct (peek l1) as [[l|e']|]; try discriminate.
  apply bind_ok in H as (o & l2 & E & H). destruct o as [w|]; cbn [finish_unit] in H; [|discriminate].
  destruct (negb first && _); [discriminate|]. injection H as <- <-. rewrite finalize_message in M.
  apply parse_message_fields_count_first in E; [lia|exact M].
Qed.

(** The same line with another text, or a comment. *)
Inductive same_start : po_line -> po_line -> Prop :=
| ss_message n n' p t s s' : same_start (PMessage n p t s) (PMessage n' p t s')
| ss_cont n n' p s s' : same_start (PCont n p s) (PCont n' p s')
| ss_message_comment n n' p t s k s' : same_start (PMessage n p t s) (PComment n' k s')
| ss_cont_comment n n' p s k s' : same_start (PCont n p s) (PComment n' k s').

Section Boundary.
  Variables l l' : po_line.
  Hypothesis SS : same_start l l'.
  Variable x : lines.
  Notation i := (Some (ILine l)).
  Notation i' := (Some (ILine l')).
  Definition blocal {A} (f : lines -> res A) : Prop := forall c o,
    f (c ++ [i]) = (Ok o, [i]) -> f (c ++ i' :: x) = (Ok o, i' :: x).
  Lemma one_app (c : lines) (z j : option item) : z :: c ++ [j] = [j] -> False.
  Proof. intros H. apply (f_equal (@length _)) in H. cbn in H. rewrite app_length in H. cbn in H. lia. Qed.
  Lemma bind_blocal {A B} (f : lines -> res A) (g : A -> lines -> res B) :
    blocal f -> local f -> (forall ls, suffix (snd (f ls)) ls) -> (forall a, blocal (g a)) -> (forall a ls, suffix (snd (g a ls)) ls) ->
    blocal (fun ls => bind (f ls) g).
  Proof.
    intros Bf Lf Sf Bg Sg c o H. cbn beta in *. apply bind_ok in H as (a & r & E & H).
    pose proof (Sf (c ++ [i])) as S1. rewrite E in S1. cbn [snd] in S1.
    pose proof (Sg a r) as S2. rewrite H in S2. cbn [snd] in S2.
    destruct (suffix_app_inv c [i] r [] S1 S2) as (c1 & -> & _).
    destruct c1 as [|y c1].
    - rewrite (Bf _ _ E). cbn [bind]. exact (Bg a [] _ H).
    - rewrite (Lf c [i] (Ok a) (y :: c1) ltac:(discriminate) E). cbn [bind]. exact (Bg a (y :: c1) _ H).
  Qed.
  Lemma ret_blocal {A} (o : outcome A) : blocal (fun ls => (o, ls)).
  Proof. intros c o' H. injection H as -> H. destruct c as [|z c]; [reflexivity|]. exfalso. exact (one_app _ _ _ H). Qed.
  Lemma append_conts_blocal p s : blocal (append_conts p s).
  Proof.
    intros c; revert s; induction c as [|j c IH]; intros s o H; cbn [app append_conts] in *.
    - inversion SS; subst; cbn [append_conts] in *.
      + injection H as <-. reflexivity.
      + destruct (str_eqb p0 p); [discriminate|]. injection H as <-. reflexivity.
      + injection H as <-. reflexivity.
      + destruct (str_eqb p0 p); [discriminate|]. injection H as <-. reflexivity.
    - destruct j as [[[|n k t|n q tag t|n q t]|e]|].
      1-3: exfalso; exact (one_app _ _ _ (f_equal snd H)).
      + destruct (str_eqb q p); [exact (IH _ _ H)|]. exfalso; exact (one_app _ _ _ (f_equal snd H)).
      + discriminate.
      + injection H as <- H. destruct c as [|z c]; [reflexivity|]. exfalso. exact (one_app _ _ _ H).
  Qed.
  Lemma parse_msg_blocal o t : blocal (parse_msg o t).
  Proof.
    intros c r H. rewrite parse_msg_eq in *. destruct c as [|j c]; cbn [app] in *.
    - inversion SS; subst.
      + destruct (_ && _); [discriminate|]. injection H as <-. reflexivity.
      + injection H as <-. reflexivity.
      + destruct (_ && _); [discriminate|]. injection H as <-. reflexivity.
      + injection H as <-. reflexivity.
    - destruct j as [[[|n k s|n q tag s|n q s]|e]|].
      1,2,4: exfalso; exact (one_app _ _ _ (f_equal snd H)).
      + destruct (_ && _); [exact (append_conts_blocal _ _ _ _ H)|]. exfalso; exact (one_app _ _ _ (f_equal snd H)).
      + discriminate.
      + injection H as <- H. destruct c as [|z c]; [reflexivity|]. exfalso. exact (one_app _ _ _ H).
  Qed.
  Lemma expected_blocal z : blocal (expected z).
  Proof.
    intros c r H. unfold expected, peek, next in *. destruct c as [|j c]; cbn [app hd tl] in *.
    - inversion SS; subst; discriminate.
    - destruct j as [[[|n k s|n q tag s|n q s]|e]|]; try discriminate; exfalso; exact (one_app _ _ _ (f_equal snd H)).
  Qed.
  Lemma parse_values_blocal o k : forall n vs, blocal (parse_values o k n vs).
  Proof.
    induction k as [|k IH]; intros n vs; cbn [parse_values]; [apply ret_blocal|].
    apply bind_blocal; [apply parse_msg_blocal|apply parse_msg_local|apply parse_msg_suffix|intros; apply IH|intros; apply parse_values_suffix].
  Qed.
  Lemma expected_none_blocal {A} z (o : outcome A) : blocal (fun ls => bind (expected z ls) (fun _ l => (o, l))).
  Proof. apply bind_blocal; [apply expected_blocal|apply expected_local|apply expected_suffix|intros; apply ret_blocal|cbn; auto]. Qed.
  Lemma new_message_blocal forms o id pl : blocal (new_message forms o id pl).
  Proof.
    unfold new_message. destruct id as [id|]; [|apply ret_blocal]. destruct pl as [pl|].
    - apply bind_blocal; [apply parse_values_blocal|apply parse_values_local|apply parse_values_suffix| |].
      + intros vs. destruct (is_empty vs); [apply expected_none_blocal|apply ret_blocal].
      + intros vs ls. destruct (is_empty vs); [apply expected_none_suffix|cbn; auto].
    - apply bind_blocal; [apply parse_msg_blocal|apply parse_msg_local|apply parse_msg_suffix| |].
      + intros [t|]; [apply ret_blocal|apply expected_none_blocal].
      + intros [t|] ls; [cbn; auto|apply expected_none_suffix].
  Qed.
  Lemma parse_message_fields_blocal forms first u : blocal (parse_message_fields forms first u).
  Proof.
    unfold parse_message_fields.
    assert (forall pc pm c i, blocal (fun ls => if negb first && match i with None => true | Some _ => false end
              then do _, ls0 <- expected (lit "msgid") ls; (Ok None, ls0)
              else do pl, ls0 <- parse_msg (u_obsolete u) (lit "msgid_plural") ls;
                   do m, ls1 <- new_message forms (u_obsolete u) i pl ls0;
                   match m with None => (Ok None, ls1) | Some msg => (Ok (Some (set_message u pc pm c msg)), ls1) end)) as K.
    { intros pc pm c i. destruct (_ && _); [apply expected_none_blocal|].
      apply bind_blocal; [apply parse_msg_blocal|apply parse_msg_local|apply parse_msg_suffix| |].
      - intros pl. apply bind_blocal; [apply new_message_blocal|apply new_message_local|apply new_message_suffix|intros [m|]; apply ret_blocal|intros [m|]; cbn; auto].
      - intros pl ls. apply bind_suffix; [apply new_message_suffix|]. intros [m|] l0 _; cbn; auto. }
    assert (forall pc pm c i ls, suffix (snd (if negb first && match i with None => true | Some _ => false end
              then do _, ls0 <- expected (lit "msgid") ls; (Ok None, ls0)
              else do pl, ls0 <- parse_msg (u_obsolete u) (lit "msgid_plural") ls;
                   do m, ls1 <- new_message forms (u_obsolete u) i pl ls0;
                   match m with None => (Ok None, ls1) | Some msg => (Ok (Some (set_message u pc pm c msg)), ls1) end)) ls) as KS.
    { intros pc pm c i ls. destruct (_ && _); [apply expected_none_suffix|].
      apply bind_suffix; [apply parse_msg_suffix|]. intros pl l0 _.
      apply bind_suffix; [apply new_message_suffix|]. intros [m|] l1 _; cbn; auto. }
    apply bind_blocal; [apply parse_msg_blocal|apply parse_msg_local|apply parse_msg_suffix| |].
    2: { intros pc ls. apply bind_suffix; [apply parse_msg_suffix|]. intros pi l2 _.
         apply bind_suffix; [destruct pi; [apply parse_msg_suffix|cbn; auto]|]. intros pp l3 _.
         apply bind_suffix; [apply parse_msg_suffix|]. intros c l4 _.
         apply bind_suffix; [apply parse_msg_suffix|]. intros j l5 _. apply KS. }
    intros pc. apply bind_blocal; [apply parse_msg_blocal|apply parse_msg_local|apply parse_msg_suffix| |].
    2: { intros pi ls. apply bind_suffix; [destruct pi; [apply parse_msg_suffix|cbn; auto]|]. intros pp l3 _.
         apply bind_suffix; [apply parse_msg_suffix|]. intros c l4 _.
         apply bind_suffix; [apply parse_msg_suffix|]. intros j l5 _. apply KS. }
    intros pi. apply bind_blocal.
    1: destruct pi; [apply parse_msg_blocal|apply ret_blocal].
    1: destruct pi; [apply parse_msg_local|apply ret_local].
    1: destruct pi; intros; [apply parse_msg_suffix|cbn; auto].
    2: { intros pp ls. apply bind_suffix; [apply parse_msg_suffix|]. intros c l4 _.
         apply bind_suffix; [apply parse_msg_suffix|]. intros j l5 _. apply KS. }
    intros pp. apply bind_blocal; [apply parse_msg_blocal|apply parse_msg_local|apply parse_msg_suffix| |].
    2: { intros c ls. apply bind_suffix; [apply parse_msg_suffix|]. intros j l5 _. apply KS. }
    intros c. apply bind_blocal; [apply parse_msg_blocal|apply parse_msg_local|apply parse_msg_suffix| |].
    - intros j. apply K.
    - intros j ls. apply KS.
  Qed.
  Theorem runit_blocal forms first c u : runit forms first (c ++ [i]) = (Ok (Some u), [i]) ->
    first = false \/ msg_is_empty (u_message u) = false ->
    runit forms first (c ++ i' :: x) = (Ok (Some u), i' :: x).
  Proof.
    intros E M. unfold runit in *. apply bind_ok in E as (v & r & E1 & E).
    destruct (peek r) as [[k|e]|] eqn:P; try discriminate.
    apply bind_ok in E as (w & r2 & E2 & E). pose proof (f_equal snd E) as Er. rewrite finish_unit_lines in Er. cbn in Er. subst r2.
    pose proof (parse_comments_suffix (c ++ [i]) unit_default) as S1. rewrite E1 in S1. cbn [snd] in S1.
    pose proof (parse_message_fields_suffix forms first (set_obsolete v (line_obsolete k)) r) as S2. rewrite E2 in S2. cbn [snd] in S2.
    destruct (suffix_app_inv c [i] r [] S1 S2) as (c1 & -> & _).
    destruct w as [w|]; cbn [finish_unit] in E; [|discriminate].
    destruct (negb first && _) eqn:F; [discriminate|]. injection E as <-. rewrite finalize_message in M.
    destruct c1 as [|y c1].
    - exfalso. cbn [app] in E2. destruct M as [->|M].
      + apply parse_message_fields_count in E2. lia.
      + apply parse_message_fields_count_first in E2; [lia|exact M].
    - rewrite (parse_comments_local unit_default c [i] _ (y :: c1) ltac:(discriminate) E1). cbn [bind].
      unfold peek in *. cbn [app hd] in *. subst y.
      pose proof (parse_message_fields_blocal forms first (set_obsolete v (line_obsolete k)) (Some (ILine k) :: c1) _ E2) as E3.
      cbn [app] in E3. rewrite E3. cbn [bind finish_unit]. rewrite F. reflexivity.
  Qed.

  Lemma reads_one_line forms j l0 : reads forms [Some j] l0 -> length l0 <= 1.
  Proof. intros R. destruct (reads_total forms [Some j]) as (l1 & R1 & L). rewrite (reads_det _ _ _ _ R R1). exact L. Qed.
  Lemma suffix_snoc {A} (r c : list A) z : suffix r (c ++ [z]) -> r = [] \/ exists c2, r = c2 ++ [z] /\ suffix c2 c.
  Proof.
    intros (p & E). destruct r as [|y r] using rev_ind; [left; reflexivity|]. right. rewrite app_assoc in E. apply app_inj_tail in E as [-> ->].
    exists r. split; [reflexivity|]. exists p; reflexivity.
  Qed.
  Lemma reads_cut_line forms ls u0 : reads forms ls u0 -> forall c, ls = c ++ [i] -> forall l0 z, u0 = l0 ++ [z] ->
    exists rest, reads forms (c ++ i' :: x) (l0 ++ rest).
  Proof.
    induction 1 as [ls r E|ls e r E|ls u r l1 E H IH]; intros c -> l0 z L.
    - destruct l0; discriminate.
    - destruct l0 as [|y l0]; [|destruct l0; discriminate]. destruct (reads_total forms (c ++ i' :: x)) as (rest & Hr & _). exists rest; exact Hr.
    - destruct l0 as [|y l0]; [destruct (reads_total forms (c ++ i' :: x)) as (rest & Hr & _); exists rest; exact Hr|].
      injection L as <- ->. pose proof (runit_suffix forms false (c ++ [i])) as S. rewrite E in S. cbn [snd] in S.
      apply suffix_snoc in S as [->|(c2 & -> & S2)].
      + exfalso. assert (reads forms [] []) as R0 by (eapply reads_end; reflexivity).
        pose proof (reads_det _ _ _ _ H R0) as X. destruct l0; discriminate.
      + destruct (IH c2 eq_refl l0 z eq_refl) as (rest & Hr). exists rest. cbn [app].
        refine (reads_unit _ _ _ _ _ _ Hr). destruct c2 as [|y c2].
        * apply runit_blocal; [exact E|left; reflexivity].
        * exact (runit_local forms false c [i] _ (y :: c2) ltac:(discriminate) E _).
  Qed.
  Theorem catalogue_cut_line lib pf c a b p t l0 z :
    catalogue_of lib pf (c ++ [i]) (Ok (Catalogue a b p t (l0 ++ [z]))) -> l0 <> [] ->
    exists rest, catalogue_of lib pf (c ++ i' :: x) (Ok (Catalogue a b p t (l0 ++ rest))).
  Proof.
    intros H NL.
    assert (forall forms l, reads forms [] l -> l = []) as R0.
    { intros forms l0' R. eapply reads_det; [exact R|]. eapply reads_end; reflexivity. }
    remember (Ok (Catalogue a b p t (l0 ++ [z]))) as o eqn:Q.
    destruct H as [e' r E|r E|u r l1 E M R|u r e' E M F|u r forms l1 E M F R]; try discriminate.
    - injection Q as <- <- <- <- Q. destruct l0; discriminate.
    - injection Q as <- <- <- <- Q. destruct l0 as [|y l0]; [contradiction|]. injection Q as <- ->.
      pose proof (runit_suffix None true (c ++ [i])) as S. rewrite E in S. cbn [snd] in S.
      apply suffix_snoc in S as [->|(c2 & -> & S2)]; [apply R0 in R; destruct l0; discriminate|].
      destruct (reads_cut_line _ _ _ R c2 eq_refl l0 z eq_refl) as (rest & Hr). exists rest.
      eapply co_plain; [|exact M|exact Hr]. destruct c2 as [|y c2].
      + apply runit_blocal; [exact E|right; exact M].
      + exact (runit_local None true c [i] _ (y :: c2) ltac:(discriminate) E _).
    - injection Q as <- <- <- <- ->.
      pose proof (runit_suffix None true (c ++ [i])) as S. rewrite E in S. cbn [snd] in S.
      apply suffix_snoc in S as [->|(c2 & -> & S2)]; [apply R0 in R; destruct l0; discriminate|].
      destruct c2 as [|y c2].
      + exfalso. apply reads_one_line in R. rewrite app_length in R. destruct l0; [contradiction|cbn in R; lia].
      + destruct (reads_cut_line _ _ _ R (y :: c2) eq_refl l0 z eq_refl) as (rest & Hr). exists rest.
        eapply co_header; [|exact M|exact F|exact Hr]. exact (runit_local None true c [i] _ (y :: c2) ltac:(discriminate) E _).
  Qed.
End Boundary.

(** A cut comment line is the last line and no unit comes after it. *)
Theorem catalogue_cut_comment lib pf c n k s a b p t l0 z :
  catalogue_of lib pf (c ++ [Some (ILine (PComment n k s))]) (Ok (Catalogue a b p t (l0 ++ [z]))) -> l0 <> [] ->
  forall x, exists rest, catalogue_of lib pf (c ++ x) (Ok (Catalogue a b p t (l0 ++ rest))).
Proof.
  intros H NL x. set (i := Some (ILine (PComment n k s))) in *.
  assert (forall forms l, reads forms [] l -> l = []) as R0.
  { intros forms l0' R. eapply reads_det; [exact R|]. eapply reads_end; reflexivity. }
  assert (forall forms l, reads forms [i] l -> l = []) as R1.
  { intros forms l0' R. eapply reads_det; [exact R|]. eapply reads_end; reflexivity. }
  assert (forall forms ls u0, reads forms ls u0 -> forall c, ls = c ++ [i] -> forall l0 z, u0 = l0 ++ [z] ->
    exists rest, reads forms (c ++ x) (l0 ++ rest)) as RC.
  { induction 1 as [ls r E|ls e r E|ls u r l1 E R IH]; intros c0 -> l1' z' L.
    - destruct l1'; discriminate.
    - destruct l1' as [|y l1']; [|destruct l1'; discriminate]. destruct (reads_total forms (c0 ++ x)) as (rest & Hr & _). exists rest; exact Hr.
    - destruct l1' as [|y l1']; [destruct (reads_total forms (c0 ++ x)) as (rest & Hr & _); exists rest; exact Hr|].
      injection L as <- ->. pose proof (runit_suffix forms false (c0 ++ [i])) as S. rewrite E in S. cbn [snd] in S.
      apply suffix_snoc in S as [->|(c2 & -> & S2)]; [apply R0 in R; destruct l1'; discriminate|].
      destruct c2 as [|y c2]; [apply R1 in R; destruct l1'; discriminate|].
      destruct (IH (y :: c2) eq_refl l1' z' eq_refl) as (rest & Hr). exists rest. cbn [app].
      refine (reads_unit _ _ _ _ _ _ Hr). exact (runit_local forms false c0 [i] _ (y :: c2) ltac:(discriminate) E _). }
  remember (Ok (Catalogue a b p t (l0 ++ [z]))) as o eqn:Q.
  destruct H as [e' r E|r E|u r l1 E M R|u r e' E M F|u r forms l1 E M F R]; try discriminate.
  - injection Q as <- <- <- <- Q. destruct l0; discriminate.
  - injection Q as <- <- <- <- Q. destruct l0 as [|y l0]; [contradiction|]. injection Q as <- ->.
    pose proof (runit_suffix None true (c ++ [i])) as S. rewrite E in S. cbn [snd] in S.
    apply suffix_snoc in S as [->|(c2 & -> & S2)]; [apply R0 in R; destruct l0; discriminate|].
    destruct c2 as [|y c2]; [apply R1 in R; destruct l0; discriminate|].
    destruct (RC _ _ _ R (y :: c2) eq_refl l0 z eq_refl) as (rest & Hr). exists rest.
    eapply co_plain; [|exact M|exact Hr]. exact (runit_local None true c [i] _ (y :: c2) ltac:(discriminate) E _).
  - injection Q as <- <- <- <- ->.
    pose proof (runit_suffix None true (c ++ [i])) as S. rewrite E in S. cbn [snd] in S.
    apply suffix_snoc in S as [->|(c2 & -> & S2)]; [apply R0 in R; destruct l0; discriminate|].
    destruct c2 as [|y c2]; [apply R1 in R; destruct l0; discriminate|].
    destruct (RC _ _ _ R (y :: c2) eq_refl l0 z eq_refl) as (rest & Hr). exists rest.
    eapply co_header; [|exact M|exact F|exact Hr]. exact (runit_local None true c [i] _ (y :: c2) ltac:(discriminate) E _).
Qed.
