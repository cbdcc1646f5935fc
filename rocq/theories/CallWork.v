(** The work of single calls (C108). *)
From Coq Require Import String Arith NArith Bool List Lia.
From Verif Require Import ModelBase ModelUtf8 ModelLine ModelFormula ModelData ModelSource ModelReader ModelWork ModelLazy
  SpecLine SpecSource SpecReader SpecBlock SpecFile SpecSize SpecWork SpecLazy SpecCalls BaseFacts LineFacts SourceFacts IterFacts ReaderFacts ReadsFacts CatalogueFacts LazyFacts LazyThms WorkFacts WorkThms WorkLinear.
Import ListNotations.
Local Open Scope nat_scope.

Lemma weight_cost a : weight line_chars a <= answers_cost a.
Proof. unfold weight, answers_cost. induction a as [|[[l|e]|] a IH]; cbn [map total weight1 answer_cost] in *; unfold lines in *; fold lines in *; cbn in *; lia. Qed.
Lemma hdw_cost a : 3 + hdw line_chars a = next_cost a.
Proof. destruct a as [|[[l|e]|] a]; reflexivity. Qed.
Lemma weight_app w a b : weight w (a ++ b) = weight w a + weight w b.
Proof. unfold weight. induction a as [|x a IH]; cbn [map total app] in *; lia. Qed.
Lemma calls_forms k : forall q, rd_plural_forms (snd (calls k q)) = rd_plural_forms q.
Proof.
  induction k as [|k IH]; intros q; [reflexivity|]. cbn [calls].
  destruct (pending_total q) as (m & Pm & _). apply po_next_pending in Pm. destruct m as [|x m].
  - rewrite Pm. specialize (IH q). destruct (calls k q) as [xs q'']. exact IH.
  - destruct Pm as (q' & -> & _ & E). specialize (IH q'). destruct (calls k q') as [xs q'']. cbn [snd] in *. congruence.
Qed.
Lemma next_unit_suffix first r : suffix (rd_lines (snd (next_unit first r))) (rd_lines r).
Proof. rewrite next_unit_eq. cbn [snd with_lines rd_lines]. apply runit_suffix. Qed.

(** ** Without plural the number of forms has no influence *)
Section Forms.
  Variable w : po_line -> nat.
  Definition same_cost {A B} (ls : lines) (x : A * lines * nat) (y : B * lines * nat) : Prop :=
    (snd (fst x) = snd (fst y) /\ snd x = snd y) \/ exists p, ls = p ++ snd (fst x) /\ plural_among p.
  Lemma plural_app a b : plural_among a \/ plural_among b -> plural_among (a ++ b).
  Proof. intros [(n & f & s & I)|(n & f & s & I)]; exists n, f, s; apply in_or_app; auto. Qed.
  Lemma same_refl {A B} ls l (a : A) (b : B) n : same_cost ls (a, l, n) (b, l, n).
  Proof. left. split; reflexivity. Qed.
  Lemma same_bind {A B C} ls (m : wres A) (f : A -> lines -> wres B) (g : A -> lines -> wres C) : suffix (snd (fst m)) ls ->
    (forall a l, fst m = (Ok a, l) -> same_cost l (f a l) (g a l)) -> same_cost ls (wbind m f) (wbind m g).
  Proof.
    intros (p & E) F. destruct m as [[[a|e|] l] c]; cbn [wbind fst snd] in *; [|left; split; reflexivity..].
    specialize (F a l eq_refl). destruct (f a l) as [[x l1] c1], (g a l) as [[y l2] c2]. destruct F as [[F1 F2]|(q & F1 & F2)]; cbn [fst snd] in *.
    - left. cbn. split; congruence.
    - right. exists (p ++ q). cbn [fst snd]. split; [rewrite E, F1, app_assoc; reflexivity|]. apply plural_app. right. exact F2.
  Qed.
  Lemma wbind_suffix {A B} ls (m : wres A) (f : A -> lines -> wres B) : suffix (snd (fst m)) ls -> (forall a l, suffix (snd (fst (f a l))) l) -> suffix (snd (fst (wbind m f))) ls.
  Proof.
    intros H F. destruct m as [[[a|e|] l] c]; cbn [wbind fst snd] in *; try exact H. specialize (F a l). destruct (f a l) as [[x l1] c1]. exact (suffix_trans _ _ _ F H).
  Qed.
  Lemma parse_msg_w_suffix obs tag ls : suffix (snd (fst (parse_msg_w w obs tag ls))) ls.
  Proof. rewrite parse_msg_fst. apply parse_msg_suffix. Qed.
  Lemma plural_taken obs ls v l : fst (parse_msg_w w obs (lit "msgid_plural") ls) = (Ok (Some v), l) -> exists p, ls = p ++ l /\ plural_among p.
  Proof.
    rewrite parse_msg_fst, parse_msg_eq. destruct ls as [|[[[| | |]|]|] ls]; try discriminate. destruct (_ && _) eqn:E; [|discriminate].
    apply andb_prop in E as [E _]. apply str_eqb_eq in E. subst. intros H.
    match type of H with append_conts ?p ?s ls = _ => pose proof (append_conts_suffix p ls s) as (q & Q) end. rewrite H in Q. cbn [snd] in Q. subst ls.
    eexists (_ :: q). split; [reflexivity|]. eexists _, _, _. left. reflexivity.
  Qed.
  Lemma fields_same forms forms' first u ls : same_cost ls (parse_message_fields_w w forms first u ls) (parse_message_fields_w w forms' first u ls).
  Proof.
    unfold parse_message_fields_w. cbv zeta.
    apply same_bind; [apply parse_msg_w_suffix|]. intros pc l1 _. apply same_bind; [apply parse_msg_w_suffix|]. intros pm l2 _.
    apply same_bind; [destruct pm; [apply parse_msg_w_suffix|apply suffix_refl]|]. intros pp l3 _. apply same_bind; [apply parse_msg_w_suffix|]. intros c l4 _.
    apply same_bind; [apply parse_msg_w_suffix|]. intros id l5 _. destruct (_ && _); [left; split; reflexivity|].
    destruct (parse_msg_w w (u_obsolete u) (lit "msgid_plural") l5) as [[[[pl|]|e|] l6] c6] eqn:E; cbn [wbind]; try (left; split; reflexivity).
    - destruct (plural_taken (u_obsolete u) l5 pl l6) as (p & -> & P); [rewrite E; reflexivity|]. right.
      assert (forall A (a : wres A), suffix (snd (fst a)) l6 -> exists q, p ++ l6 = q ++ snd (fst a) /\ plural_among q) as X.
      { intros A a (q & Q). exists (p ++ q). split; [rewrite Q at 1; apply app_assoc|]. apply plural_app. left. exact P. }
      match goal with |- exists _, _ = _ ++ snd (fst (let (r, c') := ?b in _)) /\ _ => specialize (X _ b); destruct b as [[y l7] c7] eqn:Eb end. cbn [fst snd] in *. apply X.
      apply (f_equal (fun z => snd (fst z))) in Eb. cbn [fst snd] in Eb. rewrite <- Eb.
      apply wbind_suffix; [rewrite new_message_fst; apply new_message_suffix|]. intros [m|] l; apply suffix_refl.
    - assert (forall a b : nat, a = b -> c6 + a = c6 + b) by (intros; lia).
      destruct id as [id|]; cbn [new_message_w wbind]; [|left; split; reflexivity].
      destruct (parse_msg_w w (u_obsolete u) (lit "msgstr") l6) as [[[[t|]|e|] l7] c7]; cbn [wbind]; try (left; split; reflexivity).
      destruct (expected_w (lit "msgstr") l7) as [[[x|e|] l8] c8]; left; split; reflexivity.
  Qed.
  Definition unformed (r : reader) : reader :=
    Reader (rd_lines r) (rd_next_unit r) (rd_header_notes r) (rd_header_comments r) (rd_header_properties r) (rd_target_language r) None.
  Definition rsame {A B} (r : reader) (x : A * reader * nat) (y : B * reader * nat) : Prop :=
    same_cost (rd_lines r) (fst (fst x), rd_lines (snd (fst x)), snd x) (fst (fst y), rd_lines (snd (fst y)), snd y).
  Lemma unit_same first r : rsame r (read_unit_w w first r) (read_unit_w w first (unformed r)).
  Proof.
    unfold read_unit_w. cbn [unformed rd_lines]. destruct (parse_comments_suffix (rd_lines r) unit_default) as (p & E). rewrite <- parse_comments_fst in E.
    destruct (parse_comments_w unit_default (rd_lines r)) as [[[u|e|] l] c]; [|left; split; reflexivity..]. cbn [fst snd] in E.
    unfold read_line_w, read_line. cbn [rd_lines with_lines rd_next_unit].
    destruct l as [|[[x|e]|] l]; cbn [peek hd next tl].
    - left. split; reflexivity.
    - cbn [rd_plural_forms rd_lines with_lines]. change (rd_plural_forms (unformed r)) with (@None plural_forms).
      match goal with |- context [parse_message_fields_w w (rd_plural_forms r) first ?v ?ls] => pose proof (fields_same (rd_plural_forms r) None first v ls) as S;
        destruct (parse_message_fields_w w (rd_plural_forms r) first v ls) as [[o l1] c1], (parse_message_fields_w w None first v ls) as [[o' l2] c2] end.
      assert (forall A B (a : A) (b : B), same_cost (rd_lines r) (a, l1, c + (1 + c1)) (b, l2, c + (1 + c2))) as K.
      { intros A B a b. destruct S as [[S1 S2]|(q & S1 & S2)]; cbn [fst snd] in *; [left; cbn [fst snd]; split; congruence|right].
        exists (p ++ q). cbn [fst snd]. split; [rewrite E, S1; apply app_assoc|]. apply plural_app. right. exact S2. }
      destruct o as [[y|]|e|], o' as [[y'|]|e'|]; try destruct (negb first && msg_is_empty (u_message y)); try destruct (negb first && msg_is_empty (u_message y')); exact (K _ _ _ _).
    - left. change (rd_next_unit (unformed r)) with (rd_next_unit r). destruct (rd_next_unit r) as [[|]|]; split; reflexivity.
    - left. split; reflexivity.
  Qed.
  Lemma next_unit_same first r : rsame r (next_unit_w w first r) (next_unit_w w first (unformed r)).
  Proof.
    pose proof (unit_same first r) as S. unfold next_unit_w.
    destruct (read_unit_w w first r) as [[[[u|]|e|] r1] c1], (read_unit_w w first (unformed r)) as [[[[v|]|e'|] r2] c2]; exact S.
  Qed.
End Forms.

(** ** Calls *)
Lemma lin_cost {A} K (r : reader) (m : A * reader * nat) p : rlin line_chars r (K + 9) m -> rd_lines r = p ++ rd_lines (snd (fst m)) ->
  snd m <= (K + 10) * answers_cost p + (K + 9) * next_cost (rd_lines (snd (fst m))).
Proof.
  intros [_ (D & E & _ & C)] P. cbn [fst snd] in *. rewrite P, weight_app in E. pose proof (weight_cost p). pose proof (hdw_cost (rd_lines (snd (fst m)))). nia.
Qed.
Lemma unit_cost first r K : N.to_nat (forms_count (rd_plural_forms r)) <= K -> 1 <= K ->
  exists p, rd_lines r = p ++ rd_lines (snd (next_unit first r))
    /\ snd (next_unit_w line_chars first r) <= (K + 10) * answers_cost p + (K + 9) * next_cost (rd_lines (snd (next_unit first r)))
    /\ (~ plural_among p -> snd (next_unit_w line_chars first r) <= 12 * answers_cost p + 11 * next_cost (rd_lines (snd (next_unit first r)))).
Proof.
  intros HK K1. destruct (next_unit_suffix first r) as (p & E). exists p. split; [exact E|].
  pose proof (next_unit_fst line_chars first r) as F. pose proof (next_unit_same line_chars first r) as S.
  destruct (next_unit_lin line_chars first r K HK K1) as [L _].
  destruct (next_unit_lin line_chars first (unformed r) 2 (le_n _) ltac:(lia)) as [L0 _].
  destruct (next_unit_w line_chars first r) as [[x r'] n], (next_unit_w line_chars first (unformed r)) as [[x0 r0] n0]. cbn [fst snd] in *. rewrite <- F in *. cbn [snd] in *. split.
  - exact (lin_cost K r (x, r', n) p L E).
  - intros NP. destruct S as [[S1 S2]|(q & S1 & S2)]; cbn [fst snd] in *.
    + subst n0. rewrite S1 in *. exact (lin_cost 2 (unformed r) (x0, r0, n) p L0 E).
    + destruct NP. rewrite E in S1. apply app_inv_tail in S1. subst q. exact S2.
Qed.
Lemma keeps_forms first r : rd_plural_forms (snd (next_unit first r)) = rd_plural_forms r.
Proof. rewrite next_unit_eq. reflexivity. Qed.

Theorem call_cost lib pf evs r0 k K : po_parse lib pf evs = Ok r0 -> N.to_nat (nforms (rd_plural_forms r0)) <= K -> 1 <= K ->
  let r := snd (calls k r0) in let r' := snd (po_next r) in let work := snd (po_next_w line_chars r) in
  fst (po_next_w line_chars r) = po_next r /\ exists taken, rd_lines r = taken ++ rd_lines r'
  /\ work <= (K + 10) * answers_cost taken + (K + 9) * next_cost (rd_lines r')
  /\ (~ plural_among taken -> work <= 12 * answers_cost taken + 11 * next_cost (rd_lines r')).
Proof.
  intros _ HK K1 r r' work. split; [apply po_next_fst|]. subst r' work. rewrite <- (calls_forms k r0) in HK. fold r in HK.
  unfold po_next, po_next_w. destruct (rd_next_unit r) as [[u|e]|].
  - destruct (unit_cost false r K HK K1) as (p & E & C1 & C2). pose proof (next_unit_fst line_chars false r) as F.
    destruct (next_unit_w line_chars false r) as [[x q] n]. cbn [fst snd] in *. rewrite <- F in *. cbn [snd] in *. exists p. destruct x as [nu|]; cbn [snd with_next_unit rd_lines]; auto.
  - exists []. cbn. repeat split; lia.
  - exists []. cbn. repeat split; lia.
Qed.

Lemma next_le p a : next_cost (p ++ a) <= answers_cost p + next_cost a.
Proof. destruct p as [|x p]; [reflexivity|]. unfold answers_cost. cbn [app next_cost map total]. lia. Qed.
Lemma cost_app p q : answers_cost (p ++ q) = answers_cost p + answers_cost q.
Proof. unfold answers_cost. induction p as [|x p IH]; cbn [app map total]; lia. Qed.
Theorem opening_cost lib pf evs r K : po_parse lib pf evs = Ok r -> N.to_nat (nforms (rd_plural_forms r)) <= K -> 1 <= K ->
  let m := reader_new_w line_chars lib pf (responses (li_new evs)) in
  fst m = Ok r /\ exists taken, responses (li_new evs) = taken ++ rd_lines r
  /\ snd m <= (K + 21) * answers_cost taken + (K + 20) * next_cost (rd_lines r)
  /\ (~ plural_among taken -> snd m <= 23 * answers_cost taken + 22 * next_cost (rd_lines r)).
Proof.
  intros P HK K1. unfold po_parse in P. rewrite <- (reader_new_fst line_chars) in P. cbv zeta. split; [exact P|]. revert P.
  generalize (responses (li_new evs)) as ls. intros ls. unfold reader_new_w. cbv zeta. set (q0 := Reader ls None [] [] [] (lang_invariant lib) None).
  destruct (unit_cost true q0 2 (le_n _) ltac:(lia)) as (p & E & C & _). pose proof (next_unit_fst line_chars true q0) as F.
  destruct (next_unit_w line_chars true q0) as [[nu r1] c]. rewrite <- F in *. cbn [fst snd] in *. change (rd_lines q0) with ls in E.
  destruct nu as [nu|]; [|discriminate].
  assert (Ok (with_next_unit r1 nu) = Ok r -> exists taken, ls = taken ++ rd_lines r
    /\ c <= (K + 21) * answers_cost taken + (K + 20) * next_cost (rd_lines r) /\ (~ plural_among taken -> c <= 23 * answers_cost taken + 22 * next_cost (rd_lines r))) as G.
  { intros [= <-]. exists p. cbn [with_next_unit rd_lines]. split; [exact E|]. split; [nia|intros _; nia]. }
  destruct nu as [[u|e]|]; [destruct (msg_is_empty _)|discriminate|]; [clear G|exact G..].
  destruct (parse_po_header lib pf (with_next_unit r1 (Some (UOk u)))) as [[x|e|] r3] eqn:EH; try discriminate.
  apply header_lines in EH. cbn [with_next_unit rd_lines] in EH. unfold tick. intros H.
  assert (N.to_nat (forms_count (rd_plural_forms r3)) <= K) as HK3.
  { pose proof (keeps_forms false r3) as F'. rewrite <- (next_unit_fst line_chars) in F'. destruct (next_unit_w line_chars false r3) as [[[nu|] r4] c']; [|discriminate]. cbn [fst snd] in *.
    injection H as <-. cbn [with_next_unit rd_plural_forms] in HK. rewrite F' in HK. exact HK. }
  destruct (unit_cost false r3 K HK3 K1) as (p2 & E2 & C2 & C3). pose proof (next_unit_fst line_chars false r3) as F2.
  destruct (next_unit_w line_chars false r3) as [[[nu|] r4] c']; cbn [fst snd] in *; [|discriminate]. injection H as <-. cbn [with_next_unit rd_lines].
  rewrite <- F2 in *. cbn [snd] in *. rewrite EH in E2. exists (p ++ p2). rewrite E, E2, app_assoc. split; [reflexivity|].
  rewrite E2 in C. pose proof (next_le p2 (rd_lines r4)). rewrite cost_app. split; [nia|].
  intros NP. assert (~ plural_among p2) as NP2 by (intros X; apply NP; apply plural_app; right; exact X). specialize (C3 NP2). lia.
Qed.
