(** The patterns of the model are those that the texts in the source stand for (C02, C03, C04, C27,
    C28). *)
From Coq Require Import String Arith NArith Bool List Lia.
From Verif Require Import ModelBase ModelRegex ModelLine SpecPattern.
Import ListNotations.

Definition same_matches (a b : re) : Prop := forall st k, mtch a st k = mtch b st k.
Lemma matches_pattern a b : same_matches a b -> same_pattern a b.
Proof.
  intros H. assert (forall s pos, re_find_from a pos s = re_find_from b pos s) as F.
  { induction s as [|c s IH]; intros pos; cbn [re_find_from]; rewrite H; [reflexivity|]. rewrite IH. reflexivity. }
  assert (forall fuel pos s, re_iter fuel a pos s = re_iter fuel b pos s) as I.
  { induction fuel as [|fuel IH]; intros pos s; [reflexivity|]. cbn [re_iter]. rewrite F. destruct (re_find_from b pos s) as [[pre st]|]; [|reflexivity]. rewrite IH. reflexivity. }
  split; [intros s; unfold re_captures; rewrite F; reflexivity|]. split; [intros s; unfold re_is_match; rewrite F; reflexivity|].
  split; [intros s; unfold re_captures_iter; rewrite I; reflexivity|]. intros f s. unfold re_replace_all. rewrite I. reflexivity.
Qed.
Lemma written_map : stands_for map_pattern map_re.
Proof. eexists. split; [reflexivity|]. apply matches_pattern. intros st k. reflexivity. Qed.
Lemma written_check : stands_for map_check_pattern map_check_re.
Proof. eexists. split; [reflexivity|]. apply matches_pattern. intros st k. reflexivity. Qed.
Lemma written_comment : stands_for comment_pattern comment_re.
Proof. eexists. split; [reflexivity|]. apply matches_pattern. intros st k. reflexivity. Qed.

(** Classes with the same characters. *)
Inductive classes : re -> re -> Prop :=
| cl_refl a : classes a a
| cl_cls p q : (forall c, p c = q c) -> classes (RCls p) (RCls q)
| cl_seq a b a' b' : classes a a' -> classes b b' -> classes (RSeq a b) (RSeq a' b')
| cl_alt a b a' b' : classes a a' -> classes b b' -> classes (RAlt a b) (RAlt a' b')
| cl_opt a a' : classes a a' -> classes (ROpt a) (ROpt a')
| cl_grp i a a' : classes a a' -> classes (RGrp i a) (RGrp i a').
Lemma star_ext m g : (forall st k k', (forall x, k x = k' x) -> m st k = m st k') -> forall fuel st k k', (forall x, k x = k' x) -> star_loop m g k fuel st = star_loop m g k' fuel st.
Proof.
  intros M. induction fuel as [|fuel IH]; intros st k k' E; [apply E|]. cbn [star_loop]. rewrite E.
  rewrite (M st _ (fun st' => if length (ms_rest st') <? length (ms_rest st) then star_loop m g k' fuel st' else None)); [reflexivity|].
  intros x. destruct (_ <? _); [apply IH, E|reflexivity].
Qed.
Lemma mtch_ext r : forall st k k', (forall x, k x = k' x) -> mtch r st k = mtch r st k'.
Proof.
  induction r as [|p|a IHa b IHb|a IHa b IHb|g a IHa|a IHa|i a IHa| |]; intros st k k' E; cbn [mtch].
  - apply E.
  - destruct (ms_rest st); [reflexivity|]. destruct (p _); [apply E|reflexivity].
  - apply IHa. intros x. apply IHb, E.
  - rewrite (IHa st k k' E), (IHb st k k' E). reflexivity.
  - apply star_ext; assumption.
  - rewrite (IHa st k k' E), E. reflexivity.
  - apply IHa. intros x. apply E.
  - destruct (_ =? _); [apply E|reflexivity].
  - destruct (ms_rest st); [apply E|reflexivity].
Qed.
Lemma classes_matches a b : classes a b -> same_matches a b.
Proof.
  unfold same_matches. induction 1 as [a|p q H|a b a' b' _ IHa _ IHb|a b a' b' _ IHa _ IHb|a a' _ IHa|i a a' _ IHa]; intros st k; cbn [mtch].
  - reflexivity.
  - destruct (ms_rest st); [reflexivity|]. rewrite H. reflexivity.
  - rewrite IHa. apply mtch_ext. intros x. apply IHb.
  - rewrite IHa, IHb. reflexivity.
  - rewrite IHa. reflexivity.
  - apply IHa.
Qed.
Local Open Scope N_scope.
Definition tag_re' : re :=
  RAlt (rlit (lit "msgctxt")) (RAlt (rlit (lit "msgid")) (RAlt (rlit (lit "msgid_plural"))
    (RSeq (rlit (lit "msgstr")) (ROpt (rseq [ rch 91; RAlt (rch 48) (RSeq (RCls (in_class [(49, 57)])) (RStar true (RCls cls_d))); rch 93 ]))))).
Definition message_re' : re :=
  rseq [ RBol; r_ws; ROpt (RSeq (rch 35) (RGrp 1 (RSeq (ROpt (rch 126)) (ROpt (rch 124)))));
         r_ws; ROpt (RGrp 2 tag_re'); r_ws; rch 34; RGrp 3 (RStar true (RCls cls_any)); rch 34; r_ws; REol ].
Lemma message_classes : classes message_re' message_re.
Proof.
  unfold message_re, message_re', tag_re, tag_re'. cbn [rseq]. repeat (apply cl_refl || apply cl_seq || apply cl_opt || apply cl_grp || apply cl_alt).
  apply cl_cls. intros c. cbn. apply orb_false_r.
Qed.
Lemma written_message : stands_for message_pattern message_re.
Proof.
  eexists. split; [reflexivity|]. apply matches_pattern. intros st k. rewrite <- (classes_matches _ _ message_classes). reflexivity.
Qed.
Definition unescape_re' : re := RSeq (rch 92) (RGrp 1 (RCls (in_class [(114, 114); (116, 116); (110, 110); (34, 34); (92, 92)]))).
Lemma one_char a c : (a <=? c) && (c <=? a) = (c =? a).
Proof. destruct (N.leb_spec a c), (N.leb_spec c a), (N.eqb_spec c a); try reflexivity; lia. Qed.
Lemma unescape_classes : classes unescape_re' unescape_re.
Proof. apply cl_seq; [apply cl_refl|]. apply cl_grp, cl_cls. intros c. cbn [in_class existsb fst snd]. rewrite !one_char. reflexivity. Qed.
Lemma written_unescape : stands_for unescape_pattern unescape_re.
Proof.
  eexists. split; [reflexivity|]. apply matches_pattern. intros st k. rewrite <- (classes_matches _ _ unescape_classes). reflexivity.
Qed.
