(** Lines that end with a backslash. *)
From Coq Require Import String Arith NArith ZArith Bool List Lia.
From Verif Require Import ModelBase ModelUtf8 ModelLine ModelFormula ModelData ModelSource ModelReader
  SpecLine SpecSource SpecReader SpecBlock SpecHeader SpecFile SpecBackslash BaseFacts LineFacts BlocksFacts FileFacts BlockThms FileIntro.
Import ListNotations.
Local Open Scope N_scope.

Lemma last_of {A} (a b : list A) x y : a ++ [x] = b ++ [y] -> x = y.
Proof. intros H. apply app_inj_tail in H. apply H. Qed.
Lemma end_not_blank w : blanks w -> forall a t, a ++ w = t ++ [92] -> w = [].
Proof.
  intros B a t. destruct w as [|x w] using rev_ind; [reflexivity|]. intros H. rewrite app_assoc in H. apply last_of in H. subst x.
  specialize (B 92 ltac:(apply in_or_app; right; left; reflexivity)). cbn in B. intuition discriminate.
Qed.
Theorem backslash_is_comment s n l : ends_in_backslash s -> line_of s n l -> exists k t, l = PComment n k t /\ ends_in_backslash (k :: t).
Proof.
  intros (x & E) H.
  assert (forall flags kw q, ~ quoted_line s flags kw q) as NQ.
  { intros flags kw q (mark & w1 & w2 & w3 & w4 & Es & _ & _ & _ & _ & _ & B & _). rewrite Es in E. rewrite !app_assoc in E.
    pose proof (end_not_blank _ B _ _ E) as ->. rewrite app_nil_r in E. apply last_of in E. discriminate. }
  destruct H as [B|flags kw q t Q _|flags q t Q _|k t (w1 & B1 & [(Es & -> & ->)|(w2 & B2 & NW & Es)]) _].
  - exfalso. pose proof (end_not_blank s B [] x E) as ->. destruct x; discriminate.
  - destruct (NQ _ _ _ Q).
  - destruct (NQ _ _ _ Q).
  - rewrite Es in E. apply last_of in E. discriminate.
  - exists k, t. split; [reflexivity|]. rewrite Es in E. destruct t as [|c t _] using rev_ind.
    + rewrite app_nil_r, app_assoc in E. pose proof (end_not_blank _ B2 _ _ E) as ->. rewrite app_nil_r in E. change ([35; k]) with ([35] ++ [k]) in E. rewrite app_assoc in E.
      apply last_of in E as ->. exists []. reflexivity.
    + rewrite !app_assoc in E. apply last_of in E as ->. exists (k :: t). reflexivity.
Qed.
Theorem backslash_line s n l : one_line s -> ends_in_backslash s -> parse_line s n = Some l -> exists k t, l = PComment n k t /\ ends_in_backslash (k :: t).
Proof. intros O X P. apply (backslash_is_comment s n l X). apply line_of_iff; assumption. Qed.
Lemma joined_same ls : Forall (fun s => ~ ends_in_backslash s) ls -> forall ls', joined ls ls' <-> ls' = ls.
Proof.
  induction 1 as [|s ls N F IH]; intros ls'; split.
  - intros J. inversion J. reflexivity.
  - intros ->. constructor.
  - intros J. inversion J as [|? ? ? ? J'|t ? ? ? ? E|t E]; subst; [f_equal; apply IH, J'| |]; destruct N; eexists; reflexivity.
  - intros ->. constructor; [exact N|]. apply IH. reflexivity.
Qed.
Lemma parsed_backslash n ls e pl tl : parsed n ls e pl tl -> tl = None -> (forall m k t, In (PComment m k t) pl -> ~ ends_in_backslash (k :: t)) -> Forall (fun s => ~ ends_in_backslash s) ls.
Proof.
  induction 1 as [n|n e|n s ls e O N|n s ls e pl tl O B P IH|n s l ls e pl tl O L NB P IH]; intros T H; try discriminate; constructor.
  - intros X. destruct (backslash_is_comment _ _ _ X B) as (k & t & E & _). discriminate.
  - apply IH; assumption.
  - intros X. destruct (backslash_is_comment _ _ _ X L) as (k & t & -> & Y). exact (H n k t (or_introl eq_refl) Y).
  - apply IH; [exact T|]. intros m k t I. exact (H m k t (or_intror I)).
Qed.
Theorem nothing_joined lib pf evs ls e pl tl c : file evs ls e pl tl -> read_catalogue lib pf evs = Ok c -> (forall x, ~ In (UErr x) (c_items c)) ->
  (forall n k t, In (PComment n k t) pl -> ~ ends_in_backslash (k :: t)) -> forall ls', joined ls ls' <-> ls' = ls.
Proof.
  intros Fi R NE NC. destruct (catalogue_entries lib pf evs ls e pl tl c Fi R NE) as (_ & -> & _). destruct Fi as (bs & f & _ & _ & P).
  apply joined_same. exact (parsed_backslash _ _ _ _ _ P eq_refl NC).
Qed.
(** A string that goes on in the next line. *)
Theorem split_string_refuted : let ls := ["msgid ""a\"; "b"""; "msgstr ""c"""]%string in let ls' := ["msgid ""ab"""; "msgstr ""c"""]%string in
  exists u, joined (map lit ls) (map lit ls') /\ forall lib pf, (exists c, read_catalogue lib pf (lf_stream ls') = Ok c /\ c_items c = [UOk u])
  /\ exists x, read_catalogue lib pf (lf_stream ls) = Err x.
Proof.
  intros ls ls'. exists (simple_unit (lit "ab") (lit "c")). split.
  - apply (jn_join (lit "msgid ""a") _ (lit "b""") [lit "msgstr ""c"""]). cbn [map]. constructor; [|constructor; [|constructor]]; intros (t & E); apply (f_equal (fun l => last l 0)) in E; rewrite last_last in E; discriminate.
  - intros lib pf. split; [eexists; split; vm_compute; reflexivity|eexists; vm_compute; reflexivity].
Qed.
(** A comment that goes on in the next line. *)
Theorem comment_joined_refuted : let ls := ["# C:\"; "msgid ""a"""; "msgstr ""b"""]%string in let ls' := ["# C:msgid ""a"""; "msgstr ""b"""]%string in
  exists u, joined (map lit ls) (map lit ls') /\ forall lib pf, (exists c, read_catalogue lib pf (lf_stream ls) = Ok c /\ c_items c = [UOk u])
  /\ exists c x, read_catalogue lib pf (lf_stream ls') = Ok c /\ c_items c = [UErr x].
Proof.
  intros ls ls'. eexists. split.
  - apply (jn_join (lit "# C:") _ (lit "msgid ""a""") [lit "msgstr ""b"""]). cbn [map]. constructor; [|constructor; [|constructor]]; intros (t & E); apply (f_equal (fun l => last l 0)) in E; rewrite last_last in E; discriminate.
  - intros lib pf. split; [eexists; split; vm_compute; reflexivity|do 2 eexists; split; vm_compute; reflexivity].
Qed.
