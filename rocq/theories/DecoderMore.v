(** No question is asked twice, and there are not many. *)
From Coq Require Import String Arith NArith ZArith Bool List Lia.
From Verif Require Import ModelBase ModelUtf8 ModelLine ModelFormula ModelData ModelSource ModelReader ModelDecoder SpecLine SpecFormula SpecBlock SpecDecoder BaseFacts FormulaThms DecFacts DecoderFacts.
Import ListNotations.

Lemma NoDup_join {A} (a b : list A) : NoDup a -> NoDup b -> (forall x, In x a -> ~ In x b) -> NoDup (a ++ b).
Proof.
  induction 1 as [|x a N1 N2 IH]; intros Nb D; cbn [app]; [exact Nb|]. constructor; [|apply IH; [exact Nb|intros y I; apply D; right; exact I]].
  intros I. apply in_app_or in I as [I|I]; [contradiction|]. apply (D x (or_introl eq_refl) I).
Qed.
Lemma values_questions n i l vs : values_talk n i l vs -> NoDup (map fst l) /\ (forall q, In q (map fst l) -> exists j, (i <= j)%N /\ q = AskText (msgstr_tag j))
  /\ (i + N.of_nat (length l) = N.max i n)%N.
Proof.
  assert (forall i l kw (a : answer), msgstr_kw i kw -> NoDup (map fst l) /\ (forall q, In q (map fst l) -> exists j, (i + 1 <= j)%N /\ q = AskText (msgstr_tag j)) ->
    NoDup (map fst ((AskText kw, a) :: l)) /\ forall q, In q (map fst ((AskText kw, a) :: l)) -> exists j, (i <= j)%N /\ q = AskText (msgstr_tag j)) as K.
  { intros i0 l0 kw a M [N Q]. apply msgstr_kw_iff in M as ->. cbn [map fst]. split.
    - constructor; [|exact N]. intros I. destruct (Q _ I) as (j & L & E). pose proof (msgstr_tag_inj _ _ (f_equal (fun q => match q with AskText t => t | AskMissed t => t end) E)) as E'. lia.
    - intros q [<-|I]; [exists i0; split; [lia|reflexivity]|]. destruct (Q q I) as (j & L & ->). exists j. split; [lia|reflexivity]. }
  induction 1 as [i L|i kw v l vs L M T (N & Q & C)|i kw l vs L M T (N & Q & C)].
  - split; [constructor|]. split; [intros q []|]. cbn. lia.
  - destruct (K i l kw (Text (Some v)) M (conj N Q)) as [N' Q']. split; [exact N'|]. split; [exact Q'|]. cbn [length]. lia.
  - destruct (K i l kw (Text None) M (conj N Q)) as [N' Q']. split; [exact N'|]. split; [exact Q'|]. cbn [length]. lia.
Qed.
Definition early : list question :=
  [AskText (lit "|msgctxt"); AskText (lit "|msgid"); AskText (lit "|msgid_plural"); AskText (lit "msgctxt")].
Definition late (q : question) : Prop :=
  In q [AskText (lit "msgid"); AskText (lit "msgid_plural"); AskText (lit "msgstr"); AskMissed (lit "msgid"); AskMissed (lit "msgstr"); AskMissed (lit "msgstr[0]")] \/ exists j, q = AskText (msgstr_tag j).
Ltac distinct := repeat constructor; cbn [In]; intuition discriminate.
Lemma message_questions forms first l m : message_talk forms first l m ->
  NoDup (map fst l) /\ (forall q, In q (map fst l) -> late q) /\ (N.of_nat (length l) <= 4 + (match forms with Some f => pf_count f | None => 2 end))%N.
Proof.
  intros T. destruct T as [F|p F|i|i t N|i|i p l vs T N|i p l T].
  - split; [distinct|]. split; [|cbn [length]; generalize (match forms with Some f => pf_count f | None => 2%N end); intros; lia]. intros q I. left. cbn in *. intuition.
  - split; [distinct|]. split; [|cbn [length]; generalize (match forms with Some f => pf_count f | None => 2%N end); intros; lia]. intros q I. left. cbn in *. intuition.
  - split; [distinct|]. split; [|cbn [length]; generalize (match forms with Some f => pf_count f | None => 2%N end); intros; lia]. intros q I. left. cbn in *. intuition.
  - split; [distinct|]. split; [|cbn [length]; generalize (match forms with Some f => pf_count f | None => 2%N end); intros; lia]. intros q I. left. cbn in *. intuition.
  - split; [distinct|]. split; [|cbn [length]; generalize (match forms with Some f => pf_count f | None => 2%N end); intros; lia]. intros q I. left. cbn in *. intuition.
  - destruct (values_questions _ _ _ _ T) as (ND & Q & C). split; [|split].
    + cbn [map fst text_of]. constructor; [|constructor; [|exact ND]].
      * intros [E|I]; [discriminate|]. destruct (Q _ I) as (j & _ & E). discriminate.
      * intros I. destruct (Q _ I) as (j & _ & E). discriminate.
    + intros q [<-|[<-|I]]; [left; cbn; auto|left; cbn; auto|]. destruct (Q q I) as (j & _ & ->). right. eauto.
    + cbn [length]. lia.
  - destruct (values_questions _ _ _ _ T) as (ND & Q & C). cbn [map fst text_of]. rewrite map_app. split; [|split].
    + constructor; [|constructor].
      * intros [E|I]; [discriminate|]. apply in_app_or in I as [I|[I|[]]]; [|cbn in I; discriminate I]. destruct (Q _ I) as (j & _ & E). discriminate.
      * intros I. apply in_app_or in I as [I|[I|[]]]; [|cbn in I; discriminate I]. destruct (Q _ I) as (j & _ & E). discriminate.
      * apply NoDup_join; [exact ND|constructor; [intros []|constructor]|]. intros x I [<-|[]]. destruct (Q _ I) as (j & _ & E). discriminate E.
    + intros q [<-|[<-|I]]; [left; cbn; auto|left; cbn; auto|]. apply in_app_or in I as [I|[<-|[]]]; [|left; cbn; auto 8]. destruct (Q q I) as (j & _ & ->). right. eauto.
    + cbn [length]. rewrite app_length. cbn [length]. lia.
Qed.
Lemma late_early q : late q -> ~ In q early.
Proof. intros [I|(j & ->)] J; [cbn in *; intuition congruence|]. cbn [In early] in J. intuition discriminate. Qed.
Lemma whole_questions forms first u l r : whole_talk forms first u l r ->
  NoDup (map fst l) /\ (N.of_nat (length l) <= 8 + (match forms with Some f => pf_count f | None => 2 end))%N.
Proof.
  intros [l0 pc pm c l' m P M]. destruct (message_questions _ _ _ _ M) as (ND & Q & L).
  assert (NoDup (map fst (l0 ++ [text_of "msgctxt" c])) /\ (forall q, In q (map fst (l0 ++ [text_of "msgctxt" c])) -> In q early) /\ (length l0 <= 3)%nat) as (N0 & Q0 & L0).
  { destruct P; (split; [distinct|split; [intros q I; cbn in *; intuition|cbn; lia]]). }
  change (text_of "msgctxt" c :: l') with ([text_of "msgctxt" c] ++ l'). rewrite app_assoc. split.
  - rewrite map_app. apply NoDup_join; [exact N0|exact ND|]. intros q I J. exact (late_early q (Q q J) (Q0 q I)).
  - rewrite !app_length. cbn [length]. lia.
Qed.
Theorem questions_once forms first u l o : extraction forms first u l o ->
  NoDup (map fst l) /\ (N.of_nat (length l) <= 8 + (match forms with Some f => pf_count f | None => 2 end))%N.
Proof.
  assert (forall l0 (q : question) (a a' : answer) l1 n, NoDup (map fst (l0 ++ (q, a) :: l1)) /\ (N.of_nat (length (l0 ++ (q, a) :: l1)) <= n)%N ->
    NoDup (map fst (l0 ++ [(q, a')])) /\ (N.of_nat (length (l0 ++ [(q, a')])) <= n)%N) as K.
  { intros l0 q a a' l1 n [N L]. rewrite app_length in *. cbn [length] in *. split; [|lia]. rewrite map_app in *. cbn [map fst] in *.
    clear - N. induction (map fst l0) as [|x xs IH]; cbn [app] in *; [constructor; [intros []|constructor]|]. inversion N as [|y ys N1 N2]; subst. constructor; [|apply IH, N2].
    intros I. apply N1. apply in_app_or in I as [I|[I|[]]]; apply in_or_app; [left; exact I|right; left; exact I]. }
  intros [l0 r W|l0 q a l1 r e W|l0 q a l1 r W].
  - exact (whole_questions _ _ _ _ _ W).
  - exact (K _ _ _ _ _ _ (whole_questions _ _ _ _ _ W)).
  - exact (K _ _ _ _ _ _ (whole_questions _ _ _ _ _ W)).
Qed.
