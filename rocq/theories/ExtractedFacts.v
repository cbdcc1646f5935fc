(** Notes for developers compared with the extracted comments of GNU gettext. *)
From Coq Require Import String Arith NArith ZArith Bool List Lia.
From Verif Require Import ModelBase ModelUtf8 ModelLine ModelFormula ModelData ModelSource ModelReader
  SpecLine SpecFormula SpecSource SpecReader SpecBlock SpecHeader SpecFile SpecFlags SpecExtracted BaseFacts LineFacts LineThms CommentFacts BlockFacts SoundFacts BlocksFacts FileFacts EntryThms FileIntro FlagFacts NoteFacts.
Import ListNotations.
Local Open Scope N_scope.

Lemma white_space : white 32.
Proof. vm_compute. tauto. Qed.
Lemma not_white_dot : ~ white 46.
Proof. vm_compute. intuition discriminate. Qed.
Lemma unindented_exists t : exists x, unindented t x.
Proof. destruct (white_prefix t) as (w & x & -> & B & N). exists x. constructor; assumption. Qed.
Lemma unindented_same t x : unindented t x -> (x = t <-> not_white_first t).
Proof.
  intros [w y B N]. split; [intros <-; exact N|]. intros H. destruct w as [|c w]; [reflexivity|]. exfalso. apply (H c (w ++ y) eq_refl). apply B. left. reflexivity.
Qed.
Lemma extracted_of s r w : s = w ++ 35 :: 46 :: r -> blanks w -> exists t, extracted_comment s t /\ forall x, unindented r x -> unindented t x.
Proof.
  intros E B. destruct r as [|c r].
  - exists []. split; [|auto]. exists w, []. split; [exact E|]. split; [exact B|]. right. split; [reflexivity|discriminate].
  - destruct (N.eq_dec c 32) as [->|Nc].
    + exists r. split; [exists w, (32 :: r); auto|]. intros x U. inversion U as [v y Bv Ny Ev]. subst y. destruct v as [|d v].
      * cbn in Ev. subst x. exfalso. exact (Ny 32 r eq_refl white_space).
      * injection Ev as -> <-. constructor; [intros z I; apply Bv; right; exact I|exact Ny].
    + exists (c :: r). split; [|auto]. exists w, (c :: r). split; [exact E|]. split; [exact B|]. right. split; [reflexivity|]. intros r' [= ? _]. contradiction.
Qed.
Lemma extracted_more s t : extracted_comment s t -> exists w w1, s = w ++ 35 :: 46 :: w1 ++ t /\ blanks w /\ blanks w1.
Proof.
  intros (w & r & -> & B & [->|(-> & _)]); [exists w, [32]|exists w, []]; (split; [reflexivity|]; split; [exact B|]); [intros c [<-|[]]; exact white_space|intros c []].
Qed.
Theorem extracted_line s t n : one_line s -> extracted_comment s t -> exists x, unindented t x /\ parse_line s n = Some (PComment n 46 x) /\ (x = t <-> not_white_first t).
Proof.
  intros O X. destruct (extracted_more _ _ X) as (w & w1 & -> & B & B1). destruct (unindented_exists t) as (x & U). exists x. split; [exact U|]. split; [|apply unindented_same, U].
  destruct U as [w2 x B2 N]. assert (E : w ++ 35 :: 46 :: w1 ++ w2 ++ x = w ++ [35; 46] ++ (w1 ++ w2) ++ x) by (rewrite <- !app_assoc; reflexivity).
  rewrite E in *. apply hash_kind_comment; auto.
  - intros c I. apply in_app_iff in I as [I|I]; auto.
  - exact not_white_dot.
  - cbn. intuition discriminate.
Qed.
Lemma extracted_back s n m x : one_line s -> parse_line s n = Some (PComment m 46 x) -> exists t, extracted_comment s t /\ unindented t x.
Proof.
  intros O P. apply (parse_line_comment _ _ _ _ _ O) in P as (_ & (w & B & [(_ & E & _)|(w2 & B2 & N & E)]) & _); [discriminate|].
  destruct (extracted_of s (w2 ++ x) w E B) as (t & X & H). exists t. split; [exact X|]. apply H. constructor; assumption.
Qed.
Theorem extracted_iff s n x : one_line s -> (parse_line s n = Some (PComment n 46 x) <-> exists t, extracted_comment s t /\ unindented t x).
Proof.
  intros O. split; [apply extracted_back, O|]. intros (t & X & U). destruct (extracted_line s t n O X) as (y & V & P & _). rewrite P. repeat f_equal.
  destruct U as [w x B N]. inversion V as [w' y' B' N' E]. subst y'. apply app_eq_app in E as (l & [(-> & E)|(-> & E)]); (destruct l as [|c l]; [cbn in E; congruence|]); exfalso; subst.
  - apply (N c (l ++ y) eq_refl). apply B'. apply in_app_iff. right. left. reflexivity.
  - apply (N' c (l ++ x) eq_refl). apply B. apply in_app_iff. right. left. reflexivity.
Qed.

(** * Units *)
Lemma parsed_split n ls e pl tl : parsed n ls e pl tl -> forall p q, pl = p ++ q ->
  exists l1 l2, ls = l1 ++ l2 /\ parsed n l1 None p None /\ parsed (n + N.of_nat (length l1)) l2 e q tl.
Proof.
  assert (Z : forall n ls e q tl, parsed n ls e q tl -> exists l1 l2, ls = l1 ++ l2 /\ parsed n l1 None [] None /\ parsed (n + N.of_nat (length l1)) l2 e q tl).
  { intros n' ls' e' q tl' H. exists [], ls'. split; [reflexivity|]. split; [constructor|]. cbn. rewrite N.add_0_r. exact H. }
  intros H. induction H as [n|n e|n s ls e O B|n s ls e pl tl O L H IH|n s l ls e pl tl O L Nb H IH]; intros p q E.
  1-3: symmetry in E; apply app_eq_nil in E as [-> ->]; apply Z; constructor; assumption.
  - destruct (IH p q E) as (l1 & l2 & -> & A & C). exists (s :: l1), l2. split; [reflexivity|]. split; [apply ps_blank; assumption|].
    cbn [length]. rewrite Nat2N.inj_succ. replace (n + N.succ (N.of_nat (length l1))) with (n + 1 + N.of_nat (length l1)) by lia. exact C.
  - destruct p as [|l' p]; [cbn in E; subst q; apply Z; apply ps_line; assumption|]. injection E as <- E.
    destruct (IH p q E) as (l1 & l2 & -> & A & C). exists (s :: l1), l2. split; [reflexivity|]. split; [apply ps_line; assumption|].
    cbn [length]. rewrite Nat2N.inj_succ. replace (n + N.succ (N.of_nat (length l1))) with (n + 1 + N.of_nat (length l1)) by lia. exact C.
Qed.
Lemma developer_app a b : developer_texts (a ++ b) = developer_texts a ++ developer_texts b.
Proof. apply flat_map_app. Qed.
Lemma parsed_extracted n ls e pl tl : parsed n ls e pl tl -> e = None -> tl = None -> exists ts, extracted ls ts /\ Forall2 unindented ts (developer_texts (flat_map line_notes pl)).
Proof.
  intros H. induction H as [n|n e|n s ls e O B|n s ls e pl tl O L H IH|n s l ls e pl tl O L Nb H IH]; intros Ee Et; try discriminate.
  - exists []. split; constructor.
  - destruct (IH Ee Et) as (ts & X & F). exists ts. split; [|exact F]. apply ex_other; [|exact X]. intros t Xt.
    destruct (extracted_line s t n O Xt) as (x & _ & P & _). apply (proj1 (line_of_iff _ _ _ O)) in L. unfold str, char in *. rewrite P in L. discriminate.
  - destruct (IH Ee Et) as (ts & X & F). apply (proj1 (line_of_iff _ _ _ O)) in L. cbn [flat_map]. rewrite developer_app.
    assert (D : (exists x, l = PComment n 46 x) \/ developer_texts (line_notes l) = [] /\ forall t, ~ extracted_comment s t).
    { assert (Y : forall t, extracted_comment s t -> exists x, l = PComment n 46 x).
      { intros t Xt. destruct (extracted_line s t n O Xt) as (y & _ & P & _). exists y. unfold str, char in *. rewrite P in L. injection L as <-. reflexivity. }
      destruct l as [|m k x| |]; [|destruct (N.eq_dec k 46) as [->|Nk]|..]; [right| |right..]; try (split; [reflexivity|]; intros t Xt; destruct (Y t Xt); discriminate).
      2: split; [cbn; destruct (N.eqb_spec k 46); [contradiction|]; destruct (k =? 32); reflexivity|intros t Xt; destruct (Y t Xt) as (y & [= _ E _]); contradiction].
      left. exists x. f_equal. apply (parse_line_comment _ _ _ _ _ O) in L. apply L. }
    destruct D as [(x & ->)|(D & No)].
    + destruct (extracted_back _ _ _ _ O L) as (t & Xt & U). exists (t :: ts). split; [apply ex_one; assumption|]. cbn. constructor; assumption.
    + rewrite D. exists ts. split; [apply ex_other; assumption|exact F].
Qed.
Theorem unit_extracted lib pf evs ls e pl tl c k u : file evs ls e pl tl -> read_catalogue lib pf evs = Ok c -> nth_error (c_items c) k = Some (UOk u) ->
  exists forms a m z n b ts, ls = a ++ m ++ z /\ parsed n m None b None /\ unit_at lib pf pl tl c k forms b u
    /\ extracted m ts /\ Forall2 unindented ts (developer_texts (u_notes u)).
Proof.
  intros Fi R Nk. destruct (unit_notes lib pf evs ls e pl tl c k u Fi R Nk) as (forms & cs & ks & U & Cc & Nk' & En).
  destruct Fi as (bs & f & _ & _ & P). pose proof U as [h bls r us items E _ _ _ _ _ _].
  destruct (parsed_split _ _ _ _ _ P (h ++ concat bls) ((cs ++ ks) ++ r)) as (a & l2 & -> & _ & P2); [rewrite E; apply app_assoc|].
  destruct (parsed_split _ _ _ _ _ P2 (cs ++ ks) r eq_refl) as (m & z & -> & P3 & _).
  destruct (parsed_extracted _ _ _ _ _ P3 eq_refl eq_refl) as (ts & X & F).
  exists forms, a, m, z, (1 + N.of_nat (length a)), (cs ++ ks), ts. split; [reflexivity|]. split; [exact P3|]. split; [exact U|]. split; [exact X|].
  rewrite flat_map_app in F. replace (flat_map line_notes ks) with (@nil note) in F; [rewrite app_nil_r in F; rewrite En; exact F|].
  clear -Nk'. induction ks as [|l ks IH]; [reflexivity|]. cbn [flat_map]. rewrite <- IH by (intros Ex; apply Nk'; right; exact Ex).
  destruct l; try reflexivity. exfalso. apply Nk'. left. exact Logic.I.
Qed.

(** * Witnesses *)
Theorem extracted_indent_refuted : exists s t s' t' ls u, extracted_comment s t /\ extracted_comment s' t' /\ t <> t' /\ length (u_notes u) = 1%nat
  /\ forall lib pf, exists c, read_catalogue lib pf (str_stream (s :: ls)) = Ok c /\ read_catalogue lib pf (str_stream (s' :: ls)) = Ok c /\ c_items c = [UOk u].
Proof.
  exists (lit "#. a"), (lit "a"), (lit "#.   a"), (lit "  a"), [lit "msgid ""a"""; lit "msgstr ""b"""], (noted_unit [Note Developer (lit "a")] []).
  split; [exists [], (lit " a"); split; [reflexivity|]; split; [intros c []|left; reflexivity]|].
  split; [exists [], (lit "   a"); split; [reflexivity|]; split; [intros c []|left; reflexivity]|].
  split; [discriminate|]. split; [reflexivity|]. intros lib pf. eexists. split; [vm_compute; reflexivity|]. split; vm_compute; reflexivity.
Qed.
Theorem solaris_refuted : exists s name number ls u, solaris_location s name number
  /\ u_locations u = [] /\ length (u_notes u) = 1%nat
  /\ forall lib pf, exists c, read_catalogue lib pf (str_stream (s :: ls)) = Ok c /\ c_items c = [UOk u].
Proof.
  exists (lit "# File: a.c, line: 5"), (lit "a.c"), (lit "5"), [lit "msgid ""a"""; lit "msgstr ""b"""], (noted_unit [Note Translator (lit "File: a.c, line: 5")] []).
  split; [split; [reflexivity|]; split; [discriminate|]; intros c [<-|[]]; vm_compute; tauto|]. split; [reflexivity|]. split; [reflexivity|].
  intros lib pf. eexists. split; vm_compute; reflexivity.
Qed.
Theorem solaris_line s name number n : one_line s -> solaris_location s name number -> parse_line s n = Some (PComment n 32 (lit "File: " ++ name ++ lit ", line: " ++ number)).
Proof.
  intros O (E & _ & _). set (t := lit "File: " ++ name ++ lit ", line: " ++ number). assert (Et : s = lit "# " ++ t) by (rewrite E; reflexivity).
  assert (Ot : one_line t) by (intros I; apply O; rewrite Et; right; right; exact I).
  assert (H : ~ white 70) by (vm_compute; intuition discriminate).
  assert (Hd : exists t', t = 70 :: t') by (eexists; reflexivity). destruct Hd as (t' & Hd).
  assert (Ns : ~ string_text t).
  { intros (kw & body & w & w' & w'' & X & K & B & B' & _). rewrite Hd in X. destruct w as [|c w]; [|injection X as <- _; apply H, B; left; reflexivity].
    destruct kw as [kw|]; [destruct (keyword_head kw (K kw eq_refl)) as (k' & ->); discriminate|]. cbn [opt_str app] in X. destruct w' as [|c w']; [discriminate|].
    injection X as <- _. apply H, B'. left. reflexivity. }
  destruct (free_comment t n Ot Ns) as (w & c & Ec & Bw & Nw & P). rewrite Et. rewrite P. do 2 f_equal. destruct w as [|x w]; [symmetry; exact Ec|]. exfalso. rewrite Hd in Ec. injection Ec as <- _. apply H, Bw. left. reflexivity.
Qed.
