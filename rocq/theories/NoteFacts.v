(** Notes compared with GNU gettext. *)
From Coq Require Import String Arith NArith ZArith Bool List Lia.
From Verif Require Import ModelBase ModelUtf8 ModelLine ModelFormula ModelData ModelSource ModelReader
  SpecLine SpecFormula SpecSource SpecReader SpecBlock SpecHeader SpecFile SpecFlags BaseFacts LineFacts LineThms CommentFacts BlockFacts SoundFacts BlocksFacts FileFacts EntryThms FileIntro FlagFacts.
Import ListNotations.
Local Open Scope N_scope.

Lemma white_prefix t : exists w x, t = w ++ x /\ blanks w /\ not_white_first x.
Proof.
  induction t as [|c t (w & x & -> & B & N)]; [exists [], []; split; [reflexivity|]; split; [intros c []|discriminate]|].
  destruct (in_dec N.eq_dec c white_points) as [I|I].
  - exists (c :: w), x. split; [reflexivity|]. split; [intros d [<-|J]; [exact I|apply B, J]|exact N].
  - exists [], (c :: w ++ x). split; [reflexivity|]. split; [intros d []|]. intros d r [= <- _]. exact I.
Qed.
Lemma hash_split w t w' u : w ++ 35 :: t = w' ++ 35 :: u -> blanks w -> blanks w' -> t = u.
Proof.
  assert (H : ~ white 35) by (vm_compute; intuition discriminate).
  intros E B B'. apply app_eq_app in E as (l & [(-> & E)|(-> & E)]); (destruct l as [|c l]; [injection E as E; congruence|]); injection E as <- _; exfalso; apply H; [apply B|apply B']; apply in_app_iff; right; left; reflexivity.
Qed.
Theorem translator_line s t n : one_line s -> translator_comment s t -> (forall flags kw body, ~ quoted_line s flags kw body) ->
  (forall x, parse_line s n = Some (PComment n 32 x) <-> (t = [] /\ x = []) \/ exists w, t = 32 :: w ++ x /\ blanks w /\ not_white_first x)
  /\ (forall c t', t = c :: t' -> c <> 32 -> exists w x, t' = w ++ x /\ blanks w /\ not_white_first x /\ parse_line s n = Some (PComment n c x)
        /\ block_comments [PComment n c x] [] [] [] [Comment c x]).
Proof.
  intros O (w & -> & B & K) Q. split.
  - intros x. rewrite (parse_line_comment _ _ _ _ _ O). split.
    + intros (_ & (w1 & B1 & [(E & _ & ->)|(w2 & B2 & N & E)]) & _).
      * left. split; [exact (hash_split w t w1 [] E B B1)|reflexivity].
      * right. exists w2. split; [exact (hash_split w t w1 (32 :: w2 ++ x) E B B1)|]. auto.
    + intros H. split; [reflexivity|]. split; [|exact Q]. exists w. split; [exact B|]. destruct H as [(-> & ->)|(w2 & -> & B2 & N)]; [left; auto|right]. exists w2. auto.
  - intros c t' -> Nc. destruct (white_prefix t') as (w2 & x & -> & B2 & N). exists w2, x. split; [reflexivity|]. split; [exact B2|]. split; [exact N|]. split.
    + apply (parse_line_comment _ _ _ _ _ O). split; [reflexivity|]. split; [|exact Q]. exists w. split; [exact B|]. right. exists w2. auto.
    + apply bc_other; [|constructor]. intros I. specialize (K c (w2 ++ x) eq_refl). cbn in K, I. intuition.
Qed.

Theorem unit_notes lib pf evs ls e pl tl c k u : file evs ls e pl tl -> read_catalogue lib pf evs = Ok c -> nth_error (c_items c) k = Some (UOk u) ->
  exists forms cs ks, unit_at lib pf pl tl c k forms (cs ++ ks) u /\ Forall comment_line cs /\ ~ Exists comment_line ks /\ u_notes u = flat_map line_notes cs.
Proof.
  intros Fi R Nk. destruct (unit_comments lib pf evs ls e pl tl c k u Fi R Nk) as (forms & cs & ks & F & U & B & Ef & Id & Nd & Nks & Ks & Kw).
  exists forms, cs, ks. split; [exact U|]. split; [|split].
  - clear -B. induction B; constructor; try exact Logic.I; assumption.
  - intros Ex. apply Exists_exists in Ex as (l & I & Cl). specialize (Ks l I). destruct l; contradiction.
  - clear -B. remember (u_notes u) as N0. remember (u_locations u) as L0. remember (u_comments u) as C0. clear HeqN0 HeqL0 HeqC0. induction B; cbn [flat_map line_notes]; try reflexivity; try exact IHB; try (cbn; rewrite IHB; reflexivity).
    match goal with Nk : ~ In ?x _ |- _ => cbn [In] in Nk; destruct (N.eqb_spec x 46) as [E1|_]; [exfalso; apply Nk; auto|]; destruct (N.eqb_spec x 32) as [E1|_]; [exfalso; apply Nk; auto|] end. exact IHB.
Qed.

(** * Witnesses *)
Definition noted (s : str) : list str := [s; lit "msgid ""a"""; lit "msgstr ""b"""].
Definition noted_unit (N : list note) (C : list comment) : unit_ :=
  Unit None (MSimple (lit "a") (Some (lit "b"))) None (MSimple [] None) [] N [] C StFinal false.
Lemma noted_entry cs N C : block_comments cs [] N [] C -> entry None (cs ++ rest_lines) (noted_unit N C).
Proof.
  intros B. apply (en_intro None cs [] N [] C false rest_lines None (MSimple [] None) None (MSimple (lit "a") (Some (lit "b")))); [exact B| |].
  - apply (kws_intro None false [] None [] (MSimple [] None) [] None); [apply of_none|apply pv_none|apply of_none|]. apply (bd_simple None false [_] (lit "a") [_] (lit "b")); apply own_line.
  - apply (so_final _ _ (lit "b")); [intros []|left; reflexivity|discriminate].
Qed.
Theorem glued_refuted : exists s t ls cs ks u, file (str_stream (s :: ls)) (s :: ls) None (cs ++ ks) None /\ translator_comment s t /\ t <> [] /\ line_of s 1 (PComment 1 102 (lit "oo")) /\ cs = [PComment 1 102 (lit "oo")]
  /\ entry None (cs ++ ks) u /\ u_notes u = []
  /\ forall lib pf, exists c, read_catalogue lib pf (str_stream (s :: ls)) = Ok c /\ c_items c = [UOk u].
Proof.
  exists (lit "#foo"), (lit "foo"), [lit "msgid ""a"""; lit "msgstr ""b"""], [PComment 1 102 (lit "oo")], rest_lines, (noted_unit [] [Comment 102 (lit "oo")]).
  split; [apply str_file; [discriminate|reflexivity|vm_compute; reflexivity]|].
  split; [exists []; split; [reflexivity|]; split; [intros c []|intros c t' [= <- _]; vm_compute; intuition discriminate]|].
  split; [discriminate|]. split; [apply line_of_iff; [intros I; cbn in I; intuition discriminate|vm_compute; reflexivity]|]. split; [reflexivity|].
  split; [apply noted_entry; apply bc_other; [cbn; intuition discriminate|constructor]|]. split; [reflexivity|].
  intros lib pf. eexists. split; vm_compute; reflexivity.
Qed.
Theorem indent_refuted : exists s t s' t' ls u, translator_comment s t /\ translator_comment s' t' /\ t <> t' /\ length (u_notes u) = 1%nat
  /\ forall lib pf, exists c, read_catalogue lib pf (str_stream (s :: ls)) = Ok c /\ read_catalogue lib pf (str_stream (s' :: ls)) = Ok c /\ c_items c = [UOk u].
Proof.
  exists (lit "# a"), (lit " a"), (lit "#   a"), (lit "   a"), [lit "msgid ""a"""; lit "msgstr ""b"""], (noted_unit [Note Translator (lit "a")] []).
  split; [exists []; split; [reflexivity|]; split; [intros c []|intros c t' [= <- _]; vm_compute; intuition discriminate]|].
  split; [exists []; split; [reflexivity|]; split; [intros c []|intros c t' [= <- _]; vm_compute; intuition discriminate]|].
  split; [discriminate|]. split; [reflexivity|]. intros lib pf. eexists. split; [vm_compute; reflexivity|]. split; vm_compute; reflexivity.
Qed.
