(** Numbers of units, compared with msgfmt. *)
From Coq Require Import String Arith NArith ZArith Bool List Lia.
From Verif Require Import ModelBase ModelUtf8 ModelLine ModelFormula ModelData ModelSource ModelReader
  SpecLine SpecFormula SpecSource SpecReader SpecBlock SpecHeader SpecFile SpecAny SpecFlags SpecCompiled SpecContent SpecStatistics BaseFacts LineFacts LineThms CommentFacts BlockFacts SoundFacts BlocksFacts FileFacts
  EntryThms FileIntro FlagFacts FlagMore NoteFacts PieceFacts AnyFacts AnyParts CompiledFacts ContentFacts.
Import ListNotations.

Lemma fuzzy_white x : In x (lit "fuzzy") -> ~ white x.
Proof. intros I Hx. cbn in I. repeat (destruct I as [<-|I]; [vm_compute in Hx; intuition discriminate|]). contradiction. Qed.
Lemma entry_state forms b u : entry forms b u ->
  (u_state u = StNeedsWork <-> In (lit "fuzzy") (u_flags u))
  /\ (u_state u = StFinal -> exists t, In t (translations (u_message u)) /\ t <> [])
  /\ (u_state u = StEmpty -> forall t, In t (translations (u_message u)) -> t = []).
Proof.
  intros [cs F N L C obs ks pc pm c m st B K St]. cbn [u_state u_flags u_message].
  destruct St as [I|t I J K'|I J]; rewrite distinct_in; (split; [|split]); try discriminate; try (split; [discriminate|intros X; contradiction]); eauto. tauto.
Qed.
Lemma entry_fuzzy forms b u : entry forms b u -> comma_flags b u -> (In (lit "fuzzy") (u_flags u) <-> gettext_flag b (lit "fuzzy")).
Proof.
  intros [cs F N L C obs ks pc pm c m st B K St] (W & X). cbn [u_flags] in *.
  assert (Id : forall f, In f (distinct F) <-> In f F) by (intros f; apply distinct_in).
  assert (Ks : forall n k s, ~ In (PComment n k s) ks).
  { intros n k s I. assert (E := keywords_texts (fun _ => true) _ _ _ _ _ _ _ K). unfold texts_of in E.
    assert (In (k, s) (flat_map (fun l => match l with PComment _ k s => [(k, s)] | _ => [] end) ks)) as J by (apply in_flat_map; exists (PComment n k s); split; [exact I|left; reflexivity]).
    change (flat_map _ ks) with (texts_of (fun _ => true) ks) in J. unfold texts_of in J. rewrite E in J. exact J. }
  assert (Wc : comments_white c_white 44%N cs) by (intros n s x I; apply (W n s x), in_app_iff; left; exact I).
  split.
  - intros I. apply Id, (flags_of cs F _ _ _ _ B) in I as (n & s & fs & Is & Fl & If). destruct (tokens_exist flag_separator separator_dec s) as (ws & T). exists n, s, ws.
    split; [apply in_app_iff; left; exact Is|]. split; [exact T|]. apply (tokens_in flag_separator s ws _ T). apply (flag_token s fs _ Fl); [intros x J Hx; exact (Wc n s x Is J Hx)|exact If|discriminate|exact fuzzy_white].
  - intros (n & s & ws & Is & T & Iw). apply in_app_iff in Is as [Is|Is]; [|destruct (Ks _ _ _ Is)]. pose proof (proj1 (tokens_in flag_separator s ws _ T) Iw) as Tk.
    apply Id. apply (flags_of cs F _ _ _ _ B). exists n, s, (map trim (split_on (BinNat.N.eqb 44%N) s)).
    assert (Fl : flag_list s (map trim (split_on (BinNat.N.eqb 44%N) s))) by (apply flag_list_iff; reflexivity). split; [exact Is|]. split; [exact Fl|].
    apply (token_flag s _ _ Fl); [intros x J Hx; exact (Wc n s x Is J Hx)| |exact Tk]. intros g x Ig J. apply (X g x); [|exact J]. apply Id. apply (flags_of cs F _ _ _ g B). exists n, s, (map trim (split_on (BinNat.N.eqb 44%N) s)). auto.
Qed.
Lemma first_text_dec u : first_text u \/ ~ first_text u.
Proof.
  unfold first_text. destruct (translations (u_message u)) as [|[|x t] ts] eqn:E.
  - right. intros (t & ts & H & _). discriminate.
  - right. intros (t & ts' & [= <- _] & H). apply H. reflexivity.
  - left. exists (x :: t), ts. split; [reflexivity|discriminate].
Qed.
Lemma tally_exists st us : exists k h, tally st us k h.
Proof.
  induction us as [|u us (k & h & T)]; [exists 0, 0; constructor|]. destruct (u_obsolete u) eqn:O; [exists k, h; apply ta_other; auto|].
  assert (u_state u = st \/ u_state u <> st) as [S|S] by (destruct (u_state u), st; auto; right; discriminate); [|exists k, h; apply ta_other; auto].
  destruct (first_text_dec u); [exists (Datatypes.S k), h; apply ta_text; auto|exists (Datatypes.S k), (Datatypes.S h); apply ta_hollow; auto].
Qed.
Lemma tally_unique st us k h k' h' : tally st us k h -> tally st us k' h' -> k = k' /\ h = h'.
Proof.
  intros T. revert k' h'. induction T as [|u us k h X T IH|u us k h O E F T IH|u us k h O E F T IH]; intros k' h' T'; inversion T'; subst; auto; repeat match goal with H : _ \/ _ |- _ => destruct H end; try congruence; try contradiction;
    match goal with T'' : tally _ us _ _ |- _ => destruct (IH _ _ T'') as [-> ->] end; auto.
Qed.
Lemma report_tallies forms bls us : Forall2 (unit_entry forms) bls us -> Forall2 comma_flags bls us ->
  exists t f n tf hf tw hw te he, msgfmt_report bls us t f n /\ tally StFinal us tf hf /\ tally StNeedsWork us tw hw /\ tally StEmpty us te he
    /\ t + hf = tf /\ f + hw = tw /\ n = te + hf + hw.
Proof.
  induction 1 as [|b u bls us [E _] F IH]; intros Cf.
  - exists 0, 0, 0, 0, 0, 0, 0, 0, 0. repeat split; constructor.
  - inversion Cf as [|? ? ? ? C1 C2]; subst. destruct (IH C2) as (t & f & n & tf & hf & tw & hw & te & he & R & T1 & T2 & T3 & E1 & E2 & E3). clear IH.
    pose proof (entry_fuzzy _ _ _ E C1) as Fz. destruct (entry_state _ _ _ E) as (S1 & S2 & S3).
    destruct (u_obsolete u) eqn:O; [exists t, f, n, tf, hf, tw, hw, te, he; repeat (split; [first [apply mr_obsolete|apply ta_other]; auto; fail|]); auto|].
    destruct (u_state u) eqn:S.
    + assert (~ first_text u) as Nt by (intros (x & ts & Ex & Nx); apply Nx, (S3 eq_refl); rewrite Ex; left; reflexivity).
      exists t, f, (Datatypes.S n), tf, hf, tw, hw, (Datatypes.S te), (Datatypes.S he).
      split; [apply mr_untranslated; assumption|]. split; [apply ta_other; [right; congruence|assumption]|]. split; [apply ta_other; [right; congruence|assumption]|]. split; [apply ta_hollow; assumption|]. lia.
    + destruct (first_text_dec u) as [Ft|Ft].
      * exists t, (Datatypes.S f), n, tf, hf, (Datatypes.S tw), hw, te, he.
        split; [apply mr_fuzzy; [assumption|assumption|apply Fz, S1; reflexivity|assumption]|]. split; [apply ta_other; [right; congruence|assumption]|]. split; [apply ta_text; assumption|]. split; [apply ta_other; [right; congruence|assumption]|]. lia.
      * exists t, f, (Datatypes.S n), tf, hf, (Datatypes.S tw), (Datatypes.S hw), te, he.
        split; [apply mr_untranslated; assumption|]. split; [apply ta_other; [right; congruence|assumption]|]. split; [apply ta_hollow; assumption|]. split; [apply ta_other; [right; congruence|assumption]|]. lia.
    + assert (~ gettext_flag b (lit "fuzzy")) as Nf by (intros G; apply Fz, S1 in G; discriminate).
      destruct (first_text_dec u) as [Ft|Ft].
      * exists (Datatypes.S t), f, n, (Datatypes.S tf), hf, tw, hw, te, he.
        split; [apply mr_translated; assumption|]. split; [apply ta_text; assumption|]. split; [apply ta_other; [right; congruence|assumption]|]. split; [apply ta_other; [right; congruence|assumption]|]. lia.
      * exists t, f, (Datatypes.S n), (Datatypes.S tf), (Datatypes.S hf), tw, hw, te, he.
        split; [apply mr_untranslated; assumption|]. split; [apply ta_hollow; assumption|]. split; [apply ta_other; [right; congruence|assumption]|]. split; [apply ta_other; [right; congruence|assumption]|]. lia.
Qed.
Lemma report_unique bls us t f n t' f' n' : msgfmt_report bls us t f n -> msgfmt_report bls us t' f' n' -> t = t' /\ f = f' /\ n = n'.
Proof.
  intros R. revert t' f' n'. induction R as [|b u bls us t f n O R IH|b u bls us t f n O F R IH|b u bls us t f n O F G R IH|b u bls us t f n O F G R IH]; intros t' f' n' R'; inversion R'; subst; auto; try congruence; try contradiction;
    match goal with T'' : msgfmt_report bls us _ _ _ |- _ => destruct (IH _ _ _ T'') as (-> & -> & ->) end; auto.
Qed.
Theorem statistics_any lib pf evs bs fin rs c : pieces evs bs fin -> answers 1 bs fin rs -> read_catalogue lib pf evs = Ok c ->
  exists forms bls, stream_blocks lib pf (kept rs) c forms bls
    /\ (Forall2 comma_flags bls (units (c_items c)) -> forall tf hf tw hw te he,
        tally StFinal (units (c_items c)) tf hf -> tally StNeedsWork (units (c_items c)) tw hw -> tally StEmpty (units (c_items c)) te he ->
        (forall t f n, msgfmt_report bls (units (c_items c)) t f n <-> t + hf = tf /\ f + hw = tw /\ n = te + hf + hw)
        /\ (msgfmt_report bls (units (c_items c)) tf tw te <-> hf = 0 /\ hw = 0)).
Proof.
  intros P A R. destruct (any_stream _ _ _ _ _ _ _ P A R) as (h & forms & bls & rest & E & H & F). exists forms, bls. split; [exists h, rest; auto|].
  intros Cf tf hf tw hw te he T1 T2 T3. destruct (report_tallies _ _ _ F Cf) as (t & f & n & tf' & hf' & tw' & hw' & te' & he' & Rp & U1 & U2 & U3 & E1 & E2 & E3).
  destruct (tally_unique _ _ _ _ _ _ T1 U1) as [<- <-], (tally_unique _ _ _ _ _ _ T2 U2) as [<- <-], (tally_unique _ _ _ _ _ _ T3 U3) as [<- <-].
  assert (forall t f n, msgfmt_report bls (units (c_items c)) t f n <-> t + hf = tf /\ f + hw = tw /\ n = te + hf + hw) as X.
  { intros t' f' n'. split; [intros Rp'; destruct (report_unique _ _ _ _ _ _ _ _ Rp Rp') as (<- & <- & <-); auto|]. intros (F1 & F2 & F3).
    replace t' with t by lia. replace f' with f by lia. replace n' with n by lia. exact Rp. }
  split; [exact X|]. rewrite X. lia.
Qed.
(** No unit is counted twice or left out. *)
Theorem tallies_sum us tf hf tw hw te he : tally StFinal us tf hf -> tally StNeedsWork us tw hw -> tally StEmpty us te he ->
  tf + tw + te = length (filter (fun u => negb (u_obsolete u)) us).
Proof.
  revert tf hf tw hw te he. induction us as [|u us IH]; intros tf hf tw hw te he T1 T2 T3; [inversion T1; inversion T2; inversion T3; reflexivity|].
  cbn [filter]. inversion T1; subst; inversion T2; subst; inversion T3; subst; repeat match goal with H : _ \/ _ |- _ => destruct H as [H|H] end;
    try congruence; try (destruct (u_state u); congruence);
    match goal with A : tally StFinal us _ _, B : tally StNeedsWork us _ _, D : tally StEmpty us _ _ |- _ => specialize (IH _ _ _ _ _ _ A B D) end;
    destruct (u_obsolete u); try discriminate; cbn [negb length]; lia.
Qed.
(** * Witnesses *)
Local Open Scope N_scope.
(** A fuzzy unit without text, *)
Definition fuzzy_bare_lines : list str := map lit ["#, fuzzy"; "msgid ""a"""; "msgstr """""]%string.
Definition fuzzy_bare_block : list po_line := [PComment 1 44 (lit "fuzzy"); PMessage 2 [] (lit "msgid") (lit "a"); PMessage 3 [] (lit "msgstr") []].
Definition fuzzy_bare_unit : unit_ := Unit None (MSimple (lit "a") None) None (MSimple [] None) [lit "fuzzy"] [] [] [] StNeedsWork false.
Theorem fuzzy_statistics_refuted : exists ls b u, file (str_stream ls) ls None b None /\ entry None b u /\ comma_flags b u
  /\ (forall lib pf, exists c, read_catalogue lib pf (str_stream ls) = Ok c /\ c_items c = [UOk u])
  /\ tally StNeedsWork [u] 1 1 /\ msgfmt_report [b] [u] 0 0 1 /\ ~ msgfmt_report [b] [u] 0 1 0.
Proof.
  exists fuzzy_bare_lines, fuzzy_bare_block, fuzzy_bare_unit. assert (~ first_text fuzzy_bare_unit) as F by (intros (t & ts & E & _); discriminate E).
  split; [apply str_file; [discriminate|reflexivity|vm_compute; reflexivity]|]. split; [|split; [|split; [|split; [|split]]]].
  - apply (en_intro None [PComment 1 44 (lit "fuzzy")] [lit "fuzzy"] [] [] [] false [PMessage 2 [] (lit "msgid") (lit "a"); PMessage 3 [] (lit "msgstr") []] None (MSimple [] None) None (MSimple (lit "a") None)).
    + apply (bc_flags 1 (lit "fuzzy") [lit "fuzzy"] [] []); [apply flag_list_iff; vm_compute; reflexivity|constructor].
    + apply (kws_intro None false [] None [] (MSimple [] None) [] None); [apply of_none|apply pv_none|apply of_none|]. apply (bd_simple None false [_] (lit "a") [_] []); apply own_line.
    + apply so_fuzzy. left. reflexivity.
  - split; [|intros f x [<-|[]]; apply fuzzy_white]. intros n s x [E|[E|[E|[]]]]; try discriminate E. injection E as _ <-. intros I W. destruct (fuzzy_white x I W).
  - intros lib pf. eexists. split; vm_compute; reflexivity.
  - apply ta_hollow; [reflexivity|reflexivity|exact F|constructor].
  - apply mr_untranslated; [reflexivity|exact F|constructor].
  - intros R. inversion R; subst; try discriminate; contradiction.
Qed.
(** one with plural forms of which the first one is empty, *)
Definition hollow_block : list po_line := [PMessage 1 [] (lit "msgid") (lit "a"); PMessage 2 [] (lit "msgid_plural") (lit "b"); PMessage 3 [] (lit "msgstr[0]") []; PMessage 4 [] (lit "msgstr[1]") (lit "d")].
Theorem first_statistics_refuted : exists ls b u, file (str_stream ls) ls None b None /\ comma_flags b u
  /\ (forall lib pf, exists c, read_catalogue lib pf (str_stream ls) = Ok c /\ c_items c = [UOk u])
  /\ tally StFinal [u] 1 1 /\ msgfmt_report [b] [u] 0 0 1 /\ ~ msgfmt_report [b] [u] 1 0 0.
Proof.
  exists hollow_lines, hollow_block, hollow_unit. assert (~ first_text hollow_unit) as F by (intros (t & ts & E & Nt); cbn in E; injection E as <- _; apply Nt; reflexivity).
  split; [apply str_file; [discriminate|reflexivity|vm_compute; reflexivity]|]. split; [|split; [|split; [|split]]].
  - split; [|intros f x []]. intros n s x [E|[E|[E|[E|[]]]]]; discriminate E.
  - intros lib pf. eexists. split; vm_compute; reflexivity.
  - apply ta_hollow; [reflexivity|reflexivity|exact F|constructor].
  - apply mr_untranslated; [reflexivity|exact F|constructor].
  - intros R. inversion R; subst; try discriminate; contradiction.
Qed.
(** and one with two flags that a space separates. *)
Theorem space_statistics_refuted : exists ls b u, file (str_stream ls) ls None b None /\ entry None b u
  /\ (forall lib pf, exists c, read_catalogue lib pf (str_stream ls) = Ok c /\ c_items c = [UOk u])
  /\ tally StFinal [u] 1 0 /\ msgfmt_report [b] [u] 0 1 0 /\ ~ msgfmt_report [b] [u] 1 0 0.
Proof.
  set (s := lit "fuzzy x"). set (u := Unit None (MSimple (lit "a") (Some (lit "b"))) None (MSimple [] None) [s] [] [] [] StFinal false).
  exists (commented 44 s), (commented_lines 44 s ++ rest_lines), u. assert (first_text u) as F by (exists (lit "b"), []; split; [reflexivity|discriminate]).
  assert (G : gettext_flag (commented_lines 44 s ++ rest_lines) (lit "fuzzy")).
  { exists 1, s, [lit "fuzzy"; lit "x"]. split; [left; reflexivity|]. split; [|left; reflexivity].
    apply (tk_word flag_separator [] (lit "fuzzy") (lit " x")); [intros c []|discriminate|apply letters_plain; reflexivity|intros c r [= <- _]; left; cbn; auto 10|].
    apply (tk_word flag_separator (lit " ") (lit "x") [] []); [intros c [<-|[]]; left; cbn; auto 10|discriminate|apply letters_plain; reflexivity|discriminate|constructor; intros c []]. }
  split; [apply str_file; [discriminate|reflexivity|vm_compute; reflexivity]|]. split; [|split; [|split; [|split]]].
  - apply (en_intro None [PComment 1 44 s] [s] [] [] [] false rest_lines None (MSimple [] None) None (MSimple (lit "a") (Some (lit "b")))).
    + apply (bc_flags 1 s [s] [] []); [apply flag_list_iff; vm_compute; reflexivity|constructor].
    + apply (kws_intro None false [] None [] (MSimple [] None) [] None); [apply of_none|apply pv_none|apply of_none|]. apply (bd_simple None false [_] (lit "a") [_] (lit "b")); apply own_line.
    + apply (so_final _ _ (lit "b")); [intros [E|[]]; discriminate|left; reflexivity|discriminate].
  - intros lib pf. eexists. split; vm_compute; reflexivity.
  - apply ta_text; [reflexivity|reflexivity|exact F|constructor].
  - apply mr_fuzzy; [reflexivity|exact F|exact G|constructor].
  - intros R. inversion R; subst; try discriminate; contradiction.
Qed.
Theorem tally_single st us : exists k h, tally st us k h /\ forall k' h', tally st us k' h' -> k' = k /\ h' = h.
Proof. destruct (tally_exists st us) as (k & h & T). exists k, h. split; [exact T|]. intros k' h' T'. exact (tally_unique _ _ _ _ _ _ T' T). Qed.
