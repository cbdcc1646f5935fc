(** The units that can be written are the units that are delivered. *)
From Coq Require Import String Arith NArith ZArith Bool List Lia.
From Verif Require Import ModelBase ModelUtf8 ModelRegex ModelLine ModelFormula ModelData ModelSource ModelReader
  SpecLine SpecFormula SpecSource SpecReader SpecBlock SpecHeader SpecFile SpecWriter BaseFacts LineFacts LineThms DecFacts SourceFacts
  CommentFacts HeaderFacts BlockFacts BlocksFacts FileFacts FileIntro BlockThms EntryThms WriterFacts.
Import ListNotations.
Local Open Scope N_scope.

(** * Well-formed units can be written *)
Definition line_ok (s : str) : Prop := one_line s /\ scalars s.
Definition lines_ok (ls : list str) : Prop := forall s, In s ls -> line_ok s.
Lemma lines_ok_app a b : lines_ok a -> lines_ok b -> lines_ok (a ++ b).
Proof. intros A B s I. apply in_app_or in I as [I|I]; auto. Qed.
Lemma lines_ok_one s : line_ok s -> lines_ok [s].
Proof. intros H x [<-|[]]. exact H. Qed.
Lemma lines_ok_cons s ls : line_ok s -> lines_ok ls -> lines_ok (s :: ls).
Proof. intros H K x [<-|I]; auto. Qed.
Lemma line_ok_app a b : line_ok (a ++ b) <-> line_ok a /\ line_ok b.
Proof.
  unfold line_ok, one_line, scalars. split.
  - intros [A B]. repeat split; try (intros I; apply A, in_or_app; auto); intros c I; apply B, in_or_app; auto.
  - intros [[A B] [C D]]. split; [intros I; apply in_app_or in I as [I|I]; auto|intros c I; apply in_app_or in I as [I|I]; auto].
Qed.
Definition ascii_okb (s : str) : bool := forallb (fun c => (c <? 128) && negb (c =? 10)) s.
Lemma ascii_ok s : ascii_okb s = true -> line_ok s.
Proof.
  unfold ascii_okb. rewrite forallb_forall. intros H. split.
  - intros I. specialize (H _ I). discriminate.
  - intros c I. specialize (H _ I). apply andb_prop in H as [H _]. apply N.ltb_lt in H. left. lia.
Qed.
Lemma scalars_escape s : scalars s -> scalars (escape s).
Proof.
  induction s as [|c s IH]; intros H; [intros x []|]. apply scalars_cons in H as [Hc H]. cbn [escape]. apply scalars_app. split; [|apply IH, H].
  repeat match goal with |- context [if ?b then _ else _] => destruct b end; intros x I; cbn in I; intuition (subst; auto); left; reflexivity.
Qed.
Lemma escape_ok s : scalars s -> line_ok (escape s).
Proof. intros H. split; [apply escape_one_line|apply scalars_escape, H]. Qed.
Lemma marked flags : In flags [own false; own true; prev false; prev true] -> exists mark, marker mark flags /\ ascii_okb mark = true.
Proof.
  cbn [In]. intros H. repeat destruct H as [<-|H].
  - exists []. split; [constructor|reflexivity].
  - exists (lit "#~"). split; [constructor|reflexivity].
  - exists (lit "#|"). split; [constructor|reflexivity].
  - exists (lit "#~|"). split; [constructor|reflexivity].
  - contradiction.
Qed.
Lemma own_mark obs : In (own obs) [own false; own true; prev false; prev true].
Proof. destruct obs; cbn; auto. Qed.
Lemma prev_mark obs : In (prev obs) [own false; own true; prev false; prev true].
Proof. destruct obs; cbn; auto. Qed.
Lemma space_blanks : blanks [32].
Proof. intros c [<-|[]]. vm_compute. tauto. Qed.
Lemma string_writable flags kw s : In flags [own false; own true; prev false; prev true] -> keyword kw -> line_ok kw -> scalars s ->
  exists ls, writes_string flags kw s ls /\ lines_ok ls.
Proof.
  intros I K O H. destruct (marked flags I) as (mark & M & A). pose proof (ascii_ok _ A) as Om.
  exists [mark ++ [32] ++ kw ++ [32] ++ [34] ++ escape s ++ [34]]. split.
  - rewrite <- (app_nil_r s) at 1. apply (ws_intro flags kw s _ [] []); [|constructor]. exists (escape s). split; [|apply escape_unescapes].
    exists mark, [], [32], [32], []. split; [reflexivity|]. split; [exact M|]. split; [intros k E; injection E as <-; exact K|].
    split; [intros c []|]. split; [exact space_blanks|]. split; [exact space_blanks|]. split; [intros c []|]. apply escape_one_line.
  - apply lines_ok_one. repeat (apply line_ok_app; split); try assumption; try (apply escape_ok; assumption); apply ascii_ok; reflexivity.
Qed.
Lemma dec_str_ok n : ascii_okb (dec_str n) = true.
Proof.
  unfold ascii_okb. apply forallb_forall. intros c I. assert (48 <= c <= 57) as H.
  { pose proof (decimal_dec n) as D. revert I. induction D as [d Hd|m d s Hm Hd D IH]; intros I.
    - destruct I as [<-|[]]. lia.
    - apply in_app_or in I as [I|[<-|[]]]; [apply IH, I|lia]. }
  apply andb_true_intro. split; [apply N.ltb_lt; lia|]. apply negb_true_iff, N.eqb_neq. lia.
Qed.
Lemma decimal_shape n s : decimal n s -> (n = 0 /\ s = [48]) \/ (0 < n /\ exists d ds, s = d :: ds /\ 49 <= d <= 57 /\ forall c, In c ds -> 48 <= c <= 57).
Proof.
  induction 1 as [d Hd|m d s Hm Hd D IH].
  - destruct (N.eq_dec d 0) as [->|NZ]; [left; auto|right]. split; [lia|]. exists (48 + d), []. split; [reflexivity|]. split; [lia|]. intros c [].
  - right. split; [lia|]. destruct IH as [[-> _]|(_ & x & ds & -> & Hx & Hds)]; [lia|]. exists x, (ds ++ [48 + d]). split; [reflexivity|]. split; [exact Hx|].
    intros c I. apply in_app_or in I as [I|[<-|[]]]; [apply Hds, I|lia].
Qed.
Lemma is_nd_ascii c : 48 <= c <= 57 -> is_nd c = true.
Proof.
  intros H. assert (In c [48; 49; 50; 51; 52; 53; 54; 55; 56; 57]) as I.
  { cbn. lia. }
  cbn in I. repeat destruct I as [<-|I]; try reflexivity. contradiction.
Qed.
Lemma msgstr_keyword i kw : msgstr_kw i kw -> keyword kw /\ line_ok kw.
Proof.
  intros (ds & D & ->). split.
  - destruct (decimal_shape _ _ D) as [[_ ->]|(_ & d & r & -> & Hd & Hr)]; [apply kw_msgstr_0|].
    change ((d :: r) ++ lit "]") with (d :: r ++ lit "]"). apply kw_msgstr_n; [exact Hd|]. intros c I. apply is_nd_iff, is_nd_ascii, Hr, I.
  - apply decimal_iff in D. subst. repeat (apply line_ok_app; split); apply ascii_ok; auto using dec_str_ok.
Qed.
Lemma opt_writable flags kw o : In flags [own false; own true; prev false; prev true] -> keyword kw -> line_ok kw -> scalars (opt_str o) ->
  exists ls, writes_opt flags kw o ls /\ lines_ok ls.
Proof.
  intros I K O H. destruct o as [s|]; [|exists []; split; [constructor|intros x []]].
  destruct (string_writable flags kw s I K O H) as (ls & W & L). exists ls. split; [constructor; exact W|exact L].
Qed.
Lemma forms_writable flags vs : In flags [own false; own true; prev false; prev true] -> Forall scalars vs -> forall i,
  exists ls, writes_forms flags i vs ls /\ lines_ok ls.
Proof.
  intros I. induction 1 as [|v vs Hv H IH]; intros i; [exists []; split; [constructor|intros x []]|].
  assert (msgstr_kw i (msgstr_tag i)) as Kw by (apply msgstr_kw_iff; reflexivity). destruct (msgstr_keyword _ _ Kw) as [K O].
  destruct (string_writable flags _ v I K O Hv) as (a & Wa & La). destruct (IH (i + 1)) as (b & Wb & Lb).
  exists (a ++ b). split; [econstructor; eassumption|apply lines_ok_app; assumption].
Qed.
Ltac kwd := first [exact kw_msgctxt | exact kw_msgid | exact kw_msgid_plural | exact kw_msgstr | apply ascii_ok; reflexivity].
Lemma message_writable forms obs m : message_text forms m -> exists ls, writes_message forms obs m ls /\ lines_ok ls.
Proof.
  destruct m as [id t|[fm id pl vs]]; cbn [message_text pl_forms pl_singular pl_plural pl_values].
  - intros (A & B & C). destruct (string_writable (own obs) (lit "msgid") id (own_mark obs) ltac:(kwd) ltac:(kwd) A) as (a & Wa & La).
    destruct (string_writable (own obs) (lit "msgstr") (opt_str t) (own_mark obs) ltac:(kwd) ltac:(kwd) B) as (b & Wb & Lb).
    exists (a ++ b). split; [constructor; assumption|apply lines_ok_app; assumption].
  - intros (-> & A & B & C & NE & L). destruct (string_writable (own obs) (lit "msgid") id (own_mark obs) ltac:(kwd) ltac:(kwd) A) as (a & Wa & La).
    destruct (string_writable (own obs) (lit "msgid_plural") pl (own_mark obs) ltac:(kwd) ltac:(kwd) B) as (b & Wb & Lb).
    destruct (forms_writable (own obs) vs (own_mark obs) C 0) as (c & Wc & Lc).
    exists (a ++ b ++ c). split; [constructor; assumption|repeat (apply lines_ok_app; [assumption|]); assumption].
Qed.
Lemma previous_writable forms obs m : previous_text forms m -> exists ls, writes_previous forms obs m ls /\ lines_ok ls.
Proof.
  destruct m as [id t|[fm id pl vs]]; cbn [previous_text pl_forms pl_singular pl_plural pl_values].
  - intros (A & ->). destruct (string_writable (prev obs) (lit "msgid") id (prev_mark obs) ltac:(kwd) ltac:(kwd) A) as (a & Wa & La).
    exists a. split; [constructor; assumption|assumption].
  - intros (-> & A & B & ->). destruct (string_writable (prev obs) (lit "msgid") id (prev_mark obs) ltac:(kwd) ltac:(kwd) A) as (a & Wa & La).
    destruct (string_writable (prev obs) (lit "msgid_plural") pl (prev_mark obs) ltac:(kwd) ltac:(kwd) B) as (b & Wb & Lb).
    exists (a ++ b). split; [constructor; assumption|apply lines_ok_app; assumption].
Qed.

(** Comment lines of a kind that is not a marker. *)
Lemma plain_comment k t : In k [44; 58; 46] -> not_white_first t -> line_ok t -> exists s, comment_line k t s /\ line_ok s.
Proof.
  intros I Nf Ot. assert (line_ok ([35; k] ++ [32] ++ t)) as O.
  { apply line_ok_app. split; [|apply line_ok_app; split; [apply ascii_ok; reflexivity|exact Ot]].
    apply ascii_ok. cbn in I. repeat destruct I as [<-|I]; try reflexivity. contradiction. }
  exists ([35; k] ++ [32] ++ t). split; [|exact O]. exists [32]. split; [exact space_blanks|]. split; [exact Nf|]. split; [reflexivity|].
  eapply (parse_line_comment ([35; k] ++ [32] ++ t) 1 1 k t); [apply O|]. apply (hash_kind_comment [] k [32] t 1).
  - intros c [].
  - exact space_blanks.
  - exact Nf.
  - apply O.
  - cbn in I. repeat destruct I as [<-|I]; try contradiction; vm_compute; intuition discriminate.
  - cbn in I. repeat destruct I as [<-|I]; try contradiction; vm_compute; intuition discriminate.
Qed.
Lemma comments_app F N L C ls F' N' L' C' ls' : writes_comments F N L C ls -> writes_comments F' N' L' C' ls' ->
  writes_comments (F ++ F') (N ++ N') (L ++ L') (C ++ C') (ls ++ ls').
Proof. intros H H'. induction H; cbn [app]; try rewrite <- app_assoc; try (constructor; assumption). exact H'. Qed.
Lemma flag_writable f : flag_text f -> line_ok f -> exists ls, writes_comments [f] [] [] [] ls /\ lines_ok ls.
Proof.
  intros T O. destruct (plain_comment 44 f) as (s & W & L); [cbn; auto|apply T|exact O|]. exists [s].
  split; [|apply lines_ok_one, L]. apply (wc_flags [f] s [] [] [] [] []); [discriminate|repeat constructor; apply T|exact W|constructor].
Qed.
Lemma flags_writable fs : (forall f, In f fs -> flag_text f /\ one_line f /\ scalars f) -> exists ls, writes_comments fs [] [] [] ls /\ lines_ok ls.
Proof.
  induction fs as [|f fs IH]; intros H; [exists []; split; [constructor|intros x []]|].
  destruct (H f (or_introl eq_refl)) as (T & O). destruct (flag_writable f T O) as (a & Wa & La).
  destruct IH as (b & Wb & Lb); [intros g I; apply H; right; exact I|]. exists (a ++ b). split; [exact (comments_app _ _ _ _ _ _ _ _ _ _ Wa Wb)|apply lines_ok_app; assumption].
Qed.
Lemma word_first x : word x -> not_white_first x.
Proof. intros [_ H] c s ->. apply H. left. reflexivity. Qed.
Lemma word_line x : word x -> scalars x -> line_ok x.
Proof. intros [_ H] S. split; [|exact S]. intros I. apply (H _ I). vm_compute. tauto. Qed.
Lemma locations_writable ws : (forall l, In l ws -> word l /\ scalars l) -> exists ls, writes_comments [] [] ws [] ls /\ lines_ok ls.
Proof.
  induction ws as [|x ws IH]; intros H; [exists []; split; [constructor|intros y []]|].
  destruct (H x (or_introl eq_refl)) as (W & S). destruct (plain_comment 58 x) as (s & Ws & Ls); [cbn; auto|apply word_first, W|apply word_line; assumption|].
  destruct IH as (b & Wb & Lb); [intros g I; apply H; right; exact I|]. exists (s :: b). split; [|apply lines_ok_cons; assumption].
  apply (wc_locations [x] s [] [] ws [] b); [repeat constructor; apply W|exact Ws|exact Wb].
Qed.
Lemma notes_writable ns : (forall n, In n ns -> comment_text (note_kind (note_origin n)) (note_value n)) -> exists ls, writes_comments [] ns [] [] ls /\ lines_ok ls.
Proof.
  induction ns as [|[o t] ns IH]; intros H; [exists []; split; [constructor|intros y []]|].
  destruct (H _ (or_introl eq_refl)) as (_ & _ & s & O & S & W). destruct IH as (b & Wb & Lb); [intros g I; apply H; right; exact I|].
  exists (s :: b). split; [constructor; assumption|apply lines_ok_cons; [split|]; assumption].
Qed.
Lemma other_writable cs : (forall c, In c cs -> ~ In (com_kind c) [44; 58; 46; 32] /\ comment_text (com_kind c) (com_content c)) ->
  exists ls, writes_comments [] [] [] cs ls /\ lines_ok ls.
Proof.
  induction cs as [|[k t] cs IH]; intros H; [exists []; split; [constructor|intros y []]|].
  destruct (H _ (or_introl eq_refl)) as (Nk & _ & _ & s & O & S & W). destruct IH as (b & Wb & Lb); [intros g I; apply H; right; exact I|].
  exists (s :: b). split; [constructor; assumption|apply lines_ok_cons; [split|]; assumption].
Qed.
Lemma distinct_id F : NoDup F -> distinct F = F.
Proof.
  induction 1 as [|x F NI ND IH]; [reflexivity|]. cbn [distinct]. rewrite IH. f_equal. clear -NI. induction F as [|y F IH]; [reflexivity|].
  cbn [filter]. destruct (str_eqb_spec x y) as [->|D]; [destruct NI; left; reflexivity|]. cbn. f_equal. apply IH. intros I. apply NI. right. exact I.
Qed.
Theorem well_formed_writable forms u : well_formed forms u -> exists ls, writes_unit forms u ls /\ lines_ok ls.
Proof.
  destruct u as [c m pc pm F N L C st obs]. intros [Hc Hpc [Hm _] Hpm [ND HF] HL HN HC Hst].
  cbn [u_context u_message u_prev_context u_prev_message u_flags u_notes u_locations u_comments u_state u_obsolete] in *.
  destruct (flags_writable F HF) as (l1 & W1 & O1). destruct (notes_writable N HN) as (l2 & W2 & O2).
  destruct (locations_writable L HL) as (l3 & W3 & O3). destruct (other_writable C HC) as (l4 & W4 & O4).
  destruct (opt_writable (prev obs) (lit "msgctxt") pc (prev_mark obs) ltac:(kwd) ltac:(kwd) Hpc) as (l5 & W5 & O5).
  destruct (previous_writable forms obs pm Hpm) as (l6 & W6 & O6).
  destruct (opt_writable (own obs) (lit "msgctxt") c (own_mark obs) ltac:(kwd) ltac:(kwd) Hc) as (l7 & W7 & O7).
  destruct (message_writable forms obs m Hm) as (l8 & W8 & O8).
  pose proof (comments_app _ _ _ _ _ _ _ _ _ _ W1 (comments_app _ _ _ _ _ _ _ _ _ _ W2 (comments_app _ _ _ _ _ _ _ _ _ _ W3 W4))) as W.
  cbn [app] in W. rewrite !app_nil_r in W.
  exists ((l1 ++ l2 ++ l3 ++ l4) ++ l5 ++ l6 ++ l7 ++ l8). split; [|repeat apply lines_ok_app; assumption].
  pose proof (wu_intro forms F N L C _ obs pc _ pm _ c _ m _ st W W5 W6 W7 W8 Hst) as G. rewrite (distinct_id F ND) in G. exact G.
Qed.
Lemma contents_exist ls : lines_ok ls -> exists bs, contents bs None ls None.
Proof.
  induction ls as [|s ls IH]; intros H; [exists []; constructor|]. destruct IH as (bs & C); [intros x I; apply H; right; exact I|].
  destruct (H s (or_introl eq_refl)) as [O S]. eexists. apply ct_line; [exact O|exact S|apply eol_crlf|exact C].
Qed.

(** * Units delivered are well-formed *)
Definition sane (l : po_line) : Prop :=
  match l with
  | PBlank => True
  | PComment _ k t => comment_text k t
  | PMessage _ _ _ s => scalars s
  | PCont _ _ s => scalars s
  end.
Lemma unescapes_scalars s t : unescapes s t -> scalars s -> scalars t.
Proof.
  induction 1 as [|c v s t I H IH|c s t _ H IH]; intros S.
  - intros x [].
  - apply scalars_cons in S as [_ S]. apply scalars_cons in S as [_ S]. apply scalars_cons. split; [|apply IH, S].
    left. cbn in I. repeat destruct I as [I|I]; try (injection I as _ <-; reflexivity). contradiction.
  - apply scalars_cons in S as [Sc S]. apply scalars_cons. split; [exact Sc|apply IH, S].
Qed.
Lemma quoted_body s flags kw body : quoted_line s flags kw body -> incl body s.
Proof.
  intros (mark & w1 & w2 & w3 & w4 & -> & _) c I. do 6 (apply in_or_app; right). apply in_or_app; left. exact I.
Qed.
Lemma quoted_has_quote s flags kw body : quoted_line s flags kw body -> In 34 s.
Proof. intros (mark & w1 & w2 & w3 & w4 & -> & _). do 5 (apply in_or_app; right). left. reflexivity. Qed.
Lemma quoted_indent w s flags kw body : blanks w -> quoted_line s flags kw body -> quoted_line (w ++ s) flags kw body.
Proof.
  intros B (mark & w1 & w2 & w3 & w4 & -> & M & K & B1 & R). exists mark, (w ++ w1), w2, w3, w4. rewrite <- app_assoc.
  split; [reflexivity|]. split; [exact M|]. split; [exact K|]. split; [|exact R]. intros c I. apply in_app_or in I as [I|I]; auto.
Qed.
Lemma parse_line_sane s n l : line_ok s -> parse_line s n = Some l -> sane l.
Proof.
  intros [O S] E. destruct l as [|m k t|m p t c|m p c]; cbn [sane]; [exact Logic.I| | |].
  - apply parse_line_comment in E as (_ & (w1 & B1 & [(-> & -> & ->)|(w2 & B2 & Nf & ->)]) & NQ); [| |exact O].
    + split; [intros []|]. split; [intros x []|]. exists [35; 32]. split; [apply (ascii_ok [35; 32] eq_refl)|].
      split; [apply (ascii_ok [35; 32] eq_refl)|]. exists []. split; [intros c []|]. split; [discriminate|]. split; [reflexivity|].
      intros flags kw body Q. apply quoted_has_quote in Q. cbn in Q. intuition discriminate.
    + assert (line_ok (w1 ++ [35; k] ++ w2 ++ t)) as L by (split; assumption). apply line_ok_app in L as [_ L]. pose proof L as L'.
      apply line_ok_app in L' as [_ L']. apply line_ok_app in L' as [_ [Ot St]]. split; [exact Ot|]. split; [exact St|].
      exists ([35; k] ++ w2 ++ t). split; [apply L|]. split; [apply L|]. exists w2. split; [exact B2|]. split; [exact Nf|]. split; [reflexivity|].
      intros flags kw body Q. apply (NQ flags kw body), quoted_indent; assumption.
  - apply parse_line_message in E as (_ & kw & body & Q & _ & U); [|exact O]. eapply unescapes_scalars; [exact U|].
    intros x I. apply S, (quoted_body _ _ _ _ Q), I.
  - apply parse_line_cont in E as (_ & body & Q & U); [|exact O]. eapply unescapes_scalars; [exact U|].
    intros x I. apply S, (quoted_body _ _ _ _ Q), I.
Qed.
Lemma parsed_sane n ls e pl tl : parsed n ls e pl tl -> lines_ok ls -> Forall sane pl.
Proof.
  induction 1 as [n|n e|n s ls e Os E|n s ls e pl tl Os E H IH|n s l ls e pl tl Os E NB H IH]; intros O; try constructor.
  - apply IH. intros x I; apply O; right; exact I.
  - exact (parse_line_sane s n l (O s (or_introl eq_refl)) (proj1 (line_of_iff _ _ _ Os) E)).
  - apply IH. intros x I; apply O; right; exact I.
Qed.
Lemma contents_lines_ok bs f ls e : contents bs f ls e -> lines_ok ls.
Proof. induction 1; intros x I; cbn in I; try contradiction; destruct I as [<-|I]; try contradiction; try (split; assumption). apply IHcontents, I. Qed.
Lemma strings_scalars flags ls s : strings flags ls s -> Forall sane ls -> scalars s.
Proof. induction 1 as [|n s ls t H IH]; intros F; [intros x []|]. inversion F; subst. apply scalars_app. split; [assumption|apply IH; assumption]. Qed.
Lemma field_scalars flags kw ls s : field flags kw ls s -> Forall sane ls -> scalars s.
Proof. intros [n s' ls' t H] F. inversion F; subst. apply scalars_app. split; [assumption|]. eapply strings_scalars; eassumption. Qed.
Lemma opt_scalars flags kw ls o : opt_field flags kw ls o -> Forall sane ls -> scalars (opt_str o).
Proof. intros [|ls' s H] F; [intros x []|]. eapply field_scalars; eassumption. Qed.
Lemma values_scalars flags count i ls vs : values flags count i ls vs -> Forall sane ls -> Forall scalars vs.
Proof.
  induction 1 as [|i k kw ls s ls' vs _ _ _ H V IH]; intros F; [constructor|]. apply Forall_app in F as [F1 F2]. constructor; [|apply IH, F2].
  eapply field_scalars; eassumption.
Qed.
Lemma values_length flags count i ls vs : values flags count i ls vs -> i <= count -> i + N.of_nat (length vs) <= count.
Proof. induction 1 as [|i k kw ls s ls' vs A B _ H V IH]; intros I; cbn [length]; [lia|]. rewrite Nat2N.inj_succ. specialize (IH ltac:(lia)). lia. Qed.
Lemma body_text forms obs ls m : body forms obs ls m -> Forall sane ls -> message_text forms m.
Proof.
  intros [l1 id l2 text H1 H2|l1 id l2 pl l3 vs H1 H2 H3 NE] F; cbn [message_text pl_forms pl_singular pl_plural pl_values].
  - apply Forall_app in F as [F1 F2]. pose proof (field_scalars _ _ _ _ H1 F1). pose proof (field_scalars _ _ _ _ H2 F2) as S2.
    split; [assumption|]. destruct text; (split; [|discriminate]); [intros x []|exact S2].
  - apply Forall_app in F as [F1 F2]. apply Forall_app in F2 as [F2 F3]. split; [reflexivity|]. split; [eapply field_scalars; eassumption|].
    split; [eapply field_scalars; eassumption|]. split; [eapply values_scalars; eassumption|]. split; [exact NE|].
    exact (values_length _ _ _ _ _ H3 (N.le_0_l _)).
Qed.
Lemma previous_text_of forms obs ls m : previous forms obs ls m -> Forall sane ls -> previous_text forms m.
Proof.
  intros [|l id H|l1 id l2 pl H1 H2] F; cbn [previous_text pl_forms pl_singular pl_plural pl_values].
  - split; [intros x []|reflexivity].
  - split; [eapply field_scalars; eassumption|reflexivity].
  - apply Forall_app in F as [F1 F2]. repeat split; eapply field_scalars; eassumption.
Qed.
Lemma separated_incl c ps p : In p ps -> incl p (separated c ps).
Proof.
  induction ps as [|q ps IH]; intros I; [contradiction|]. destruct ps as [|r ps].
  - destruct I as [->|[]]. apply incl_refl.
  - change (separated c (q :: r :: ps)) with (q ++ c :: separated c (r :: ps)). destruct I as [->|I]; [apply incl_appl, incl_refl|].
    apply incl_appr, incl_tl, IH, I.
Qed.
Lemma line_ok_incl a b : incl a b -> line_ok b -> line_ok a.
Proof. intros I [O S]. split; [intros J; apply O, I, J|intros c J; apply S, I, J]. Qed.
Lemma flag_list_texts s fs : flag_list s fs -> line_ok s -> forall f, In f fs -> flag_text f /\ one_line f /\ scalars f.
Proof.
  intros (ps & NE & -> & NC & F) O f I. destruct (Forall2_in_r _ _ _ _ F I) as (p & Ip & w & w' & -> & _ & _ & A & B).
  assert (incl f (w ++ f ++ w')) as J by (apply incl_appr, incl_appl, incl_refl).
  split; [split; [exact A|]; split; [exact B|]; intros K; apply (NC _ Ip), J, K|].
  apply (line_ok_incl f _ (incl_tran J (separated_incl 44 ps _ Ip)) O).
Qed.
Lemma words_texts s ws : words s ws -> scalars s -> forall x, In x ws -> word x /\ scalars x.
Proof.
  induction 1 as [|w x r ws B NE NW Hr H IH]; intros S y; [contradiction|]. apply scalars_app in S as [_ S]. apply scalars_app in S as [Sx S].
  intros [<-|I]; [split; [split|]; assumption|apply IH; assumption].
Qed.
Lemma block_comments_texts cs F N L C : block_comments cs F N L C -> Forall sane cs ->
  (forall f, In f F -> flag_text f /\ one_line f /\ scalars f) /\ (forall l, In l L -> word l /\ scalars l)
  /\ (forall n, In n N -> comment_text (note_kind (note_origin n)) (note_value n))
  /\ (forall c, In c C -> ~ In (com_kind c) [44; 58; 46; 32] /\ comment_text (com_kind c) (com_content c)).
Proof.
  induction 1 as [|n s fs ls F N L C Hf B IH|n s ws ls F N L C Hw B IH|n s ls F N L C B IH|n s ls F N L C B IH|n k s ls F N L C Nk B IH]; intros S.
  1: { repeat split; intros; contradiction. }
  all: inversion S as [|? ? H S']; subst; cbn [sane] in H; destruct (IH S') as (A1 & A2 & A3 & A4); (split; [|split; [|split]]); try assumption.
  - intros f I. apply in_app_or in I as [I|I]; [|auto]. destruct H as (H1 & H2 & _). exact (flag_list_texts s fs Hf (conj H1 H2) f I).
  - intros l I. apply in_app_or in I as [I|I]; [|auto]. exact (words_texts s ws Hw (proj1 (proj2 H)) l I).
  - intros m [<-|I]; [exact H|auto].
  - intros m [<-|I]; [exact H|auto].
  - intros m [<-|I]; [split; [exact Nk|exact H]|auto].
Qed.
Lemma state_distinct F m st : state_of F m st -> state_of (distinct F) m st.
Proof. intros [I|t I J NE|I J]; [apply so_fuzzy|eapply so_final|apply so_empty]; try rewrite distinct_in; eassumption. Qed.
Theorem entry_well_formed forms b u : unit_entry forms b u -> Forall sane b -> well_formed forms u.
Proof.
  intros [[cs F N L C obs ks pc pm c m st B K St] S] F0. apply Forall_app in F0 as [F1 F2].
  destruct (block_comments_texts _ _ _ _ _ B F1) as (A1 & A2 & A3 & A4). destruct K as [l1 pc l2 pm l3 c l4 m H1 H2 H3 H4].
  apply Forall_app in F2 as [G1 F2]. apply Forall_app in F2 as [G2 F2]. apply Forall_app in F2 as [G3 G4].
  constructor; cbn [u_context u_message u_prev_context u_prev_message u_flags u_notes u_locations u_comments u_state u_obsolete]; auto.
  - eapply opt_scalars; eassumption.
  - eapply opt_scalars; eassumption.
  - split; [eapply body_text; eassumption|exact S].
  - eapply previous_text_of; eassumption.
  - split; [apply distinct_nodup|]. intros f I. exact (A1 f (proj1 (distinct_in _ _) I)).
  - apply state_distinct, St.
Qed.

(** * Reading, writing, reading *)
Lemma delivered_sane evs ls e pl tl : file evs ls e pl tl -> Forall sane pl.
Proof. intros (bs & f & _ & C & P). exact (parsed_sane _ _ _ _ _ P (contents_lines_ok _ _ _ _ C)). Qed.
Lemma pairs_texts ls ps : pairs ls ps -> lines_ok ls -> Forall property_text ps /\ scalars (header_text ps).
Proof.
  induction 1 as [|l ls ps N H IH|k v k' v' ls ps N (w & w2 & -> & _ & _ & K1 & K2) (x & x2 & -> & _ & _ & V1 & V2) H IH]; intros O.
  - split; [constructor|intros c []].
  - apply IH. intros s I. apply O. right. exact I.
  - destruct IH as [A B]; [intros s I; apply O; right; exact I|].
    assert (line_ok ((w ++ k' ++ w2) ++ 58 :: x ++ v' ++ x2)) as L by (apply O; left; reflexivity).
    apply line_ok_app in L as [L1 L2]. apply line_ok_app in L1 as [_ L1]. apply line_ok_app in L1 as [[O1 S1] _].
    change (58 :: x ++ v' ++ x2) with ([58] ++ x ++ v' ++ x2) in L2. apply line_ok_app in L2 as [_ L2]. apply line_ok_app in L2 as [_ L2]. apply line_ok_app in L2 as [[O2 S2] _].
    split.
    + constructor; [|exact A]. split; [|split; [exact O2|split; assumption]]. split; [|split; [exact O1|split; assumption]].
      intros I. apply N. apply in_or_app. right. apply in_or_app. left. exact I.
    + unfold header_text. cbn [flat_map fst snd]. repeat (apply scalars_app; split); try assumption; intros c I; cbn in I; intuition (subst; left; reflexivity).
Qed.
Lemma header_pairs_texts t ps : header_pairs t ps -> scalars t -> Forall property_text ps /\ scalars (header_text ps).
Proof.
  intros (ls & _ & -> & O & P) S. apply (pairs_texts ls ps P). intros l I. split; [apply O, I|]. intros c J. apply S, (separated_incl 10 ls l I), J.
Qed.
Lemma header_writable N C ps : (forall n, In n N -> comment_text (note_kind (note_origin n)) (note_value n)) ->
  (forall c, In c C -> ~ In (com_kind c) [44; 58; 46; 32] /\ comment_text (com_kind c) (com_content c)) ->
  Forall property_text ps -> scalars (header_text ps) -> exists ls, writes_header N C ps ls /\ lines_ok ls.
Proof.
  intros HN HC HP S. destruct (notes_writable N HN) as (l1 & W1 & O1). destruct (other_writable C HC) as (l2 & W2 & O2).
  destruct (string_writable [] (lit "msgid") [] (own_mark false) ltac:(kwd) ltac:(kwd)) as (a & Wa & La); [intros c []|].
  destruct (string_writable [] (lit "msgstr") (header_text ps) (own_mark false) ltac:(kwd) ltac:(kwd) S) as (b & Wb & Lb).
  exists ((l1 ++ l2) ++ a ++ b). split; [|repeat apply lines_ok_app; assumption].
  pose proof (comments_app _ _ _ _ _ _ _ _ _ _ W1 W2) as W. cbn [app] in W. rewrite app_nil_r in W. eapply wh_intro; eassumption.
Qed.
Lemma units_writable forms us : Forall (well_formed forms) us -> exists ls, writes_units forms us ls /\ lines_ok ls.
Proof.
  induction 1 as [|u us H F IH]; [exists []; split; [constructor|intros x []]|]. destruct (well_formed_writable forms u H) as (a & Wa & La).
  destruct IH as (b & Wb & Lb). exists (a ++ b). split; [constructor; [apply (proj2 (wfu_message _ _ H))|exact Wa|exact Wb]|apply lines_ok_app; assumption].
Qed.
(** The header of a catalogue: texts that can be written. *)
Lemma preamble_texts lib pf h r tl forms c : preamble lib pf h r tl forms c -> Forall sane h ->
  exists ps, header_forms_of pf ps forms /\ (forall k, property ps k = sm_get k (c_properties c)) /\ language_of lib ps (c_language c)
    /\ exists ls, writes_header (c_notes c) (c_comments c) ps ls /\ lines_ok ls.
Proof.
  intros [r' tl' c' (Hn & Hc & Hp & Hl)|h' r' tl' u ps forms' c' En (t & Em & HP) HF (Hn & Hc & Hp & Hl)] S.
  - exists []. split; [apply hf_absent; reflexivity|]. split; [intros k; rewrite Hp; reflexivity|]. split; [exact Hl|].
    rewrite Hn, Hc. apply header_writable; [intros n []|intros x []|constructor|intros x []].
  - exists ps. split; [exact HF|]. split; [intros k; symmetry; apply Hp|]. split; [exact Hl|]. rewrite Hn, Hc.
    assert (scalars (opt_str t) /\ (forall n, In n (u_notes u) -> comment_text (note_kind (note_origin n)) (note_value n))
      /\ (forall x, In x (u_comments u) -> ~ In (com_kind x) [44; 58; 46; 32] /\ comment_text (com_kind x) (com_content x))) as (St & A & B).
    { clear Hn Hc Hp Hl. destruct En as [En _|En _]; [destruct En as [cs F N L C obs ks pc pm x m st Bc K Q]|destruct En as [cs F N L C obs l1 pc l2 pm l3 x l4 t' st Bc H1 H2 H3 H4 H5]].
      - apply Forall_app in S as [S1 S2]. destruct (block_comments_texts _ _ _ _ _ Bc S1) as (_ & _ & A & B). cbn [u_message u_notes u_comments] in *.
        split; [|auto]. destruct K as [l1 pc l2 pm l3 x l4 m H1 H2 H3 H4]. do 3 apply Forall_app in S2 as [_ S2]. subst m.
        apply (body_text _ _ _ _ H4 S2).
      - apply Forall_app in S as [S1 _]. destruct (block_comments_texts _ _ _ _ _ Bc S1) as (_ & _ & A & B). cbn [u_message u_notes u_comments] in *.
        injection Em as <-. split; [intros y []|auto]. }
    destruct (header_pairs_texts _ _ HP St) as [PT ST]. apply header_writable; assumption.
Qed.
Theorem catalogue_writable lib pf evs bs f c : delivers evs bs f -> read_catalogue lib pf evs = Ok c ->
  exists ps forms, header_forms_of pf ps forms /\ (forall k, property ps k = sm_get k (c_properties c)) /\ language_of lib ps (c_language c)
    /\ Forall (well_formed forms) (units (c_items c))
    /\ exists hls uls, writes_header (c_notes c) (c_comments c) ps hls /\ writes_units forms (units (c_items c)) uls /\ lines_ok (hls ++ uls).
Proof.
  intros D R. destruct (file_exists evs bs f D) as (ls & e & pl & tl & Fi). pose proof (delivered_sane _ _ _ _ _ Fi) as S.
  destruct (catalogue_blocks lib pf evs ls e pl tl c Fi R) as (h & forms & bls & rest & -> & Pr & F).
  apply Forall_app in S as [S1 S]. apply Forall_app in S as [S2 _].
  destruct (preamble_texts _ _ _ _ _ _ _ Pr S1) as (ps & HF & Hp & Hl & hls & Wh & Lh).
  assert (Forall (well_formed forms) (units (c_items c))) as W.
  { clear -F S2. induction F as [|b u bls us U F IH]; [constructor|]. cbn [concat] in S2. apply Forall_app in S2 as [A B]. constructor; [exact (entry_well_formed _ _ _ U A)|apply IH, B]. }
  destruct (units_writable _ _ W) as (uls & Wu & Lu). exists ps, forms. split; [exact HF|]. split; [exact Hp|]. split; [exact Hl|]. split; [exact W|].
  exists hls, uls. split; [exact Wh|]. split; [exact Wu|]. apply lines_ok_app; assumption.
Qed.
Lemma language_det lib ps l l' : language_of lib ps l -> language_of lib ps l' -> l = l'.
Proof.
  unfold language_of. destruct (property ps (lit "Language")) as [t|]; [|congruence].
  intros [A|[[A A']|(A & A' & ->)]] [B|[[B B']|(B & B' & ->)]]; congruence.
Qed.
Lemma delivers_one bs : delivers (match bs with [] => [] | _ => [RdData bs] end) bs None.
Proof. destruct bs; [constructor|]. rewrite <- (app_nil_r (b :: bs)) at 2. apply dl_data; [discriminate|constructor]. Qed.
Theorem read_write_read lib pf evs bs f c : delivers evs bs f -> read_catalogue lib pf evs = Ok c ->
  exists evs' bs' c', delivers evs' bs' None /\ read_catalogue lib pf evs' = Ok c' /\ same_catalogue c c' /\ c_items c' = map UOk (units (c_items c)).
Proof.
  intros D R. destruct (catalogue_writable lib pf evs bs f c D R) as (ps & forms & HF & Hp & Hl & _ & hls & uls & Wh & Wu & L).
  destruct (contents_exist _ L) as (bs' & C). pose proof (delivers_one bs') as D'.
  destruct (written_file_read lib pf _ _ _ _ _ _ _ _ _ Wh HF Wu C D') as (c' & R' & Ei & En & Ec & Ep & El).
  do 3 eexists. split; [exact D'|]. split; [exact R'|]. split; [|exact Ei]. repeat split; auto.
  - intros k. rewrite Ep, Hp. reflexivity.
  - exact (language_det _ _ _ _ Hl El).
Qed.
Theorem units_have_file forms us : Forall (well_formed forms) us -> exists ls bs, writes_units forms us ls /\ contents bs None ls None.
Proof. intros H. destruct (units_writable forms us H) as (ls & W & L). destruct (contents_exist ls L) as (bs & C). eauto. Qed.
Theorem catalogue_has_file N C ps forms us : (forall n, In n N -> comment_text (note_kind (note_origin n)) (note_value n)) ->
  (forall c, In c C -> ~ In (com_kind c) [44; 58; 46; 32] /\ comment_text (com_kind c) (com_content c)) ->
  Forall property_text ps -> (forall k v, In (k, v) ps -> scalars k /\ scalars v) -> Forall (well_formed forms) us ->
  exists hls uls bs, writes_header N C ps hls /\ writes_units forms us uls /\ contents bs None (hls ++ uls) None.
Proof.
  intros HN HC HP HS H. destruct (header_writable N C ps HN HC HP) as (hls & Wh & Lh).
  { unfold header_text. intros c I. apply in_flat_map in I as ([k v] & I & J). destruct (HS k v I) as [Sk Sv]. cbn [fst snd] in J.
    rewrite !in_app_iff in J. destruct J as [J|[J|[J|J]]]; [apply Sk, J| |apply Sv, J|]; cbn in J; intuition (subst; left; reflexivity). }
  destruct (units_writable forms us H) as (uls & Wu & Lu). destruct (contents_exist (hls ++ uls)) as (bs & Ct); [apply lines_ok_app; assumption|].
  exists hls, uls, bs. auto.
Qed.
Theorem delivered_well_formed lib pf evs bs f c : delivers evs bs f -> read_catalogue lib pf evs = Ok c ->
  exists ps forms, header_forms_of pf ps forms /\ (forall k, property ps k = sm_get k (c_properties c)) /\ Forall (well_formed forms) (units (c_items c)).
Proof. intros D R. destruct (catalogue_writable lib pf evs bs f c D R) as (ps & forms & A & B & _ & C & _). eauto. Qed.
