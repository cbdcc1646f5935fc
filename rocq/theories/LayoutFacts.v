(** Entries in the syntax of GNU gettext. *)
From Coq Require Import String Arith NArith ZArith Bool List Lia.
From Verif Require Import ModelBase ModelUtf8 ModelLine ModelFormula ModelData ModelSource ModelReader
  SpecLine SpecFormula SpecSource SpecReader SpecBlock SpecHeader SpecFile SpecGettext SpecLayout BaseFacts LineFacts LineThms StreamThms SourceFacts StreamFacts
  BlockFacts CommentFacts UnitFacts BlocksFacts FileFacts BlockThms EntryThms WriterFacts WritableFacts IndepFacts GettextFacts FileIntro BlockWitness.
Import ListNotations.
Local Open Scope N_scope.

Lemma gettext_blank_blanks w : gettext_blank w -> blanks w.
Proof. intros H c I. specialize (H c I). cbn in H. unfold white, white_points. repeat (destruct H as [<-|H]; [cbn; tauto|]). destruct H. Qed.
Lemma gettext_keyword_keyword kw : gettext_keyword kw -> keyword kw.
Proof. intros [ | | | |i k H]; try constructor. exact (proj1 (msgstr_keyword _ _ H)). Qed.
Lemma blanks_nil : blanks [].
Proof. intros c []. Qed.

(** * Lines *)
Inductive shows : po_line -> list gtok -> Prop :=
| sh_field n kw b : common_escapes b -> shows (PMessage n [] kw (unescape b)) [GKeyword kw; GString b]
| sh_string n b : common_escapes b -> shows (PCont n [] (unescape b)) [GString b].
Lemma line_shown s ts n : one_line s -> line_tokens s ts -> usual_tokens ts ->
  (ts = [] /\ parse_line s n = Some PBlank) \/ exists l, parse_line s n = Some l /\ l <> PBlank /\ shows l ts.
Proof.
  intros O H U. destruct U as [|kw b C|b C].
  - left. split; [reflexivity|]. inversion H; subst. apply parse_line_blank; [exact O|]. apply gettext_blank_blanks; assumption.
  - right. exists (PMessage n [] kw (unescape b)). split; [|split; [discriminate|constructor; exact C]].
    remember [GKeyword kw; GString b] as ts eqn:E. destruct H as [|w k s ts Bw K F H|]; [discriminate| |discriminate]. injection E as -> ->.
    remember [GString b] as ts eqn:E. destruct H as [| |w2 b' s ts Bw2 Cl H]; [discriminate|discriminate|]. injection E as -> ->.
    inversion H as [w3 Bw3| |]; subst. apply parse_line_message; [exact O|]. split; [reflexivity|]. exists kw, b.
    split; [|split; [reflexivity|apply unescape_unescapes]]. exists [], w, [], w2, s. cbn [opt_str app].
    split; [rewrite <- ?app_assoc; reflexivity|]. split; [constructor|]. split; [intros k' [= <-]; apply gettext_keyword_keyword; exact K|].
    repeat split; try (apply gettext_blank_blanks; assumption); try exact blanks_nil.
    intros I. apply O. rewrite !in_app_iff. auto 10.
  - right. exists (PCont n [] (unescape b)). split; [|split; [discriminate|constructor; exact C]].
    remember [GString b] as ts eqn:E. destruct H as [| |w2 b' s ts Bw2 Cl H]; [discriminate|discriminate|]. injection E as -> ->.
    inversion H as [w3 Bw3| |]; subst. apply parse_line_cont; [exact O|]. split; [reflexivity|]. exists b.
    split; [|apply unescape_unescapes]. exists [], w2, [], [], s. cbn [opt_str app].
    split; [reflexivity|]. split; [constructor|]. split; [discriminate|].
    repeat split; try (apply gettext_blank_blanks; assumption); try exact blanks_nil.
    intros I. apply O. rewrite !in_app_iff. auto 10.
Qed.
Lemma lines_shown ls tss : Forall2 line_tokens ls tss -> Forall usual_tokens tss -> plain ls -> forall n,
  exists pl qs, rd n ls pl /\ Forall2 shows pl qs /\ concat qs = concat tss.
Proof.
  induction 1 as [|s ts ls tss H F IH]; intros U P n.
  - exists [], []. split; [apply rd_nil|]. split; [constructor|reflexivity].
  - apply plain_cons in P as [O P]. inversion U as [|? ? U1 U2]; subst. destruct (IH U2 P (n + 1)) as (pl & qs & R & S & E).
    destruct (line_shown s ts n O H U1) as [[-> B]|(l & B & NB & Sh)].
    + exists pl, qs. split; [apply ps_blank; [exact O|apply line_of_iff; assumption|exact R]|]. auto.
    + exists (l :: pl), (ts :: qs). split; [exact (rd_line n s l O B NB _ _ R)|]. split; [constructor; assumption|]. cbn [concat]. congruence.
Qed.

(** * Entries *)
Lemma strings_taken bs ts : Forall2 gettext_means bs ts -> forall pl qs r, Forall2 shows pl qs -> concat qs = map GString bs ++ r ->
  exists p1 p2 q2, pl = p1 ++ p2 /\ strings [] p1 (concat ts) /\ Forall2 shows p2 q2 /\ concat q2 = r.
Proof.
  induction 1 as [|b t bs ts M F IH]; intros pl qs r S E.
  - exists [], pl, qs. split; [reflexivity|]. split; [constructor|]. auto.
  - cbn [map app] in E. destruct S as [|l q pl qs Sh S]; [discriminate|]. destruct Sh as [n kw b' C|n b' C]; cbn [concat app] in E; [discriminate|].
    injection E as -> E. destruct (IH pl qs r S E) as (p1 & p2 & q2 & -> & St & S2 & E2). exists (PCont n [] (unescape b) :: p1), p2, q2.
    split; [reflexivity|]. split; [|auto]. cbn [concat]. rewrite (proj2 (escapes_agree b t M) C). constructor. exact St.
Qed.
Lemma field_taken kw f v : gettext_field kw f v -> forall pl qs r, Forall2 shows pl qs -> concat qs = f ++ r ->
  exists p1 p2 q2, pl = p1 ++ p2 /\ field (own false) kw p1 v /\ Forall2 shows p2 q2 /\ concat q2 = r.
Proof.
  intros [b bs t ts M F] pl qs r S E. cbn [app] in E. destruct S as [|l q pl qs Sh S]; [discriminate|]. destruct Sh as [n kw' b' C|n b' C]; cbn [concat app] in E; [|discriminate].
  injection E as -> -> E. destruct (strings_taken bs ts F pl qs r S E) as (p1 & p2 & q2 & -> & St & S2 & E2). exists (PMessage n [] kw (unescape b) :: p1), p2, q2.
  split; [reflexivity|]. split; [|auto]. rewrite (proj2 (escapes_agree b t M) C). exact (fl_intro [] kw n t p1 (concat ts) St).
Qed.
Lemma context_taken f c : gettext_context f c -> forall pl qs r, Forall2 shows pl qs -> concat qs = f ++ r ->
  exists p1 p2 q2, pl = p1 ++ p2 /\ opt_field (own false) (lit "msgctxt") p1 c /\ Forall2 shows p2 q2 /\ concat q2 = r.
Proof.
  intros [|a s F] pl qs r S E.
  - exists [], pl, qs. split; [reflexivity|]. split; [constructor|]. auto.
  - destruct (field_taken _ _ _ F pl qs r S E) as (p1 & p2 & q2 & E1 & Fi & X). exists p1, p2, q2. split; [exact E1|]. split; [constructor; exact Fi|exact X].
Qed.
Lemma forms_taken count i f vs : gettext_forms i f vs -> i + N.of_nat (length vs) <= count -> forall pl qs r, Forall2 shows pl qs -> concat qs = f ++ r ->
  exists p1 p2 q2, pl = p1 ++ p2 /\ values (own false) count i p1 vs /\ Forall2 shows p2 q2 /\ concat q2 = r.
Proof.
  induction 1 as [i|i kw a v b vs K F G IH]; intros L pl qs r S E.
  - exists [], pl, qs. split; [reflexivity|]. split; [constructor|]. auto.
  - cbn [length] in L. rewrite Nat2N.inj_succ in L. rewrite <- app_assoc in E. destruct (field_taken _ _ _ F pl qs _ S E) as (p1 & p2 & q2 & -> & Fi & S2 & E2).
    destruct (IH ltac:(lia) p2 q2 r S2 E2) as (p3 & p4 & q4 & -> & V & S4 & E4). exists (p1 ++ p3), p4, q4. split; [apply app_assoc|]. split; [|auto].
    apply (vs_cons (own false) count i i kw); try assumption; lia.
Qed.
Lemma body_taken forms f m : gettext_body forms f m -> forall pl qs r, Forall2 shows pl qs -> concat qs = f ++ r ->
  exists p1 p2 q2, pl = p1 ++ p2 /\ body forms false p1 m /\ Forall2 shows p2 q2 /\ concat q2 = r.
Proof.
  intros [a id b text A B|a id b p c vs A B C NE L] pl qs r S E; rewrite <- !app_assoc in E.
  - destruct (field_taken _ _ _ A pl qs _ S E) as (p1 & p2 & q2 & -> & F1 & S2 & E2). destruct (field_taken _ _ _ B p2 q2 _ S2 E2) as (p3 & p4 & q4 & -> & F2 & S4 & E4).
    exists (p1 ++ p3), p4, q4. split; [apply app_assoc|]. split; [constructor; assumption|auto].
  - destruct (field_taken _ _ _ A pl qs _ S E) as (p1 & p2 & q2 & -> & F1 & S2 & E2). destruct (field_taken _ _ _ B p2 q2 _ S2 E2) as (p3 & p4 & q4 & -> & F2 & S4 & E4).
    destruct (forms_taken (nforms forms) _ _ _ C ltac:(lia) p4 q4 _ S4 E4) as (p5 & p6 & q6 & -> & V & S6 & E6).
    exists (p1 ++ p3 ++ p5), p6, q6. split; [rewrite <- !app_assoc; reflexivity|]. split; [constructor; assumption|auto].
Qed.
Lemma entry_taken forms f u : gettext_entry forms f u -> forall pl qs r, Forall2 shows pl qs -> concat qs = f ++ r ->
  exists p1 p2 q2, pl = p1 ++ p2 /\ entry forms p1 u /\ Forall2 shows p2 q2 /\ concat q2 = r.
Proof.
  intros [a c b m st A B St] pl qs r S E. rewrite <- app_assoc in E.
  destruct (context_taken _ _ A pl qs _ S E) as (p1 & p2 & q2 & -> & F1 & S2 & E2). destruct (body_taken _ _ _ B p2 q2 _ S2 E2) as (p3 & p4 & q4 & -> & F2 & S4 & E4).
  exists (p1 ++ p3), p4, q4. split; [apply app_assoc|]. split; [|auto].
  apply (en_intro forms [] [] [] [] [] false (p1 ++ p3) None (MSimple [] None) c m st); [constructor| |exact St].
  apply (kws_intro forms false [] None [] (MSimple [] None) p1 c p3 m); [constructor|constructor|exact F1|exact F2].
Qed.
Lemma entries_taken forms es us : Forall2 (gettext_entry forms) es us -> Forall has_source us -> forall pl qs, Forall2 shows pl qs -> concat qs = concat es ->
  exists bls, pl = concat bls /\ Forall2 (unit_entry forms) bls us.
Proof.
  induction 1 as [|f u es us G F IH]; intros H pl qs S E; cbn [concat] in E.
  - destruct S as [|l q pl qs Sh S]; [exists []; split; [reflexivity|constructor]|]. destruct Sh; discriminate.
  - inversion H as [|? ? H1 H2]; subst. destruct (entry_taken _ _ _ G pl qs _ S E) as (p1 & p2 & q2 & -> & En & S2 & E2).
    destruct (IH H2 p2 q2 S2 E2) as (bls & -> & F'). exists (p1 :: bls). split; [reflexivity|]. constructor; [split; assumption|exact F'].
Qed.
Theorem layout_read lib pf hls v ps forms ls tss es us bs evs : heading_text pf hls v ps forms ->
  Forall2 line_tokens ls tss -> Forall2 (gettext_entry forms) es us -> concat tss = concat es -> Forall has_source us -> Forall usual_tokens tss ->
  contents bs None (hls ++ ls) None -> delivers evs bs None ->
  exists c, read_catalogue lib pf evs = Ok c /\ header_shown lib v ps c /\ c_items c = map UOk us.
Proof.
  intros (h & R & E & H & HF) T G Q Hs U Ct D. pose proof (contents_one_line _ _ _ _ Ct) as P. apply plain_app in P as [Ph Pu].
  destruct (lines_shown ls tss T U Pu (1 + N.of_nat (length hls))) as (pl & qs & R' & S & Eq). rewrite Q in Eq.
  destruct (entries_taken forms es us G Hs pl qs S Eq) as (bls & -> & F').
  assert (file evs (hls ++ ls) None (h ++ concat bls) None) as Fi by (exists bs, None; split; [exact D|]; split; [exact Ct|]; apply rd_app; assumption).
  pose proof (entries_ends None forms h v _ us E (entries_only _ _ _ F')) as Ea.
  destruct (read_header lib pf evs _ _ _ _ h v ps (concat bls) forms us None Fi eq_refl (fe_entry _ _ _ _ E Ea) H HF) as (c & Rc & Hsh & Ei).
  { apply blocks_entries. split; [apply entries_only, F'|reflexivity]. }
  exists c. rewrite app_nil_r in Ei. auto.
Qed.

(** * A keyword at the end of a line *)
Lemma first_nonblank w c r w' d r' : blanks w -> blanks w' -> ~ white c -> ~ white d -> w ++ c :: r = w' ++ d :: r' -> c = d.
Proof.
  revert w'. induction w as [|x w IH]; intros [|y w'] B B' C D E; cbn in E.
  - congruence.
  - injection E as -> _. destruct C. apply B'. left. reflexivity.
  - injection E as <- _. destruct D. apply B. left. reflexivity.
  - injection E as -> E. apply (IH w'); try assumption; intros z I; [apply B|apply B']; right; exact I.
Qed.
Lemma blanks_rev w : blanks w -> blanks (rev w).
Proof. intros B c I. apply B. apply in_rev. exact I. Qed.
Lemma last_nonblank w c r w' d r' : blanks w -> blanks w' -> ~ white c -> ~ white d -> r ++ [c] ++ w = r' ++ [d] ++ w' -> c = d.
Proof.
  intros B B' C D E. apply (f_equal (@rev _)) in E. rewrite !rev_app_distr in E. cbn [rev app] in E. rewrite <- !app_assoc in E. cbn [app] in E.
  exact (first_nonblank _ _ _ _ _ _ (blanks_rev _ B) (blanks_rev _ B') C D E).
Qed.
Lemma not_white c : existsb (N.eqb c) white_points = false -> ~ white c.
Proof. intros E W. assert (existsb (N.eqb c) white_points = true) as X; [|congruence]. apply existsb_exists. exists c. split; [exact W|apply N.eqb_refl]. Qed.
Lemma gettext_keyword_ends kw : gettext_keyword kw -> exists k c, kw = 109 :: k ++ [c] /\ ~ white c /\ c <> 34.
Proof.
  intros [ | | | |i k (ds & _ & ->)].
  - exists (lit "sgctx"), 116. split; [reflexivity|]. split; [apply not_white; reflexivity|discriminate].
  - exists (lit "sgi"), 100. split; [reflexivity|]. split; [apply not_white; reflexivity|discriminate].
  - exists (lit "sgid_plura"), 108. split; [reflexivity|]. split; [apply not_white; reflexivity|discriminate].
  - exists (lit "sgst"), 114. split; [reflexivity|]. split; [apply not_white; reflexivity|discriminate].
  - exists (lit "sgstr[" ++ ds), 93. split; [rewrite <- app_assoc; reflexivity|]. split; [apply not_white; reflexivity|discriminate].
Qed.
Lemma tokens_first s ts : line_tokens s ts -> ts <> [] -> exists w c r, s = w ++ c :: r /\ blanks w /\ (c = 109 \/ c = 34).
Proof.
  intros [w B|w kw r ts' B K F H|w b r ts' B C H] NE; [contradiction| |]; apply gettext_blank_blanks in B.
  - apply gettext_keyword_ends in K as (k & c & -> & _). exists w, 109, ((k ++ [c]) ++ r). auto.
  - exists w, 34, (b ++ [34] ++ r). auto.
Qed.
Lemma tokens_last s ts : line_tokens s ts -> forall ts' kw, ts = ts' ++ [GKeyword kw] -> exists a c w, s = a ++ [c] ++ w /\ blanks w /\ ~ white c /\ c <> 34.
Proof.
  induction 1 as [w B|w kw r ts B K F H IH|w b r ts B C H IH]; intros ts' kw' E.
  - destruct ts'; discriminate.
  - destruct ts' as [|t ts']; cbn [app] in E.
    + injection E as -> ->. inversion H as [w' B'| |]; subst. apply gettext_keyword_ends in K as (k & c & -> & W & N).
      exists (w ++ 109 :: k), c, r. rewrite <- !app_assoc. cbn [app]. rewrite <- app_assoc. split; [reflexivity|]. split; [apply gettext_blank_blanks; assumption|auto].
    + injection E as _ E. destruct (IH ts' kw' E) as (a & c & w' & -> & X). exists (w ++ kw ++ a), c, w'. rewrite <- !app_assoc. auto.
  - destruct ts' as [|t ts']; [discriminate|]. injection E as _ E. destruct (IH ts' kw' E) as (a & c & w' & -> & X).
    exists (w ++ [34] ++ b ++ [34] ++ a), c, w'. rewrite <- !app_assoc. auto.
Qed.
Lemma keyword_last_line s ts kw n : line_tokens s (ts ++ [GKeyword kw]) -> forall l, ~ line_of s n l.
Proof.
  intros T l H. destruct (tokens_last _ _ T ts kw eq_refl) as (a & c & w & E & B & W & N).
  assert (Q : forall flags k q, ~ quoted_line s flags k q).
  { intros flags k q (mark & w1 & w2 & w3 & w4 & E' & _ & _ & _ & _ & _ & B4 & _). apply N.
    apply (last_nonblank w c a w4 34 (w1 ++ mark ++ w2 ++ opt_str k ++ w3 ++ [34] ++ q)); [exact B|exact B4|exact W|apply not_white; reflexivity|].
    rewrite <- E, E', <- !app_assoc. reflexivity. }
  destruct H as [Bs|flags k q t H _|flags q t H _|k x H _].
  - apply W. apply Bs. rewrite E. apply in_or_app. right. left. reflexivity.
  - exact (Q _ _ _ H).
  - exact (Q _ _ _ H).
  - destruct (tokens_first _ _ T) as (w' & d & r & E' & B' & D); [destruct ts; discriminate|].
    assert (exists w1 r1, blanks w1 /\ s = w1 ++ 35 :: r1) as (w1 & r1 & B1 & E1).
    { destruct H as (w1 & B1 & [(E1 & _)|(w2 & _ & _ & E1)]); exists w1; eexists; split; try exact B1; exact E1. }
    assert (d = 35) as ->; [|destruct D; discriminate].
    apply (first_nonblank w' d r w1 35 r1 B' B1); [destruct D as [-> | ->]; apply not_white; reflexivity|apply not_white; reflexivity|exact (eq_trans (eq_sym E') E1)].
Qed.
Theorem keyword_last s ts kw n : one_line s -> line_tokens s (ts ++ [GKeyword kw]) -> parse_line s n = None.
Proof. intros O T. apply line_of_none; [exact O|]. exact (keyword_last_line s ts kw n T). Qed.

(** * More than one string on a line *)
Lemma tokens_end s ts : line_tokens s ts -> forall ts' b, ts = ts' ++ [GString b] -> exists a w, s = a ++ [34] ++ w /\ blanks w.
Proof.
  induction 1 as [w B|w kw r ts B K F H IH|w b r ts B C H IH]; intros ts' b' E.
  - destruct ts'; discriminate.
  - destruct ts' as [|t ts']; [discriminate|]. injection E as _ E. destruct (IH ts' b' E) as (a & w' & -> & X). exists (w ++ kw ++ a), w'. rewrite <- !app_assoc. auto.
  - destruct ts' as [|t ts']; cbn [app] in E.
    + injection E as -> ->. inversion H as [w' B'| |]; subst. exists (w ++ [34] ++ b'), r. rewrite <- !app_assoc. split; [reflexivity|apply gettext_blank_blanks; assumption].
    + injection E as _ E. destruct (IH ts' b' E) as (a & w' & -> & X). exists (w ++ [34] ++ b ++ [34] ++ a), w'. rewrite <- !app_assoc. auto.
Qed.
Theorem field_and_more s kw b ts b' n : one_line s -> line_tokens s (GKeyword kw :: GString b :: ts ++ [GString b']) ->
  exists rest, parse_line s n = Some (PMessage n [] kw (unescape b ++ 34 :: rest)).
Proof.
  intros O H. remember (GKeyword kw :: GString b :: ts ++ [GString b']) as q eqn:E. destruct H as [|w k s q Bw K F H|]; [discriminate| |discriminate]. injection E as -> E.
  destruct H as [| |w2 x s q Bw2 Cl H]; [discriminate|discriminate|]. injection E as -> ->.
  destruct (tokens_end _ _ H ts b' eq_refl) as (a & w4 & -> & B4). exists (unescape a).
  apply parse_line_message; [exact O|]. split; [reflexivity|]. exists kw, (b ++ 34 :: a). split; [|split; [reflexivity|]].
  - exists [], w, [], w2, w4. cbn [opt_str app]. split; [rewrite <- ?app_assoc; reflexivity|]. split; [constructor|]. split; [intros k' [= <-]; apply gettext_keyword_keyword; exact K|].
    repeat split; try (apply gettext_blank_blanks; assumption); try exact blanks_nil; try exact B4.
    intros I. apply O. apply in_app_iff in I as [I|I]; rewrite !in_app_iff; [auto 10|]. destruct I as [I|I]; [discriminate|]. auto 12.
  - apply closed_app; [exact Cl|apply unescape_unescapes|]. apply (copy_list [34]); [intros c [<-|[]]; discriminate|]. apply unescape_unescapes.
Qed.

(** * Witnesses *)
Lemma blank_32 : gettext_blank [32].
Proof. intros c [<-|[]]. left. reflexivity. Qed.
Lemma blank_nil : gettext_blank [].
Proof. intros c []. Qed.
Lemma letter_closed c : c <> 92 -> c <> 34 -> closed [c].
Proof. intros. apply cd_char; try assumption. constructor. Qed.
Lemma letter_means c : c <> 92 -> c <> 34 -> gettext_means [c] [c].
Proof. intros. apply gm_char; try assumption. constructor. Qed.
Definition demo_tokens : list gtok := [GKeyword (lit "msgid"); GString (lit "a"); GKeyword (lit "msgstr"); GString (lit "b")].
Lemma demo_entry : gettext_entry None demo_tokens (simple_unit (lit "a") (lit "b")).
Proof.
  apply (ge_intro None [] None demo_tokens (MSimple (lit "a") (Some (lit "b"))) StFinal); [constructor| |].
  - apply (gb_simple None [GKeyword (lit "msgid"); GString (lit "a")] (lit "a") [GKeyword (lit "msgstr"); GString (lit "b")] (lit "b")).
    + apply (gf_intro (lit "msgid") (lit "a") [] (lit "a") []); [apply letter_means; discriminate|constructor].
    + apply (gf_intro (lit "msgstr") (lit "b") [] (lit "b") []); [apply letter_means; discriminate|constructor].
  - apply (so_final [] _ (lit "b")); [intros []|left; reflexivity|discriminate].
Qed.
Lemma string_tokens c s ts : c <> 92 -> c <> 34 -> line_tokens s ts -> line_tokens (32 :: 34 :: c :: 34 :: s) (GString [c] :: ts).
Proof. intros N N' H. apply (lt_string [32] [c] s ts blank_32 (letter_closed c N N') H). Qed.
Lemma nothing_tokens : line_tokens [] [].
Proof. constructor. exact blank_nil. Qed.
Lemma keyword_tokens kw s ts : gettext_keyword kw -> match s with [] => True | c :: _ => c = 32 end -> line_tokens s ts -> line_tokens (kw ++ s) (GKeyword kw :: ts).
Proof. intros K F H. apply (lt_keyword [] kw s ts blank_nil K); [|exact H]. intros c r ->. left. rewrite F. exact blank_32. Qed.
Definition broken_lines : list string := ["msgid"; " ""a"""; "msgstr ""b"""]%string.
Definition long_lines : list string := ["msgid ""a"" msgstr ""b"""]%string.
Definition usual_lines : list string := ["msgid ""a"""; "msgstr ""b"""]%string.
Lemma broken_tokens : Forall2 line_tokens (map lit broken_lines) [[GKeyword (lit "msgid")]; [GString (lit "a")]; [GKeyword (lit "msgstr"); GString (lit "b")]].
Proof.
  constructor; [apply (keyword_tokens (lit "msgid") []); [constructor|exact Logic.I|exact nothing_tokens]|].
  constructor; [apply string_tokens; [discriminate|discriminate|exact nothing_tokens]|]. constructor; [|constructor].
  apply (keyword_tokens (lit "msgstr") (lit " ""b""")); [constructor|reflexivity|]. apply string_tokens; [discriminate|discriminate|exact nothing_tokens].
Qed.
Lemma long_tokens : Forall2 line_tokens (map lit long_lines) [demo_tokens].
Proof.
  constructor; [|constructor]. apply (keyword_tokens (lit "msgid") (lit " ""a"" msgstr ""b""")); [constructor|reflexivity|]. apply string_tokens; [discriminate|discriminate|].
  apply (lt_keyword [32] (lit "msgstr") (lit " ""b""")); [exact blank_32|constructor|intros c r [= <- _]; left; exact blank_32|]. apply string_tokens; [discriminate|discriminate|exact nothing_tokens].
Qed.
Lemma usual_lines_tokens : Forall2 line_tokens (map lit usual_lines) [[GKeyword (lit "msgid"); GString (lit "a")]; [GKeyword (lit "msgstr"); GString (lit "b")]].
Proof.
  constructor; [|constructor; [|constructor]].
  - apply (keyword_tokens (lit "msgid") (lit " ""a""")); [constructor|reflexivity|]. apply string_tokens; [discriminate|discriminate|exact nothing_tokens].
  - apply (keyword_tokens (lit "msgstr") (lit " ""b""")); [constructor|reflexivity|]. apply string_tokens; [discriminate|discriminate|exact nothing_tokens].
Qed.
Theorem broken_refuted : exists ls tss es u, Forall2 line_tokens (map lit ls) tss /\ Forall2 (gettext_entry None) es [u] /\ concat tss = concat es /\ has_source u
  /\ forall lib pf, read_catalogue lib pf (lf_stream ls) = Err (EParse 2 (lit "msgid") []).
Proof.
  exists broken_lines. eexists. exists [demo_tokens], (simple_unit (lit "a") (lit "b")). split; [exact broken_tokens|]. split; [constructor; [exact demo_entry|constructor]|].
  split; [reflexivity|]. split; [intros t H; discriminate|]. intros lib pf. vm_compute. reflexivity.
Qed.
Theorem long_refuted : exists ls tss es u, Forall2 line_tokens (map lit ls) tss /\ Forall2 (gettext_entry None) es [u] /\ concat tss = concat es /\ has_source u
  /\ forall lib pf, exists c, read_catalogue lib pf (lf_stream ls) = Ok c /\ c_items c = [].
Proof.
  exists long_lines. eexists. exists [demo_tokens], (simple_unit (lit "a") (lit "b")). split; [exact long_tokens|]. split; [constructor; [exact demo_entry|constructor]|].
  split; [reflexivity|]. split; [intros t H; discriminate|]. intros lib pf. eexists. split; vm_compute; reflexivity.
Qed.
