(** Obsolete entries and previous messages in the syntax of GNU gettext. *)
From Coq Require Import String Arith NArith ZArith Bool List Lia.
From Verif Require Import ModelBase ModelUtf8 ModelLine ModelFormula ModelData ModelSource ModelReader
  SpecLine SpecFormula SpecSource SpecReader SpecBlock SpecHeader SpecFile SpecGettext SpecLayout SpecMarks BaseFacts LineFacts LineThms StreamThms SourceFacts StreamFacts
  BlockFacts CommentFacts UnitFacts BlocksFacts FileFacts BlockThms EntryThms WriterFacts WritableFacts IndepFacts GettextFacts FileIntro BlockWitness LayoutFacts.
Import ListNotations.
Local Open Scope N_scope.

Definition flags_of (m : mark) : str := if snd m then prev (fst m) else own (fst m).
Lemma mark_marker m : marker (mark_text m) (flags_of m).
Proof. destruct m as [[|] [|]]; constructor. Qed.

Inductive mshows : po_line -> list (mark * gtok) -> Prop :=
| ms_field m n kw b : common_escapes b -> mshows (PMessage n (flags_of m) (reported_tag (flags_of m) kw) (unescape b)) [(m, GKeyword kw); (m, GString b)]
| ms_string m n b : common_escapes b -> mshows (PCont n (flags_of m) (unescape b)) [(m, GString b)].
Lemma marked_shown s l n : one_line s -> marked_line s l -> usual_line l ->
  (line_marks l = [] /\ parse_line s n = Some PBlank) \/ exists q, parse_line s n = Some q /\ q <> PBlank /\ mshows q (line_marks l).
Proof.
  destruct l as [m ts]. intros O (w0 & r & E & B0 & H) [U Um]. cbn [fst snd] in *. unfold line_marks. cbn [fst snd]. destruct U as [|kw b C|b C].
  - left. split; [reflexivity|]. rewrite (Um eq_refl) in E. cbn in E. inversion H; subst. apply parse_line_blank; [exact O|].
    intros c I. apply in_app_or in I as [I|I]; [apply (gettext_blank_blanks _ B0 c I)|apply (gettext_blank_blanks _ H0 c I)].
  - right. exists (PMessage n (flags_of m) (reported_tag (flags_of m) kw) (unescape b)). split; [|split; [discriminate|apply (ms_field m); exact C]].
    remember [GKeyword kw; GString b] as ts eqn:Et. destruct H as [|w k s' ts Bw K F H|]; [discriminate| |discriminate]. injection Et as -> ->.
    remember [GString b] as ts eqn:Et. destruct H as [| |w2 b' s' ts Bw2 Cl H]; [discriminate|discriminate|]. injection Et as -> ->.
    inversion H as [w3 Bw3| |]; subst. apply parse_line_message; [exact O|]. split; [reflexivity|]. exists kw, b.
    split; [|split; [reflexivity|apply unescape_unescapes]]. exists (mark_text m), w0, w, w2, s'. cbn [opt_str].
    split; [rewrite <- ?app_assoc; reflexivity|]. split; [apply mark_marker|]. split; [intros k' [= <-]; apply gettext_keyword_keyword; exact K|].
    repeat split; try (apply gettext_blank_blanks; assumption).
    intros I. apply O. rewrite !in_app_iff. auto 10.
  - right. exists (PCont n (flags_of m) (unescape b)). split; [|split; [discriminate|apply (ms_string m); exact C]].
    remember [GString b] as ts eqn:Et. destruct H as [| |w2 b' s' ts Bw2 Cl H]; [discriminate|discriminate|]. injection Et as -> ->.
    inversion H as [w3 Bw3| |]; subst. apply parse_line_cont; [exact O|]. split; [reflexivity|]. exists b.
    split; [|apply unescape_unescapes]. exists (mark_text m), w0, w2, [], s'. cbn [opt_str app].
    split; [rewrite <- ?app_assoc; reflexivity|]. split; [apply mark_marker|]. split; [discriminate|].
    repeat split; try (apply gettext_blank_blanks; assumption); try exact blanks_nil.
    intros I. apply O. rewrite !in_app_iff. auto 10.
Qed.
Lemma all_shown ls tss : Forall2 marked_line ls tss -> Forall usual_line tss -> plain ls -> forall n,
  exists pl qs, rd n ls pl /\ Forall2 mshows pl qs /\ concat qs = flat_map line_marks tss.
Proof.
  induction 1 as [|s ts ls tss H F IH]; intros U P n.
  - exists [], []. split; [apply rd_nil|]. split; [constructor|reflexivity].
  - apply plain_cons in P as [O P]. inversion U as [|? ? U1 U2]; subst. destruct (IH U2 P (n + 1)) as (pl & qs & R & S & E). cbn [flat_map].
    destruct (marked_shown s ts n O H U1) as [[Et B]|(l & B & NB & Sh)].
    + exists pl, qs. split; [apply ps_blank; [exact O|apply line_of_iff; assumption|exact R]|]. rewrite Et. auto.
    + exists (l :: pl), (line_marks ts :: qs). split; [exact (rd_line n s l O B NB _ _ R)|]. split; [constructor; assumption|]. cbn [concat]. congruence.
Qed.

Lemma mstrings m bs ts : Forall2 gettext_means bs ts -> forall pl qs r, Forall2 mshows pl qs -> concat qs = with_mark m (map GString bs) ++ r ->
  exists p1 p2 q2, pl = p1 ++ p2 /\ strings (flags_of m) p1 (concat ts) /\ Forall2 mshows p2 q2 /\ concat q2 = r.
Proof.
  induction 1 as [|b t bs ts M F IH]; intros pl qs r S E.
  - exists [], pl, qs. split; [reflexivity|]. split; [constructor|]. auto.
  - cbn [map with_mark app] in E. destruct S as [|l q pl qs Sh S]; [discriminate|]. destruct Sh as [m' n kw b' C|m' n b' C]; cbn [concat app] in E; [discriminate|].
    injection E as -> -> E. destruct (IH pl qs r S E) as (p1 & p2 & q2 & -> & St & S2 & E2). exists (PCont n (flags_of m) (unescape b) :: p1), p2, q2.
    split; [reflexivity|]. split; [|auto]. cbn [concat]. rewrite (proj2 (escapes_agree b t M) C). constructor. exact St.
Qed.
Lemma mfield m kw f v : gettext_field kw f v -> forall pl qs r, Forall2 mshows pl qs -> concat qs = with_mark m f ++ r ->
  exists p1 p2 q2, pl = p1 ++ p2 /\ field (flags_of m) kw p1 v /\ Forall2 mshows p2 q2 /\ concat q2 = r.
Proof.
  intros [b bs t ts M F] pl qs r S E. cbn [map with_mark app] in E. destruct S as [|l q pl qs Sh S]; [discriminate|]. destruct Sh as [m' n kw' b' C|m' n b' C]; cbn [concat app] in E; [|discriminate].
  assert (Em : m' = m /\ kw' = kw /\ b' = b /\ concat qs = with_mark m (map GString bs) ++ r) by (injection E; auto). destruct Em as (-> & -> & -> & E'). clear E. rename E' into E. destruct (mstrings m bs ts F pl qs r S E) as (p1 & p2 & q2 & -> & St & S2 & E2). eexists (_ :: p1), p2, q2.
  split; [reflexivity|]. split; [|auto]. rewrite (proj2 (escapes_agree b t M) C). exact (fl_intro (flags_of m) kw n t p1 (concat ts) St).
Qed.
Lemma with_mark_app m a b : with_mark m (a ++ b) = with_mark m a ++ with_mark m b.
Proof. apply map_app. Qed.
Lemma mcontext m f c : gettext_context f c -> forall pl qs r, Forall2 mshows pl qs -> concat qs = with_mark m f ++ r ->
  exists p1 p2 q2, pl = p1 ++ p2 /\ opt_field (flags_of m) (lit "msgctxt") p1 c /\ Forall2 mshows p2 q2 /\ concat q2 = r.
Proof.
  intros [|a s F] pl qs r S E.
  - exists [], pl, qs. split; [reflexivity|]. split; [constructor|]. auto.
  - destruct (mfield m _ _ _ F pl qs r S E) as (p1 & p2 & q2 & E1 & Fi & X). exists p1, p2, q2. split; [exact E1|]. split; [constructor; exact Fi|exact X].
Qed.
Lemma mforms m count i f vs : gettext_forms i f vs -> i + N.of_nat (length vs) <= count -> forall pl qs r, Forall2 mshows pl qs -> concat qs = with_mark m f ++ r ->
  exists p1 p2 q2, pl = p1 ++ p2 /\ values (flags_of m) count i p1 vs /\ Forall2 mshows p2 q2 /\ concat q2 = r.
Proof.
  induction 1 as [i|i kw a v b vs K F G IH]; intros L pl qs r S E.
  - exists [], pl, qs. split; [reflexivity|]. split; [constructor|]. auto.
  - cbn [length] in L. rewrite Nat2N.inj_succ in L. rewrite with_mark_app, <- app_assoc in E. destruct (mfield m _ _ _ F pl qs _ S E) as (p1 & p2 & q2 & -> & Fi & S2 & E2).
    destruct (IH ltac:(lia) p2 q2 r S2 E2) as (p3 & p4 & q4 & -> & V & S4 & E4). exists (p1 ++ p3), p4, q4. split; [apply app_assoc|]. split; [|auto].
    apply (vs_cons (flags_of m) count i i kw); try assumption; lia.
Qed.
Lemma mbody obs forms f m : gettext_body forms f m -> forall pl qs r, Forall2 mshows pl qs -> concat qs = with_mark (obs, false) f ++ r ->
  exists p1 p2 q2, pl = p1 ++ p2 /\ body forms obs p1 m /\ Forall2 mshows p2 q2 /\ concat q2 = r.
Proof.
  intros [a id b text A B|a id b p c vs A B C NE L] pl qs r S E; rewrite !with_mark_app, <- !app_assoc in E.
  - destruct (mfield _ _ _ _ A pl qs _ S E) as (p1 & p2 & q2 & -> & F1 & S2 & E2). destruct (mfield _ _ _ _ B p2 q2 _ S2 E2) as (p3 & p4 & q4 & -> & F2 & S4 & E4).
    exists (p1 ++ p3), p4, q4. split; [apply app_assoc|]. split; [constructor; assumption|auto].
  - destruct (mfield _ _ _ _ A pl qs _ S E) as (p1 & p2 & q2 & -> & F1 & S2 & E2). destruct (mfield _ _ _ _ B p2 q2 _ S2 E2) as (p3 & p4 & q4 & -> & F2 & S4 & E4).
    destruct (mforms _ (nforms forms) _ _ _ C ltac:(lia) p4 q4 _ S4 E4) as (p5 & p6 & q6 & -> & V & S6 & E6).
    exists (p1 ++ p3 ++ p5), p6, q6. split; [rewrite <- !app_assoc; reflexivity|]. split; [constructor; assumption|auto].
Qed.
Lemma mprevious obs forms f c m : gettext_previous forms f c m -> forall pl qs r, Forall2 mshows pl qs -> concat qs = with_mark (obs, true) f ++ r ->
  exists p1 p1' p2 q2, pl = p1 ++ p1' ++ p2 /\ opt_field (prev obs) (lit "msgctxt") p1 c /\ previous forms obs p1' m /\ Forall2 mshows p2 q2 /\ concat q2 = r.
Proof.
  intros [|a x b id A B|a x b id d p A B D] pl qs r S E; rewrite ?with_mark_app, <- ?app_assoc in E.
  - exists [], [], pl, qs. split; [reflexivity|]. split; [constructor|]. split; [constructor|auto].
  - destruct (mcontext _ _ _ A pl qs _ S E) as (p1 & p2 & q2 & -> & F1 & S2 & E2). destruct (mfield _ _ _ _ B p2 q2 _ S2 E2) as (p3 & p4 & q4 & -> & F2 & S4 & E4).
    exists p1, p3, p4, q4. split; [reflexivity|]. split; [exact F1|]. split; [constructor; exact F2|auto].
  - destruct (mcontext _ _ _ A pl qs _ S E) as (p1 & p2 & q2 & -> & F1 & S2 & E2). destruct (mfield _ _ _ _ B p2 q2 _ S2 E2) as (p3 & p4 & q4 & -> & F2 & S4 & E4).
    destruct (mfield _ _ _ _ D p4 q4 _ S4 E4) as (p5 & p6 & q6 & -> & F3 & S6 & E6).
    exists p1, (p3 ++ p5), p6, q6. split; [rewrite <- !app_assoc; reflexivity|]. split; [exact F1|]. split; [constructor; assumption|auto].
Qed.
Lemma mentry forms f u : marked_entry forms f u -> forall pl qs r, Forall2 mshows pl qs -> concat qs = f ++ r ->
  exists p1 p2 q2, pl = p1 ++ p2 /\ entry forms p1 u /\ Forall2 mshows p2 q2 /\ concat q2 = r.
Proof.
  intros [obs p pc pm a c b m st P A B St] pl qs r S E. rewrite with_mark_app, <- !app_assoc in E.
  destruct (mprevious obs _ _ _ _ P pl qs _ S E) as (x1 & x2 & y & q & -> & X1 & X2 & Sy & Ey).
  destruct (mcontext _ _ _ A y q _ Sy Ey) as (p1 & p2 & q2 & -> & F1 & S2 & E2). destruct (mbody obs _ _ _ B p2 q2 _ S2 E2) as (p3 & p4 & q4 & -> & F2 & S4 & E4).
  exists (x1 ++ x2 ++ p1 ++ p3), p4, q4. split; [rewrite <- !app_assoc; reflexivity|]. split; [|auto].
  apply (en_intro forms [] [] [] [] [] obs (x1 ++ x2 ++ p1 ++ p3) pc pm c m st); [constructor| |exact St].
  constructor; assumption.
Qed.
Lemma mentries forms es us : Forall2 (marked_entry forms) es us -> Forall has_source us -> forall pl qs, Forall2 mshows pl qs -> concat qs = concat es ->
  exists bls, pl = concat bls /\ Forall2 (unit_entry forms) bls us.
Proof.
  induction 1 as [|f u es us G F IH]; intros H pl qs S E; cbn [concat] in E.
  - destruct S as [|l q pl qs Sh S]; [exists []; split; [reflexivity|constructor]|]. destruct Sh; discriminate.
  - inversion H as [|? ? H1 H2]; subst. destruct (mentry _ _ _ G pl qs _ S E) as (p1 & p2 & q2 & -> & En & S2 & E2).
    destruct (IH H2 p2 q2 S2 E2) as (bls & -> & F'). exists (p1 :: bls). split; [reflexivity|]. constructor; [split; assumption|exact F'].
Qed.
Theorem marks_read lib pf hls v ps forms ls tss es us bs evs : heading_text pf hls v ps forms ->
  Forall2 marked_line ls tss -> Forall2 (marked_entry forms) es us -> flat_map line_marks tss = concat es -> Forall has_source us -> Forall usual_line tss ->
  contents bs None (hls ++ ls) None -> delivers evs bs None ->
  exists c, read_catalogue lib pf evs = Ok c /\ header_shown lib v ps c /\ c_items c = map UOk us.
Proof.
  intros (h & R & E & H & HF) T G Q Hs U Ct D. pose proof (contents_one_line _ _ _ _ Ct) as P. apply plain_app in P as [Ph Pu].
  destruct (all_shown ls tss T U Pu (1 + N.of_nat (length hls))) as (pl & qs & R' & S & Eq). rewrite Q in Eq.
  destruct (mentries forms es us G Hs pl qs S Eq) as (bls & -> & F').
  assert (file evs (hls ++ ls) None (h ++ concat bls) None) as Fi by (exists bs, None; split; [exact D|]; split; [exact Ct|]; apply rd_app; assumption).
  pose proof (entries_ends None forms h v _ us E (entries_only _ _ _ F')) as Ea.
  destruct (read_header lib pf evs _ _ _ _ h v ps (concat bls) forms us None Fi eq_refl (fe_entry _ _ _ _ E Ea) H HF) as (c & Rc & Hsh & Ei).
  { apply blocks_entries. split; [apply entries_only, F'|reflexivity]. }
  exists c. rewrite app_nil_r in Ei. auto.
Qed.

(** * Witnesses *)
Definition obs_unit (cs : list comment) : unit_ := Unit None (MSimple (lit "a") (Some (lit "b"))) None (MSimple [] None) [] [] [] cs StFinal true.
Lemma demo_obsolete : marked_entry None (with_mark (true, false) demo_tokens) (obs_unit []).
Proof.
  apply (me_intro None true [] None (MSimple [] None) [] None demo_tokens (MSimple (lit "a") (Some (lit "b"))) StFinal); [constructor|constructor| |].
  - apply (gb_simple None [GKeyword (lit "msgid"); GString (lit "a")] (lit "a") [GKeyword (lit "msgstr"); GString (lit "b")] (lit "b")).
    + apply (gf_intro (lit "msgid") (lit "a") [] (lit "a") []); [apply letter_means; discriminate|constructor].
    + apply (gf_intro (lit "msgstr") (lit "b") [] (lit "b") []); [apply letter_means; discriminate|constructor].
  - apply (so_final [] _ (lit "b")); [intros []|left; reflexivity|discriminate].
Qed.
Lemma field_line m kw c : gettext_keyword kw -> c <> 92 -> c <> 34 -> marked_line (mark_text m ++ 32 :: kw ++ [32; 34; c; 34]) (m, [GKeyword kw; GString [c]]).
Proof.
  intros K N1 N2. exists [], (32 :: kw ++ [32; 34; c; 34]). split; [reflexivity|]. split; [exact blank_nil|]. cbn [snd].
  apply (lt_keyword [32] kw [32; 34; c; 34] [GString [c]] blank_32 K); [intros x r [= <- _]; left; exact blank_32|]. apply string_tokens; [exact N1|exact N2|exact nothing_tokens].
Qed.
Lemma lone_marker m : marked_line (mark_text m) (m, []).
Proof. exists [], []. split; [cbn [fst]; rewrite app_nil_r; reflexivity|]. split; [exact blank_nil|exact nothing_tokens]. Qed.
Definition marker_gap_lines : list string := ["#~ msgid ""a"""; "#~"; "#~ msgstr ""b"""]%string.
Definition lone_lines : list string := ["#~"; "#~ msgid ""a"""; "#~ msgstr ""b"""]%string.
Theorem marker_gap : exists ls tss es u, Forall2 marked_line (map lit ls) tss /\ Forall2 (marked_entry None) es [u] /\ flat_map line_marks tss = concat es /\ has_source u
  /\ forall lib pf, read_catalogue lib pf (lf_stream ls) = Err (EParse 2 (lit "#~") (lit "msgstr")).
Proof.
  exists marker_gap_lines, [((true, false), [GKeyword (lit "msgid"); GString (lit "a")]); ((true, false), []); ((true, false), [GKeyword (lit "msgstr"); GString (lit "b")])], [with_mark (true, false) demo_tokens], (obs_unit []).
  split; [|split; [constructor; [exact demo_obsolete|constructor]|split; [reflexivity|split; [intros t H; discriminate|intros lib pf; vm_compute; reflexivity]]]].
  constructor; [apply (field_line (true, false) (lit "msgid") 97); [constructor|discriminate|discriminate]|].
  constructor; [apply (lone_marker (true, false))|]. constructor; [apply (field_line (true, false) (lit "msgstr") 98); [constructor|discriminate|discriminate]|constructor].
Qed.
Theorem marker_lone : exists ls tss es u, Forall2 marked_line (map lit ls) tss /\ Forall2 (marked_entry None) es [u] /\ flat_map line_marks tss = concat es /\ has_source u
  /\ forall lib pf, exists c v, read_catalogue lib pf (lf_stream ls) = Ok c /\ c_items c = [UOk v] /\ u_comments v = [Comment 126 []] /\ u_comments u = [].
Proof.
  exists lone_lines, [((true, false), []); ((true, false), [GKeyword (lit "msgid"); GString (lit "a")]); ((true, false), [GKeyword (lit "msgstr"); GString (lit "b")])], [with_mark (true, false) demo_tokens], (obs_unit []).
  split; [|split; [constructor; [exact demo_obsolete|constructor]|split; [reflexivity|split; [intros t H; discriminate|intros lib pf; eexists; exists (obs_unit [Comment 126 []]); split; [vm_compute; reflexivity|split; [vm_compute; reflexivity|split; reflexivity]]]]]].
  constructor; [apply (lone_marker (true, false))|]. constructor; [apply (field_line (true, false) (lit "msgid") 97); [constructor|discriminate|discriminate]|].
  constructor; [apply (field_line (true, false) (lit "msgstr") 98); [constructor|discriminate|discriminate]|constructor].
Qed.
Definition odd_lines : list string := ["#~ id ""a"""; "#~ str ""b"""]%string.
Lemma odd_line k r : k <> 109 -> k <> 34 -> ~ white k -> forall l, ~ marked_line (lit "#~ " ++ k :: r) l.
Proof.
  intros N1 N2 W [m ts] (w & q & E & B & T). cbn [fst snd] in *.
  assert (w = []) as ->.
  { destruct w as [|c w]; [reflexivity|]. exfalso. injection E as <- _. specialize (B 35 (or_introl eq_refl)). cbn in B. intuition discriminate. }
  cbn [app] in E.
  assert (F : forall s : str, line_tokens s ts -> forall x z y : str, s = x ++ z ++ y -> blanks x -> match z with [d] => ~ white d /\ d <> 109 /\ d <> 34 | _ => False end -> False).
  { intros s Ts x z y Es Bx Z. destruct z as [|d [|]]; try contradiction. destruct Z as (Wd & D1 & D2). destruct ts as [|t ts].
    - inversion Ts as [w' Bw| |]; subst. apply Wd. apply (gettext_blank_blanks _ Bw). apply in_or_app. right. left. reflexivity.
    - destruct (tokens_first s (t :: ts) Ts) as (w' & c & r' & Es' & Bw & Hc); [discriminate|].
      assert (c = d); [|subst; destruct Hc; contradiction].
      apply (first_nonblank w' c r' x d y Bw Bx); [destruct Hc as [-> | ->]; apply not_white; reflexivity|exact Wd|]. exact (eq_trans (eq_sym Es') Es). }
  destruct m as [[|] [|]]; cbn [mark_text app] in E.
  - discriminate.
  - injection E as E. apply (F q T [32] [k] r); [symmetry; exact E| |auto]. intros c [<-|[]]; vm_compute; tauto.
  - discriminate.
  - apply (F q T [] [35] (126 :: 32 :: k :: r)); [symmetry; exact E|intros c []|]. split; [apply not_white; reflexivity|]. split; discriminate.
Qed.
Theorem marker_word : exists ls, (forall s, In s ls -> forall l, ~ marked_line (lit s) l) /\ ls <> []
  /\ forall lib pf, exists c, read_catalogue lib pf (lf_stream ls) = Ok c /\ c_items c = [].
Proof.
  exists odd_lines. split; [|split; [discriminate|intros lib pf; eexists; split; vm_compute; reflexivity]].
  intros s [<-|[<-|[]]].
  - apply (odd_line 105 (lit "d ""a""")); [discriminate|discriminate|apply not_white; reflexivity].
  - apply (odd_line 115 (lit "tr ""b""")); [discriminate|discriminate|apply not_white; reflexivity].
Qed.
Definition alone_lines : list string := ["#| msgctxt ""c"""; " msgid ""a"""; " msgstr ""b"""]%string.
Definition alone_tokens : list (mark * list gtok) :=
  [((false, true), [GKeyword (lit "msgctxt"); GString (lit "c")]); (no_mark, [GKeyword (lit "msgid"); GString (lit "a")]); (no_mark, [GKeyword (lit "msgstr"); GString (lit "b")])].
Lemma previous_has_id forms p c m : gettext_previous forms p c m -> p = [] \/ In (GKeyword (lit "msgid")) p.
Proof.
  intros [|a x b id A B|a x b id d q A B D]; [left; reflexivity|right; destruct B; apply in_or_app; right; left; reflexivity|right].
  destruct B. apply in_or_app. right. left. reflexivity.
Qed.
Lemma body_nonempty forms b m : gettext_body forms b m -> b <> [].
Proof. intros [a id b' text A B|a id b' q d vs A B D NE L]; destruct A; discriminate. Qed.
Theorem marker_context : exists ls tss, Forall2 marked_line (map lit ls) tss /\ (forall forms es us, Forall2 (marked_entry forms) es us -> flat_map line_marks tss <> concat es)
  /\ forall lib pf, exists c v, read_catalogue lib pf (lf_stream ls) = Ok c /\ c_items c = [UOk v] /\ u_prev_context v = Some (lit "c").
Proof.
  exists alone_lines, alone_tokens. split; [|split].
  - constructor; [apply (field_line (false, true) (lit "msgctxt") 99); [constructor|discriminate|discriminate]|].
    constructor; [apply (field_line no_mark (lit "msgid") 97); [constructor|discriminate|discriminate]|].
    constructor; [apply (field_line no_mark (lit "msgstr") 98); [constructor|discriminate|discriminate]|constructor].
  - intros forms es us F E. destruct F as [|e u es us M F]; [discriminate|]. destruct M as [obs p pc pm a c b m st P A B St].
    destruct (previous_has_id _ _ _ _ P) as [-> | I].
    + cbn [with_mark map app concat] in E. apply body_nonempty in B. destruct (a ++ b) as [|t r] eqn:Eb; [apply app_eq_nil in Eb as [_ ->]; congruence|]. discriminate.
    + assert (In ((obs, true), GKeyword (lit "msgid")) (flat_map line_marks alone_tokens)) as J.
      { rewrite E. cbn [concat]. apply in_or_app. left. apply in_or_app. left. unfold with_mark. apply in_map_iff. exists (GKeyword (lit "msgid")). auto. }
      vm_compute in J. intuition discriminate.
  - intros lib pf. eexists. eexists. split; [vm_compute; reflexivity|]. split; [vm_compute; reflexivity|reflexivity].
Qed.
