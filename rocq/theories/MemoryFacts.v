(** What the reader keeps between two calls. *)
From Coq Require Import String Arith NArith ZArith Bool List Lia.
From Verif Require Import ModelBase ModelUtf8 ModelRegex ModelLine ModelFormula ModelData ModelSource ModelReader ModelLazy
  SpecLine SpecFormula SpecSource SpecReader SpecBlock SpecHeader SpecFile SpecSize SpecLazy SpecMemory BaseFacts LineFacts LineThms DecFacts SourceFacts IterFacts ReaderFacts ReadsFacts CatalogueFacts
  FileFacts CallFacts PieceFacts LazyFacts LazyThms SizeFacts EndlessFacts.
Import ListNotations.
Local Open Scope nat_scope.

(** * The buffer *)
Section Buffer.
  Variable evs0 : list rd_event.
  Definition end_of_chunk (s : source) : Prop :=
    (s_buf s = [] /\ exists used, evs0 = used ++ s_events s) \/ (exists used a, evs0 = used ++ RdData (a ++ s_buf s) :: s_events s).
  Lemma chunk_events s : end_of_chunk s -> exists used, evs0 = used ++ s_events s.
  Proof. intros [[_ H]|(used & a & H)]; [exact H|]. exists (used ++ [RdData (a ++ s_buf s)]). rewrite <- app_assoc. exact H. Qed.
  Lemma split_lf_app b : forall l r, split_lf b = Some (l, r) -> b = l ++ r.
  Proof.
    induction b as [|x b IH]; intros l r H; cbn [split_lf] in H; [discriminate|]. destruct (x =? 10)%N; [injection H as <- <-; reflexivity|].
    destruct (split_lf b) as [[l' r']|]; [|discriminate]. injection H as <- <-. cbn. f_equal. apply IH. reflexivity.
  Qed.
  Lemma events_chunk evs : forall acc used, evs0 = used ++ evs -> end_of_chunk (snd (read_until_events acc evs)).
  Proof.
    induction evs as [|[d| |c] evs IH]; intros acc used E; cbn [read_until_events].
    - left. split; [reflexivity|]. exists used. exact E.
    - destruct d as [|b d]; [left; split; [reflexivity|]; exists (used ++ [RdData []]); rewrite <- app_assoc; exact E|].
      destruct (split_lf (b :: d)) as [[l r]|] eqn:S.
      + right. exists used, l. cbn [snd s_buf s_events]. rewrite <- (split_lf_app _ _ _ S). exact E.
      + apply (IH _ (used ++ [RdData (b :: d)])). rewrite <- app_assoc. exact E.
    - apply (IH _ (used ++ [RdInterrupted])). rewrite <- app_assoc. exact E.
    - left. split; [reflexivity|]. exists (used ++ [RdError c]). rewrite <- app_assoc. exact E.
  Qed.
  Lemma lines_next_chunk s : end_of_chunk s -> end_of_chunk (snd (lines_next s)).
  Proof.
    intros H. assert (end_of_chunk (snd (read_until s))) as K.
    { unfold read_until. destruct (split_lf (s_buf s)) as [[l r]|] eqn:S.
      - cbn [snd]. destruct H as [[B _]|(used & a & E)]; [rewrite B in S; discriminate S|]. apply split_lf_app in S.
        right. exists used, (a ++ l). cbn [s_buf s_events]. rewrite <- app_assoc, <- S. exact E.
      - destruct (chunk_events s H) as (used & E). exact (events_chunk _ _ used E). }
    unfold lines_next. destruct (read_until s) as [[[|b bs]|c] s']; cbn [snd] in *; try exact K. destruct (utf8_decode (b :: bs)); exact K.
  Qed.
  Definition it_chunk (it : line_iter) : Prop := match li_inner it with Some s => end_of_chunk s | None => True end.
  Lemma li_next_chunk it : it_chunk it -> it_chunk (snd (li_next it)).
  Proof.
    unfold li_next. generalize (S (li_size it)). intros fuel. destruct it as [n inner]. cbn [li_n li_inner]. revert n inner.
    induction fuel as [|fuel IH]; intros n [src|] H; cbn [li_loop]; try exact H; unfold it_chunk in *; cbn [li_inner] in *.
    pose proof (lines_next_chunk src H) as K. destruct (lines_next src) as [[[line|x]|] s']; cbn [snd li_inner] in *; [|exact Logic.I|exact K].
    destruct (parse_line line n) as [[| | |]|]; cbn [snd li_inner]; try exact K; [|exact Logic.I]. exact (IH (n + 1)%N (Some s') K).
  Qed.
  Lemma after_chunk k : forall it, it_chunk it -> it_chunk (after k it).
  Proof. induction k as [|k IH]; intros it H; [exact H|]. apply IH, li_next_chunk, H. Qed.
End Buffer.
Lemma new_chunk evs : it_chunk evs (li_new evs).
Proof. left. split; [reflexivity|]. exists []. reflexivity. Qed.

(** * The next item *)
Lemma pending_unit r l : pending r l -> rd_next_unit r = hd_error l.
Proof. unfold pending. destruct (rd_next_unit r) as [[u|e]|]; [intros (l' & _ & ->)|intros ->..]; reflexivity. Qed.
Lemma calls_pending_rest k : forall r l, pending r l -> pending (snd (calls k r)) (skipn k l).
Proof.
  induction k as [|k IH]; intros r l P; [exact P|]. cbn [calls]. pose proof (po_next_pending r l P) as H. destruct l as [|x l].
  - rewrite H. specialize (IH r [] P). destruct (calls k r) as [xs r'']. cbn [snd] in *. rewrite skipn_nil in IH. exact IH.
  - destruct H as (r' & -> & P' & _). specialize (IH r' l P'). destruct (calls k r') as [xs r'']. exact IH.
Qed.
Lemma hd_error_skipn {A} k : forall l : list A, hd_error (skipn k l) = nth_error l k.
Proof. induction k as [|k IH]; intros [|x l]; try reflexivity. apply IH. Qed.

(** The state after [k] calls, for any stream. *)
Theorem state_held lib pf evs l k c : lz_parse lib pf evs = Ok l -> read_catalogue lib pf evs = Ok c ->
  let r := snd (lz_calls k l) in
  lr_next_unit r = nth_error (c_items c) k
  /\ (forall x, pk_peeked (lr_lines r) = Some (Some x) -> exists j, poll j (li_new evs) = Some x /\ pk_iter (lr_lines r) = after (S j) (li_new evs))
  /\ (forall s, li_inner (pk_iter (lr_lines r)) = Some s -> s_buf s = [] \/ exists used a, evs = used ++ RdData (a ++ s_buf s) :: s_events s)
  /\ lr_header_notes r = c_notes c /\ lr_header_comments r = c_comments c /\ lr_header_properties r = c_properties c
  /\ lr_target_language r = c_language c /\ lr_plural_forms r = lr_plural_forms l.
Proof.
  intros Pl R. pose proof (parse_agree lib pf evs) as PA. rewrite Pl in PA. unfold read_catalogue in R.
  pose proof (reader_new_cases lib pf (responses (li_new evs))) as RC. unfold po_parse in *.
  destruct (reader_new lib pf (responses (li_new evs))) as [r0|e|]; [|inversion PA|inversion PA].
  inversion PA as [l' r' S E1 E2| |]. subst l' r'. clear PA. destruct RC as (items & P & Hl & _).
  rewrite (po_collect_pending _ r0 items P) in R by (pose proof (some_count_length (responses (li_new evs))); lia). injection R as <-. cbn [c_items c_notes c_comments c_properties c_language].
  pose proof (calls_agree _ _ (fun j => responses_exact (li_new evs) j) k l r0 S) as [_ Sk]. cbv zeta.
  pose proof (calls_pending_rest k r0 items P) as Pk. pose proof (header_stays k r0) as (H1 & H2 & H3 & H4).
  split; [rewrite (rsim_unit _ _ _ _ Sk), (pending_unit _ _ Pk); apply hd_error_skipn|].
  assert (it_chunk evs (pk_iter (lr_lines (snd (lz_calls k l))))) as Ck.
  { destruct (rsim_sim _ _ _ _ Sk) as (j & _ & A). unfold at_line in A. destruct (pk_peeked _) as [x|]; [destruct A as [_ ->]|rewrite A]; apply after_chunk, new_chunk. }
  split; [|split].
  - intros x Px. destruct (rsim_sim _ _ _ _ Sk) as (j & _ & A). unfold at_line in A. rewrite Px in A. destruct A as [A ->]. exists j. split; [|reflexivity].
    rewrite <- responses_exact. symmetry. exact A.
  - intros s Es. unfold it_chunk in Ck. rewrite Es in Ck. destruct Ck as [[B _]|B]; [left; exact B|right; exact B].
  - destruct Sk as [V _]. rewrite V in H1, H2, H3, H4. cbn in H1, H2, H3, H4. repeat (split; [assumption|]).
    assert (forall j q, rd_plural_forms (snd (calls j q)) = rd_plural_forms q) as F.
    { clear. induction j as [|j IH]; intros q; [reflexivity|]. cbn [calls].
      destruct (pending_total q) as (m & Pm & _). apply po_next_pending in Pm. destruct m as [|x m].
      - rewrite Pm. specialize (IH q). destruct (calls j q) as [xs q'']. exact IH.
      - destruct Pm as (q' & -> & _ & E). specialize (IH q'). destruct (calls j q') as [xs q'']. cbn [snd] in *. congruence. }
    specialize (F k r0). rewrite V in F. cbn in F. rewrite F. symmetry. destruct S as [V0 _]. rewrite V0. reflexivity.
Qed.

(** * Sizes *)
Lemma line_of_held s n l : line_of s n l -> held_line (ILine l) <= length s.
Proof.
  destruct 1 as [|flags kw q text Q U|flags q text Q U|kind content C _]; cbn [held_line]; [lia|..].
  - destruct Q as (m & w1 & w2 & w3 & w4 & -> & M & K & _). apply unescapes_length in U. apply marker_length in M.
    assert (length (reported_tag flags kw) <= 1 + length kw) by (unfold reported_tag; destruct (_ || _); cbn [length]; lia).
    change (opt_str (Some kw)) with kw. rewrite !app_length. cbn [length]. unfold str, char in *. lia.
  - destruct Q as (m & w1 & w2 & w3 & w4 & -> & M & K & _). apply unescapes_length in U. apply marker_length in M. rewrite !app_length. cbn [length]. lia.
  - destruct C as (w1 & _ & [(-> & _ & ->)|(w2 & _ & _ & ->)]); rewrite ?app_length; cbn [length app]; rewrite ?app_length; lia.
Qed.
Lemma parsed_held n ls e pl tl L : parsed n ls e pl tl -> (forall s, In s ls -> length s <= L) ->
  (forall l, In l pl -> held_line (ILine l) <= L) /\ (forall x, tl = Some x -> held_line (IFail x) <= L).
Proof.
  induction 1 as [n|n e|n s ls e O NL|n s ls e pl tl O B P IH|n s l ls e pl tl O Lo NB P IH]; intros HL.
  - split; [intros l []|discriminate].
  - split; [intros l []|intros x [= <-]; cbn; lia].
  - split; [intros l []|intros x [= <-]; cbn [held_line error_size]; apply HL; left; reflexivity].
  - apply IH. intros t I. apply HL. right; exact I.
  - destruct IH as [IH1 IH2]; [intros t I; apply HL; right; exact I|]. split; [|exact IH2].
    intros l' [<-|I]; [|exact (IH1 l' I)]. apply line_of_held in Lo. specialize (HL s (or_introl eq_refl)). unfold str, char in *. lia.
Qed.
Theorem memory_bounded lib pf evs ls e pl tl l c U L B k : file evs ls e pl tl -> lz_parse lib pf evs = Ok l -> read_catalogue lib pf evs = Ok c ->
  (forall x, In x (c_items c) -> uitem_size x <= U) -> (forall s, In s ls -> length s <= L) -> (forall d, In (RdData d) evs -> length d <= B) ->
  held_size (snd (lz_calls k l)) <= U + L + B.
Proof.
  intros Fi Pl R HU HL HB. destruct (state_held lib pf evs l k c Pl R) as (H1 & H2 & H3 & _). unfold held_size. set (r := snd (lz_calls k l)) in *.
  assert (match lr_next_unit r with Some x => uitem_size x | None => 0 end <= U) as K1.
  { rewrite H1. destruct (nth_error (c_items c) k) as [x|] eqn:E; [|lia]. apply HU. eapply nth_error_In, E. }
  assert (match pk_peeked (lr_lines r) with Some (Some x) => held_line x | _ => 0 end <= L) as K2.
  { destruct (pk_peeked (lr_lines r)) as [[x|]|] eqn:E; [|lia|lia]. destruct (H2 x eq_refl) as (j & Pj & _). pose proof Fi as (bs & f & D & C & P).
    destruct (parsed_held _ _ _ _ _ L P HL) as [PL PT]. destruct (line_calls evs ls e pl tl j Fi) as (J1 & J2 & J3).
    destruct (Nat.lt_trichotomy j (length pl)) as [J|[J|J]].
    - destruct (nth_error pl j) as [l0|] eqn:N; [|apply nth_error_None in N; lia]. rewrite (J1 l0 eq_refl) in Pj. injection Pj as <-. apply PL. eapply nth_error_In, N.
    - rewrite (J2 J) in Pj. destruct tl as [t|]; [|discriminate]. injection Pj as <-. apply PT. reflexivity.
    - rewrite (J3 J) in Pj. discriminate. }
  assert (match li_inner (pk_iter (lr_lines r)) with Some s => length (s_buf s) | None => 0 end <= B) as K3.
  { destruct (li_inner (pk_iter (lr_lines r))) as [s|] eqn:E; [|lia]. destruct (H3 s eq_refl) as [->|(used & a & Ev)]; [cbn; lia|].
    specialize (HB (a ++ s_buf s)). rewrite app_length in HB. assert (In (RdData (a ++ s_buf s)) evs) as I by (rewrite Ev; apply in_or_app; right; left; reflexivity). specialize (HB I). lia. }
  lia.
Qed.
