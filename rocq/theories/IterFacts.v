(** Facts about the line iterator: enough fuel, exact responses, the lines of a stream. *)
From Coq Require Import String Arith NArith ZArith Bool List Lia.
From Verif Require Import ModelBase ModelUtf8 ModelLine ModelData ModelSource SpecLine SpecSource BaseFacts LineFacts LineThms SourceFacts.
Import ListNotations.

(** * The lines seen by the reader *)
(** The lines are numbered from [n]; blank lines are skipped; a line that cannot be parsed
    ends the list with an error (carrying the next line number), as does a failure. *)
Fixpoint items (n : N) (ls : list str) (e : option ioerr) : lines :=
  match ls with
  | [] => match e with None => [] | Some e => [Some (IFail (EIo n e))] end
  | l :: ls' =>
      match parse_line l n with
      | Some PBlank => items (n + 1)%N ls' e
      | Some p => Some (ILine p) :: items (n + 1)%N ls' e
      | None => [Some (IFail (EParse (n + 1)%N l []))]
      end
  end.

(** Two lists of responses that no reader can tell apart: equal up to final [None]s. *)
Definition same_responses (a b : lines) : Prop := forall k, nth k a None = nth k b None.

(** * Sizes *)
Lemma split_lf_length b l r : split_lf b = Some (l, r) -> length b = length l + length r /\ 0 < length l.
Proof.
  intros H. apply split_lf_some in H as (l' & -> & _ & ->). unfold byte in *. rewrite !app_length. cbn [length]. lia.
Qed.
Lemma read_until_events_size evs : forall acc r s', read_until_events acc evs = (r, s') ->
  match r with
  | inl bs => length bs + source_size s' <= length acc + events_size evs
              /\ (evs <> [] -> bs = [] -> source_size s' < events_size evs)
              /\ length acc <= length bs
  | inr _ => source_size s' < events_size evs
  end.
Proof.
  induction evs as [|ev evs IH]; intros acc r s' H; cbn [read_until_events] in H.
  - injection H as <- <-. cbn. split; [lia|]. split; [congruence|lia].
  - destruct ev as [d| |code].
    + destruct d as [|x d].
      * injection H as <- <-. cbn [events_size length]. unfold source_size; cbn [s_buf s_events length]. repeat split; intros; lia.
      * destruct (split_lf (x :: d)) as [[l t]|] eqn:F.
        -- injection H as <- <-. destruct (split_lf_length _ _ _ F) as [E1 E2].
           cbn [events_size]. unfold source_size; cbn [s_buf s_events]. unfold byte in *. rewrite app_length. cbn [length] in *.
           split; [lia|]. split; [|lia]. intros _ E. apply app_eq_nil in E as [_ ->]. cbn in E2. lia.
        -- apply IH in H. destruct r as [bs|code].
           ++ destruct H as (H1 & H2 & H3). unfold byte in *. rewrite app_length in H1, H3. cbn [events_size length] in *. unfold byte in *.
           split; [lia|].
              split; [|lia]. intros _ ->. cbn in H3. lia.
           ++ cbn [events_size length]. lia.
    + apply IH in H. destruct r as [bs|code]; cbn [events_size].
      * destruct H as (H1 & H2 & H3). split; [lia|]. split; [|lia]. intros _ ->. cbn in H1, H3.
        destruct evs; [cbn in *; lia|]. specialize (H2 ltac:(discriminate) eq_refl). lia.
      * lia.
    + injection H as <- <-. cbn [events_size]. unfold source_size; cbn. lia.
Qed.
Lemma read_until_size s o s1 : read_until s = (o, s1) ->
  match o with
  | inl bs => length bs + source_size s1 <= source_size s
              /\ (bs = [] -> s_buf s = [] /\ (s_events s <> [] -> source_size s1 < source_size s))
  | inr _ => source_size s1 < source_size s
  end.
Proof.
  destruct s as [buf evs]. unfold read_until. cbn [s_buf s_events].
  destruct (split_lf buf) as [[l t]|] eqn:F.
  - intros [= <- <-]. destruct (split_lf_length _ _ _ F). unfold source_size in *; cbn [s_buf s_events] in *. unfold byte in *.
    split; [lia|]. intros ->. cbn in *. lia.
  - intros H. apply read_until_events_size in H.
    destruct s1 as [b1 e1]. unfold source_size in *; cbn [s_buf s_events] in *; unfold byte in *.
    destruct o as [bs|code]; [|lia].
    destruct H as (H1 & H2 & H3). split; [lia|]. intros ->. cbn in H3.
    assert (buf = []) as -> by (destruct buf; [reflexivity|cbn in H3; lia]). cbn [length] in *.
    split; [reflexivity|]. intros He. specialize (H2 He eq_refl). lia.
Qed.
Lemma lines_next_size s r s' : lines_next s = (r, s') ->
  match r with
  | None => source_size s' <= source_size s /\ (s_buf s <> [] \/ s_events s <> [] -> source_size s' < source_size s)
  | Some _ => source_size s' < source_size s
  end.
Proof.
  unfold lines_next. destruct (read_until s) as [o s1] eqn:R. apply read_until_size in R.
  destruct o as [[|b bs]|code].
  - destruct R as [R1 R2]. destruct (R2 eq_refl) as [Hb He]. intros [= <- <-]. cbn in R1.
    split; [lia|]. intros [H|H]; [contradiction|auto].
  - destruct R as [R1 _]. cbn [length] in R1. destruct (utf8_decode (b :: bs)); intros [= <- <-]; lia.
  - intros [= <- <-]. exact R.
Qed.

(** * The iterator needs no more fuel than given *)
Lemma li_loop_fuel n fuel : forall fuel' inner, (match inner with Some s => source_size s | None => 0 end) < fuel ->
  (match inner with Some s => source_size s | None => 0 end) < fuel' -> li_loop fuel n inner = li_loop fuel' n inner.
Proof.
  revert n. induction fuel as [|fuel IH]; intros n [|fuel'] inner H1 H2; try lia.
  cbn [li_loop]. destruct inner as [s|]; [|reflexivity].
  destruct (lines_next s) as [r s'] eqn:L. apply lines_next_size in L. destruct r as [[line|e]|]; try reflexivity.
  destruct (parse_line line n) as [[| | |]|]; try reflexivity. apply IH; lia.
Qed.
(** Every amount of fuel above the size gives the result of [li_next]. *)
Theorem li_next_fuel_enough it fuel : li_size it < fuel -> li_loop fuel (li_n it) (li_inner it) = li_next it.
Proof.
  intros H. unfold li_next. apply li_loop_fuel; unfold li_size in *; destruct (li_inner it); lia.
Qed.
(** The loop of line_iter.rs, without fuel: one step. *)
Lemma li_next_step it : li_next it =
  match li_inner it with
  | None => (None, LineIter (li_n it) None)
  | Some src =>
      match lines_next src with
      | (Some (inr e), _) => (Some (IFail (EIo (li_n it) e)), LineIter (li_n it) None)
      | (None, src') => (None, LineIter (li_n it) (Some src'))
      | (Some (inl line), src') =>
          match parse_line line (li_n it) with
          | Some PBlank => li_next (LineIter (li_n it + 1) (Some src'))
          | Some p => (Some (ILine p), LineIter (li_n it + 1) (Some src'))
          | None => (Some (IFail (EParse (li_n it + 1) line [])), LineIter (li_n it + 1) None)
          end
      end
  end.
Proof.
  unfold li_next at 1. cbn [li_loop]. destruct (li_inner it) as [src|] eqn:I; [|reflexivity].
  destruct (lines_next src) as [r s'] eqn:L. apply lines_next_size in L. destruct r as [[line|e]|]; try reflexivity.
  destruct (parse_line line (li_n it)) as [[| | |]|]; try reflexivity.
  apply (li_next_fuel_enough (LineIter (li_n it + 1) (Some s'))). unfold li_size; rewrite I; cbn [li_inner]. lia.
Qed.

(** * The responses *)
Lemma li_loop_size fuel : forall n inner r it', li_loop fuel n inner = (r, it') ->
  (match inner with Some s => source_size s | None => 0 end) < fuel ->
  li_size it' <= match inner with Some s => source_size s | None => 0 end
  /\ match inner with
     | None => r = None /\ it' = LineIter n None
     | Some s => (s_buf s <> [] \/ s_events s <> []) -> li_size it' < source_size s
     end.
Proof.
  induction fuel as [|fuel IH]; intros n inner r it' H Hf; [lia|].
  cbn [li_loop] in H. destruct inner as [s|]; [|injection H as <- <-; unfold li_size; cbn; auto].
  destruct (lines_next s) as [x s'] eqn:L. apply lines_next_size in L. destruct x as [[line|e]|].
  - destruct (parse_line line n) as [[| | |]|].
    2-5: injection H as <- <-; unfold li_size; cbn [li_inner]; lia.
    apply IH in H; [|lia]. lia.
  - injection H as <- <-; unfold li_size; cbn [li_inner]; lia.
  - injection H as <- <-; unfold li_size; cbn [li_inner]. destruct L as [L1 L2]. split; [exact L1|exact L2].
Qed.
Lemma li_next_size it r it' : li_next it = (r, it') -> li_done it = false -> li_size it' < li_size it.
Proof.
  intros H D. unfold li_next in H. apply li_loop_size in H; [|unfold li_size; destruct (li_inner it); lia].
  unfold li_done in D. unfold li_size at 2. destruct (li_inner it) as [s|]; [|discriminate].
  destruct H as [_ H]. apply H. apply andb_false_iff in D as [D|D]; [left|right]; intros E; rewrite E in D; discriminate.
Qed.
Lemma li_next_done it : li_done it = true -> exists it', li_next it = (None, it') /\ li_done it' = true.
Proof.
  intros D. rewrite li_next_step. unfold li_done in D. destruct (li_inner it) as [[buf evs]|].
  - cbn [s_buf s_events] in D. apply andb_true_iff in D as [D1 D2]. apply is_empty_nil in D1, D2. subst.
    cbn. eexists; split; reflexivity.
  - eexists; split; reflexivity.
Qed.

Lemma poll_done k : forall it, li_done it = true -> poll k it = None.
Proof.
  induction k as [|k IH]; intros it D; destruct (li_next_done it D) as (it' & E & D'); cbn [poll]; rewrite E; auto.
Qed.
Lemma responses_fuel_exact fuel : forall it k, li_size it < fuel -> nth k (responses_fuel fuel it) None = poll k it.
Proof.
  induction fuel as [|fuel IH]; intros it k Hf; [lia|]. cbn [responses_fuel].
  destruct (li_done it) eqn:D.
  - rewrite poll_done by exact D. destruct k; reflexivity.
  - destruct (li_next it) as [r it'] eqn:E. pose proof (li_next_size _ _ _ E D).
    destruct k; cbn [nth poll]; rewrite E; [reflexivity|]. apply IH. cbn. lia.
Qed.
(** [responses] predicts every call of [LineIter::next], for every source. *)
Theorem responses_exact it k : nth k (responses it) None = poll k it.
Proof. apply responses_fuel_exact. lia. Qed.

(** * The responses for a stream with given contents *)
Definition represents (it : line_iter) (rs : lines) : Prop :=
  match li_inner it with
  | None => rs = []
  | Some s => exists bs f ls e, contents bs f ls e /\ holds s bs f /\ rs = items (li_n it) ls e
  end.
Lemma li_next_represents it rs : represents it rs ->
  match rs with
  | x :: rs' => exists it', li_next it = (x, it') /\ represents it' rs'
  | [] => exists it', li_next it = (None, it') /\ represents it' []
  end.
Proof.
  unfold represents. destruct (li_inner it) as [s|] eqn:I.
  - intros (bs & f & ls & e & C & Hs & ->).
    revert it s I bs C Hs. induction ls as [|l ls IH]; intros it s I bs C Hs;
      pose proof (lines_next_spec s bs f _ _ C Hs) as R; rewrite li_next_step, I; cbn [items].
    + destruct e as [e|].
      * destruct R as (s' & ->). eexists; split; [reflexivity|reflexivity].
      * destruct R as (s' & R & Hs'). rewrite R. eexists; split; [reflexivity|]. cbn [li_inner]. exists [], None, [], None.
        split; [constructor|]. split; [exact Hs'|reflexivity].
    + destruct R as (s' & bs' & -> & C' & Hs').
      destruct (parse_line l (li_n it)) as [[| | |]|].
      * apply (IH (LineIter (li_n it + 1) (Some s')) s' eq_refl bs' C' Hs').
      * eexists; split; [reflexivity|]. cbn [li_inner li_n]. exists bs', f, ls, e. auto.
      * eexists; split; [reflexivity|]. cbn [li_inner li_n]. exists bs', f, ls, e. auto.
      * eexists; split; [reflexivity|]. cbn [li_inner li_n]. exists bs', f, ls, e. auto.
      * eexists; split; [reflexivity|]. reflexivity.
  - intros ->. rewrite li_next_step, I. eexists; split; reflexivity.
Qed.
Lemma poll_represents k : forall it rs, represents it rs -> poll k it = nth k rs None.
Proof.
  induction k as [|k IH]; intros it rs R; apply li_next_represents in R; destruct rs as [|x rs];
    destruct R as (it' & E & R'); cbn [poll nth]; rewrite E; try reflexivity; cbn [snd].
  - rewrite (IH _ _ R'). destruct k; reflexivity.
  - exact (IH _ _ R').
Qed.
Theorem responses_contents evs bs f ls e : delivers evs bs f -> contents bs f ls e ->
  same_responses (responses (li_new evs)) (items 1 ls e).
Proof.
  intros D C k. rewrite responses_exact. apply poll_represents. unfold represents, li_new. cbn [li_inner li_n].
  exists bs, f, ls, e. split; [exact C|]. split; [exists bs; auto|reflexivity].
Qed.
