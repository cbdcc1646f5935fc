(** The errors of any stream, also of one that goes on after a report of its end. *)
From Coq Require Import String Arith NArith ZArith Bool List Lia.
From Verif Require Import ModelBase ModelUtf8 ModelLine ModelFormula ModelData ModelSource ModelReader
  SpecLine SpecFormula SpecSource SpecReader SpecBlock SpecHeader SpecFile SpecError SpecAny BaseFacts LineFacts ReaderFacts ReadsFacts
  BlockFacts FirstFacts FileFacts HeaderFacts BlockThms ErrorFacts ErrorTextFacts PieceFacts AnyFacts.
Import ListNotations.
Local Open Scope N_scope.

Lemma in_kept l rs : In (Some (ILine l)) rs -> In l (kept rs).
Proof. intros I. apply in_flat_map. exists (Some (ILine l)). split; [exact I|left; reflexivity]. Qed.
Lemma stream_error_app a b x : stream_error b x -> stream_error (a ++ b) x.
Proof.
  intros []; [apply ste_failure, in_or_app; auto|apply ste_line; [rewrite kept_app; apply in_or_app; auto|assumption]|].
  eapply ste_source. rewrite kept_app. apply in_or_app. eauto.
Qed.
Lemma stream_error_suffix a b x : suffix b a -> stream_error b x -> stream_error a x.
Proof. intros (p & ->). apply stream_error_app. Qed.

(** All errors of a result are about these lines. *)
Definition blames {A} (m : res A) (ls : lines) : Prop := forall e l, m = (Err e, l) -> stream_error ls e.
Lemma bind_blames {A B} (m : res A) (f : A -> lines -> res B) ls :
  blames m ls -> suffix (snd m) ls -> (forall a l, m = (Ok a, l) -> blames (f a l) l) -> blames (bind m f) ls.
Proof.
  intros H S Hf e l' E. apply bind_err in E as [E|(a & l & E & E')]; [exact (H e l' E)|].
  rewrite E in S. exact (stream_error_suffix _ _ _ S (Hf a l E e l' E')).
Qed.
Lemma ok_blames {A} (x : A) l ls : blames (Ok x, l) ls.
Proof. intros e l'; discriminate. Qed.
Lemma append_conts_blames p ls : forall s, blames (append_conts p s ls) ls.
Proof.
  induction ls as [|i ls IH]; intros s e l H; cbn [append_conts] in H; [discriminate|].
  destruct i as [[[|n k c|n q t c|n q c]|y]|]; try discriminate.
  - destruct (str_eqb q p); [|discriminate]. exact (stream_error_suffix _ _ _ (suffix_cons _ _ _ (suffix_refl _)) (IH _ _ _ H)).
  - injection H as <- <-. apply ste_failure. left. reflexivity.
Qed.
Lemma parse_msg_blames o t ls : blames (parse_msg o t ls) ls.
Proof.
  intros e l H. rewrite parse_msg_eq in H. destruct ls as [|[[[|n k c|n p tag c|n p c]|y]|] ls]; try discriminate.
  - destruct (_ && _); [|discriminate]. exact (stream_error_suffix _ _ _ (suffix_cons _ _ _ (suffix_refl _)) (append_conts_blames _ _ _ _ _ H)).
  - injection H as <- <-. apply ste_failure. left. reflexivity.
Qed.
Lemma expected_blames w ls : In w [lit "msgid"; lit "msgstr"; lit "msgstr[0]"] -> blames (expected w ls) ls.
Proof.
  intros I e l H. unfold expected, peek, next in H. destruct ls as [|[[[|n k c|n p t c|n p c]|y]|] ls]; cbn [hd tl] in H; try discriminate; injection H as <- <-.
  - change n with (po_line_no (PComment n k c)) at 1. apply (ste_line _ (PComment n k c)); [left; reflexivity|exact I].
  - apply (ste_line _ (PMessage n p t c)); [left; reflexivity|exact I].
  - apply (ste_line _ (PCont n p c)); [left; reflexivity|exact I].
  - apply ste_failure. left. reflexivity.
Qed.
Lemma expected_id ls : blames (expected (lit "msgid") ls) ls. Proof. apply expected_blames. cbn. auto. Qed.
Lemma expected_str ls : blames (expected (lit "msgstr") ls) ls. Proof. apply expected_blames. cbn. auto. Qed.
Lemma expected_str0 ls : blames (expected (lit "msgstr[0]") ls) ls. Proof. apply expected_blames. cbn. auto. Qed.
#[local] Hint Resolve ok_blames parse_msg_blames expected_id expected_str expected_str0 : core.
Lemma parse_values_blames o k : forall i vs ls, blames (parse_values o k i vs ls) ls.
Proof. induction k as [|k IH]; intros i vs ls; cbn [parse_values]; [auto|]. apply bind_blames; auto. Qed.
Lemma new_message_blames forms o id pl ls : blames (new_message forms o id pl ls) ls.
Proof.
  unfold new_message. destruct id as [id|]; [|auto]. destruct pl as [pl|].
  - apply bind_blames; [apply parse_values_blames|apply parse_values_suffix|]. intros vs l _. destruct (is_empty vs); [|auto]. apply bind_blames; auto.
  - apply bind_blames; auto. intros [t|] l _; [auto|]. apply bind_blames; auto.
Qed.
Lemma fields_blames forms first u ls : blames (parse_message_fields forms first u ls) ls.
Proof.
  unfold parse_message_fields.
  apply bind_blames; auto; intros pc l1 _.
  apply bind_blames; auto; intros pi l2 _.
  apply bind_blames; [destruct pi; auto|destruct pi; cbn; auto|]; intros pp l3 _.
  apply bind_blames; auto; intros c l4 _.
  apply bind_blames; auto; intros i l5 _.
  destruct (negb first && _).
  - apply bind_blames; auto.
  - apply bind_blames; auto; intros pl l6 _.
    apply bind_blames; [apply new_message_blames|apply new_message_suffix|]. intros [m|] l7 _; auto.
Qed.
Lemma comments_blames ls : forall u, blames (parse_comments u ls) ls.
Proof.
  induction ls as [|i ls IH]; intros u e l H; cbn [parse_comments] in H; [discriminate|].
  destruct i as [[[|n k c|n q t c|n q c]|y]|]; try discriminate.
  - exact (stream_error_suffix _ _ _ (suffix_cons _ _ _ (suffix_refl _)) (IH _ _ _ H)).
  - injection H as <- <-. apply ste_failure. left. reflexivity.
Qed.
(** An entry begins with a keyword line. *)
Lemma fields_first forms u l ls v r : parse_message_fields forms false u (Some (ILine l) :: ls) = (Ok (Some v), r) -> exists n p t s, l = PMessage n p t s.
Proof.
  destruct l as [|n k c|n p t s|n p s]; eauto; intros H; exfalso; unfold parse_message_fields in H;
    do 5 (rewrite ?parse_msg_eq in H; cbn [bind] in H); cbn [negb andb] in H; apply bind_ok in H as (? & ? & _ & H); discriminate.
Qed.
Theorem runit_blames forms first ls : blames (runit forms first ls) ls.
Proof.
  intros e l H. unfold runit in H. apply bind_err in H as [H|(u & l1 & C & H)]; [exact (comments_blames _ _ _ _ H)|].
  pose proof (parse_comments_suffix ls unit_default) as S. rewrite C in S. cbn [snd] in S. apply (stream_error_suffix _ _ _ S). clear C S.
  destruct l1 as [|[[k|y]|] l1]; unfold peek in H; cbn [hd] in H; try discriminate.
  apply bind_err in H as [H|(o & l2 & E & H)]; [exact (fields_blames _ _ _ _ _ _ H)|].
  destruct o as [v|]; cbn [finish_unit] in H; [|discriminate]. destruct first; cbn [negb andb] in H; [discriminate|].
  destruct (msg_is_empty (u_message v)); [|discriminate]. injection H as <- <-.
  destruct (fields_first _ _ _ _ _ _ E) as (n & p & t & s & ->). eapply ste_source. left. reflexivity.
Qed.
Lemma reads_blames forms ls l x : reads forms ls l -> In (UErr x) l -> stream_error ls x.
Proof.
  induction 1 as [ls r E|ls e r E|ls u r l E H IH]; intros I; [destruct I| |].
  - destruct I as [[= <-]|[]]. exact (runit_blames _ _ _ _ _ E).
  - destruct I as [?|I]; [discriminate|]. pose proof (runit_suffix forms false ls) as S. rewrite E in S. exact (stream_error_suffix _ _ _ S (IH I)).
Qed.

(** * Streams *)
Theorem any_error lib pf evs bs f rs c x : pieces evs bs f -> answers 1 bs f rs -> read_catalogue lib pf evs = Ok c -> In (UErr x) (c_items c) -> stream_error rs x.
Proof.
  intros P A R I. apply (any_catalogue lib pf _ _ _ _ _ P A) in R. remember (Ok c) as o eqn:Eo.
  destruct R as [e r E|r E|u r l E M R|u r e E M HF|u r forms l E M HF R]; try discriminate; injection Eo as <-; cbn [c_items] in I.
  - destruct I.
  - destruct I as [?|I]; [discriminate|]. pose proof (runit_suffix None true rs) as S. rewrite E in S. exact (stream_error_suffix _ _ _ S (reads_blames _ _ _ _ R I)).
  - pose proof (runit_suffix None true rs) as S. rewrite E in S. exact (stream_error_suffix _ _ _ S (reads_blames _ _ _ _ R I)).
Qed.
Theorem any_parse_error lib pf evs bs f rs x : pieces evs bs f -> answers 1 bs f rs -> read_catalogue lib pf evs = Err x ->
  stream_error rs x \/ exists h r u ps, kept rs = h ++ r /\ entry None h u /\ header u ps /\ header_error pf ps x.
Proof.
  intros P A R. apply (any_catalogue lib pf _ _ _ _ _ P A) in R. remember (Err x) as o eqn:Eo.
  destruct R as [e r E|r E|u r l E M R|u r e E M HF|u r forms l E M HF R]; try discriminate; injection Eo as ->.
  - left. exact (runit_blames _ _ _ _ _ E).
  - right. assert (Forall written (kept rs)) as W by (apply answers_kept in A; rewrite Forall_forall in *; intros l I; apply A, I).
    destruct (runit_any _ _ _ _ _ W E) as (a & -> & En & _). assert (~ has_source u) as S by (apply sourceless_iff, M).
    destruct (header_exists u S) as (ps & H). pose proof H as H'. apply header_intro in H' as [_ HP].
    destruct En as [En|[_ Hh]]; [|destruct Hh; discriminate].
    exists (kept a), (kept r), u, ps. rewrite kept_app. repeat split; [exact En|exact H|].
    destruct (header_forms_error pf u ps x HP HF) as (def & Ed & NE & [[ND ->]|(DL & NF & m & ->)]); [apply her_list; assumption|eapply her_forms; eassumption].
Qed.

Lemma answers_numbers n bs f rs : answers n bs f rs -> 0 < n -> (forall l, In l (kept rs) -> 0 < po_line_no l) /\ (forall x, In (Some (IFail x)) rs -> iteration_error x).
Proof.
  assert (forall pl x, ~ In (Some (IFail x)) (map (fun l => Some (ILine l)) pl)) as K.
  { intros pl x I. apply in_map_iff in I as (l & E & _). discriminate. }
  induction 1 as [n b f ls e pl tl C P|n b b' bs f ls e pl y C P|n b bs f ls pl rs C P T A IH|n b bs f ls pl rs C P T A IH]; intros H;
    destruct (parsed_numbers _ _ _ _ _ P H) as [Hl Ht]; rewrite kept_app, kept_map; (split; [intros l I|intros x I]; apply in_app_or in I as [I|I]; auto; try (destruct (K _ _ I))).
  - destruct tl; destruct I.
  - destruct tl as [y|]; [|destruct I]. destruct I as [[= <-]|[]]. auto.
  - destruct I.
  - destruct I as [[= <-]|[]]. auto.
  - destruct IH as [IH _]; [lia|]. apply IH, I.
  - destruct I as [?|I]; [discriminate|]. destruct IH as [_ IH]; [lia|]. apply IH, I.
  - destruct IH as [IH _]; [lia|]. apply IH, I.
  - destruct IH as [_ IH]; [lia|]. apply IH, I.
Qed.
Lemma stream_error_iteration bs f rs x : answers 1 bs f rs -> stream_error rs x -> iteration_error x.
Proof.
  intros A. destruct (answers_numbers _ _ _ _ A eq_refl) as [Hl Hf]. intros [y I|l w I J|n p t s I]; [apply Hf, I|apply ie_keyword; [apply Hl, I|exact J]|].
  apply ie_source. exact (Hl _ I).
Qed.
Theorem any_iteration_error lib pf evs c x : read_catalogue lib pf evs = Ok c -> In (UErr x) (c_items c) -> iteration_error x.
Proof. intros R I. destruct (all_calls evs) as (bs & f & rs & P & A & _). exact (stream_error_iteration _ _ _ _ A (any_error _ _ _ _ _ _ _ _ P A R I)). Qed.
Theorem any_errors_of_parse lib pf evs bs f rs x : pieces evs bs f -> answers 1 bs f rs -> read_catalogue lib pf evs = Err x ->
  iteration_error x \/ exists h r u ps, kept rs = h ++ r /\ entry None h u /\ header u ps /\ header_error pf ps x.
Proof. intros P A R. destruct (any_parse_error _ _ _ _ _ _ _ P A R) as [S|H]; [left; exact (stream_error_iteration _ _ _ _ A S)|right; exact H]. Qed.
Theorem any_plain lib pf evs x :
  (read_catalogue lib pf evs = Err x \/ exists c, read_catalogue lib pf evs = Ok c /\ In (UErr x) (c_items c)) -> (exists n i, x = EIo n i) \/ plain x.
Proof.
  intros [R|(c & R & I)]; [|apply iteration_plain; exact (any_iteration_error _ _ _ _ _ R I)].
  destruct (all_calls evs) as (bs & f & rs & P & A & _). destruct (any_errors_of_parse _ _ _ _ _ _ _ P A R) as [I|(h & r & u & ps & _ & _ & _ & H)]; [apply iteration_plain, I|].
  right. destruct H; constructor.
Qed.
Theorem any_units_bounded lib pf evs bs f rs c : pieces evs bs f -> answers 1 bs f rs -> read_catalogue lib pf evs = Ok c ->
  (length (units (c_items c)) <= msgid_lines (kept rs))%nat.
Proof.
  intros P A R. destruct (any_stream _ _ _ _ _ _ _ P A R) as (h & forms & bls & rest & -> & _ & F). rewrite !msgid_lines_app, (blocks_msgid _ _ _ F). lia.
Qed.
