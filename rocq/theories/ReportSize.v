(** The length of all error messages (C107). *)
From Coq Require Import String Arith NArith ZArith Bool List Lia.
From Verif Require Import ModelBase ModelUtf8 ModelLine ModelFormula ModelData ModelSource ModelReader ModelParser ModelReport
  SpecLine SpecFormula SpecSource SpecReader SpecBlock SpecHeader SpecFile SpecAny SpecParser SpecError SpecSize SpecFault
  BaseFacts LineFacts DecFacts IterFacts ReaderFacts ReadsFacts CatalogueFacts StreamFacts BlockFacts SoundFacts FirstFacts FileFacts MapFacts HeaderFacts BlockThms HeaderThms PieceFacts AnyFacts AnyErrors SizeFacts FaultFacts
  FormulaThms ParserThms ErrorTextFacts FileIntro SpecReport ReportFacts ReportThms.
Import ListNotations.
Local Open Scope N_scope.

Lemma decimal_length a s : decimal a s -> forall b t, decimal b t -> a <= b -> (length s <= length t)%nat.
Proof.
  induction 1 as [d D|m d s M D S IH]; intros b t T L.
  - destruct T; [cbn; lia|rewrite app_length; cbn; lia].
  - destruct T as [d' D'|m' d' t M' D' T]; [lia|]. rewrite !app_length. cbn [length]. apply Nat.add_le_mono_r. apply (IH m' t T). lia.
Qed.
Lemma binding_length def vs : bindings def vs -> forall k v, In (k, v) vs -> (length v <= length def)%nat.
Proof.
  induction 1 as [w B|w x r bs B K W N H IH|w k w' t B K B' NI|w k w' t v r bs B K B' NI T H IH]; intros k0 v0 I.
  - destruct I.
  - rewrite !app_length. specialize (IH _ _ I). unfold str, char in *. lia.
  - destruct I.
  - rewrite !app_length. cbn [length]. rewrite app_length. cbn [length]. destruct I as [[= <- <-]|I]; [|specialize (IH _ _ I); unfold str, char in *; lia].
    destruct T as (w1 & w2 & -> & _). rewrite !app_length. unfold str, char in *. lia.
Qed.
Lemma expected_text_length l : (length (expected_text l) <= length (concat l) + 4 * length l + 20)%nat.
Proof.
  destruct l as [|x l]; cbn [expected_text]; [cbn; lia|]. cbn [concat length]. rewrite !app_length, !lit_size. cbn [length String.length].
  enough (length (expected_rest l) <= length (concat l) + 4 * length l)%nat by (unfold str, char in *; lia).
  clear x. induction l as [|x [|y l] IH]; cbn [expected_rest concat length] in *; rewrite ?app_length, ?lit_size; cbn [String.length length]; unfold str, char in *; try lia.
  rewrite ?app_length in *. lia.
Qed.

Lemma last_value_in k vs v : last_value k vs = Some v -> exists k', In (k', v) vs.
Proof.
  induction vs as [|[k0 v0] vs IH]; cbn [last_value]; [discriminate|]. destruct (last_value k vs) as [v1|].
  - intros [= ->]. destruct (IH eq_refl) as (k' & I). exists k'. right. exact I.
  - destruct (str_eqb k k0); [|discriminate]. intros [= ->]. exists k0. left. reflexivity.
Qed.
Lemma utf8_length s : (length (utf8 s) <= 4 * length s)%nat.
Proof.
  induction s as [|c s IH]; [cbn; lia|]. unfold utf8 in *. cbn [flat_map length]. rewrite app_length.
  assert (length (encode_char c) <= 4)%nat by (unfold encode_char; repeat match goal with |- context[if ?b then _ else _] => destruct b end; cbn; lia). unfold str, char in *. lia.
Qed.
Lemma size_digits u D dd : (length u <= D)%nat -> decimal (N.of_nat (4 * D)) dd -> (length (dec_str (size u)) <= length dd)%nat.
Proof.
  intros L H. apply (decimal_length (size u) _ (decimal_dec _) _ _ H). unfold size. pose proof (utf8_length u). unfold str, char in *. lia.
Qed.
Lemma fault_text_length m ft ex D dd : fault_of m ft -> (length m <= D)%nat -> decimal (N.of_nat (4 * D)) dd ->
  (length (fault_text ex ft) <= length m + 2 * length dd + (length (concat ex) + 4 * length ex) + 60)%nat.
Proof.
  intros FO L H. pose proof (expected_text_length ex) as X.
  destruct FO as [v w r0 ts tk E _ _ _ _ _ _|ts _ _ _ _|v r0 ts E _ _ _ _ _ _|d r0 ts _ _ _ _ _ _]; cbn [fault_text]; rewrite ?app_length, ?lit_size; cbn [String.length].
  - assert (length v + length w <= length m)%nat as Lw by (rewrite E, !app_length; unfold str, char in *; lia).
    pose proof (size_digits v D dd ltac:(unfold str, char in *; lia) H). pose proof (size_digits (v ++ w) D dd ltac:(rewrite app_length; unfold str, char in *; lia) H). unfold str, char in *. lia.
  - pose proof (size_digits m D dd L H). unfold str, char in *. lia.
  - assert (length v <= length m)%nat as Lw by (rewrite E, !app_length; unfold str, char in *; lia). pose proof (size_digits v D dd ltac:(unfold str, char in *; lia) H). unfold str, char in *. lia.
  - unfold str, char in *. lia.
Qed.
Theorem messages_length_all early expected lib pf evs io x t ds dd K : cautious early -> (forall s ft, (length (concat (expected s ft)) + 4 * length (expected s ft) <= K)%nat) ->
  report_catalogue early expected lib pf evs = Err x \/ (exists c, report_catalogue early expected lib pf evs = Ok c /\ In (UErr x) (c_items c)) ->
  shows io x t -> decimal (named_line x) ds -> decimal (N.of_nat (4 * data_size evs)) dd ->
  (length t <= data_size evs + length ds + io_length io x + 2 * length dd + K + 100)%nat.
Proof.
  intros Ca Hk R S D Dd. destruct (all_calls evs) as (bs & f & rs & P & A & _).
  destruct (report_file_sized early expected lib pf evs bs f rs Ca P A) as [[E _]|(h & r & u & ps & def & vs & w1 & m & w2 & ft & _ & _ & _ & _ & Bi & LV & _ & _ & _ & _ & _ & FO & _ & E & Ld)].
  - rewrite E in R. pose proof (messages_length _ _ _ _ _ _ _ R S D). lia.
  - rewrite E in R. destruct R as [[= <-]|(c & R & _)]; [|discriminate R]. pose proof (shows_size _ _ _ _ S D) as L. cbn [own_text] in L.
    destruct (last_value_in _ _ _ LV) as (k & I). pose proof (binding_length _ _ Bi _ _ I) as Lv. rewrite !app_length in Lv. pose proof (pieces_size _ _ _ P) as Sp.
    pose proof (Hk (w1 ++ m ++ w2) ft) as Hk'. pose proof (fault_text_length m ft (expected (w1 ++ m ++ w2) ft) (data_size evs) dd FO ltac:(unfold str, char in *; lia) Dd) as Lf.
    unfold str, char in *. lia.
Qed.
