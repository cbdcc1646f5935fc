(** A short file whose reading takes long, for every number of forms (C49). *)
From Coq Require Import String Arith NArith ZArith Bool List Lia.
From Verif Require Import ModelBase ModelUtf8 ModelRegex ModelLine ModelFormula ModelData ModelSource ModelReader ModelWork
  SpecLine SpecFormula SpecSource SpecReader SpecBlock SpecHeader SpecFile SpecWriter SpecWork BaseFacts RegexFacts LineFacts DecFacts SourceFacts
  LineThms WriterFacts WritableFacts SelectFacts WorkFacts MachineFacts StreamThms.
Import ListNotations.
Local Open Scope N_scope.

Definition power_text (d : nat) : str := 49 :: repeat 48 d.
Lemma repeat_last {A} (x : A) d : repeat x (Datatypes.S d) = repeat x d ++ [x].
Proof. induction d as [|d IH]; [reflexivity|]. cbn [repeat app] in *. f_equal. exact IH. Qed.
Lemma power_decimal d : decimal (10 ^ N.of_nat d) (power_text d).
Proof.
  induction d as [|d IH]; [apply (dc_digit 1); lia|]. unfold power_text. rewrite repeat_last. change (49 :: repeat 48 d ++ [48]) with (power_text d ++ [48 + 0]).
  rewrite Nat2N.inj_succ, N.pow_succ_r'. rewrite <- (N.add_0_r (10 * _)). apply dc_more; [|lia|exact IH]. apply N.neq_0_lt_0, N.pow_nonzero. discriminate.
Qed.
Lemma escape_app a b : escape (a ++ b) = escape a ++ escape b.
Proof. induction a as [|c a IH]; [reflexivity|]. cbn [app escape]. rewrite IH, app_assoc. reflexivity. Qed.
Lemma escape_power d : escape (power_text d) = power_text d.
Proof. unfold power_text. cbn [escape]. change (if 49 =? 10 then _ else _) with [49]. cbn [app]. f_equal. induction d as [|d IH]; [reflexivity|]. cbn [repeat escape]. rewrite IH. reflexivity. Qed.
Lemma power_chars d c : In c (power_text d) -> 48 <= c <= 57.
Proof. intros [<-|I]; [lia|]. apply repeat_spec in I as ->. lia. Qed.
Lemma power_length d : length (power_text d) = Datatypes.S d.
Proof. cbn. rewrite repeat_length. reflexivity. Qed.
Lemma ascii_bytes s : (forall c, In c s -> c < 128) -> utf8 s = s.
Proof.
  induction s as [|c s IH]; intros H; [reflexivity|]. change (utf8 (c :: s)) with (encode_char c ++ utf8 s). rewrite IH by (intros x I; apply H; right; exact I).
  specialize (H c (or_introl eq_refl)). apply N.ltb_lt in H. unfold encode_char. rewrite H. reflexivity.
Qed.

(** The lines of the file: the definition of 10^d forms, and one entry. *)
Definition power_def (d : nat) : str := forms_definition (power_text d) (lit "n").
Definition power_header (d : nat) : list str :=
  [lit "msgid """""; lit "msgstr """ ++ escape (header_text [(lit "Plural-Forms", power_def d)]) ++ lit """"].
Definition power_entry : list str := [lit "msgid ""a"""; lit "msgid_plural ""b"""; lit "msgstr[0] ""c"""].
Definition power_lines (d : nat) : list str := power_header d ++ power_entry.
Definition power_bytes (d : nat) : list byte := flat_map (fun s => s ++ [10]) (power_lines d).

Lemma line_written kw s : keyword kw -> writes_string [] kw s [kw ++ lit " """ ++ escape s ++ lit """"].
Proof.
  intros K. rewrite <- (app_nil_r s) at 1. apply (ws_intro [] kw s _ [] []); [|constructor]. exists (escape s). split; [|apply escape_unescapes].
  exists [], [], [], [32], []. split; [rewrite app_nil_r; reflexivity|]. split; [constructor|]. split; [intros k E; injection E as <-; exact K|].
  split; [intros c []|]. split; [intros c []|]. split; [exact space_blanks|]. split; [intros c []|]. apply escape_one_line.
Qed.
Lemma power_escaped d : escape (header_text [(lit "Plural-Forms", power_def d)]) = lit "Plural-Forms: nplurals=" ++ power_text d ++ lit "; plural=n;\n".
Proof. unfold header_text, power_def, forms_definition. cbn [flat_map fst snd]. rewrite !escape_app, escape_power, <- !app_assoc. reflexivity. Qed.
Lemma power_ascii d s : In s (power_lines d) -> forall c, In c s -> 32 <= c < 128.
Proof.
  unfold power_lines, power_header, power_entry. rewrite power_escaped. cbn [app In]. intros H c I.
  assert (forall t, forallb (fun c => (32 <=? c) && (c <? 128)) t = true -> In c t -> 32 <= c < 128) as K.
  { intros t Ht J. rewrite forallb_forall in Ht. specialize (Ht c J). apply andb_prop in Ht as [A B]. apply N.leb_le in A. apply N.ltb_lt in B. lia. }
  destruct H as [<-|[<-|[<-|[<-|[<-|[]]]]]]; try (eapply K; [|exact I]; reflexivity).
  rewrite !in_app_iff in I. destruct I as [I|[[I|[I|I]]|I]]; try (eapply K; [|exact I]; reflexivity). apply power_chars in I. lia.
Qed.
Lemma power_contents d : contents (power_bytes d) None (power_lines d) None.
Proof.
  unfold power_bytes. assert (forall s, In s (power_lines d) -> forall c, In c s -> 32 <= c < 128) as H by apply power_ascii.
  induction (power_lines d) as [|s ls IH]; [constructor|]. cbn [flat_map]. pose proof (H s (or_introl eq_refl)) as Hs.
  assert (contents (utf8 s ++ [10] ++ flat_map (fun s => s ++ [10]) ls) None (s :: ls) None) as K.
  - apply ct_line; [| |apply eol_lf|apply IH].
    + intros I. apply Hs in I. lia.
    + intros c I. apply Hs in I. left. lia.
    + intros (t & E). assert (In 13 s) as I by (rewrite E; apply in_or_app; right; left; reflexivity). apply Hs in I. lia.
    + intros t I. apply H. right. exact I.
  - rewrite ascii_bytes, app_assoc in K by (intros c I; apply Hs in I; lia). exact K.
Qed.
Lemma power_size d : events_size [RdData (power_bytes d)] = (d + 98)%nat.
Proof.
  cbn [events_size]. unfold power_bytes, power_lines, power_header, power_entry. rewrite power_escaped. cbn [app flat_map]. unfold byte in *.
  rewrite ?app_length, power_length. unfold str, char in *. cbn. lia.
Qed.

Theorem work_exponential lib pf d : 10 ^ N.of_nat d < 2 ^ usize_bits pf ->
  exists evs c, read_catalogue lib pf evs = Ok c /\ length (c_items c) = 1%nat /\ events_size evs = (d + 98)%nat
    /\ forall w, 10 ^ N.of_nat d <= N.of_nat (work w lib pf evs).
Proof.
  intros Hb. set (f := PluralForms NVar (10 ^ N.of_nat d) (power_def d) (lit "n")).
  assert (forms_of pf (power_def d) f) as F.
  { apply (SelectFacts.forms_read pf (10 ^ N.of_nat d) (power_text d) (lit "n") [TVar] NVar).
    - apply power_decimal.
    - exact Hb.
    - vm_compute. intuition discriminate.
    - vm_compute. intuition discriminate.
    - intros c r E W. apply is_ws_white in W. injection E as <- _. discriminate.
    - intros c r E W. apply is_ws_white in W. change (lit "n") with ([] ++ [110]) in E. apply app_inj_tail in E as [_ <-]. discriminate.
    - intros B. specialize (B 110 (or_introl eq_refl)). apply is_ws_white in B. discriminate.
    - exact (sum_text_tokens 0).
    - apply d_expr, d_or, d_and, d_logical, d_not, (sum_tokens_derive 0).
    - reflexivity. }
  set (p := Plural (Some f) (lit "a") (lit "b") [lit "c"]).
  set (v := Unit None (MPlural p) None (MSimple [] None) [] [] [] [] StFinal false).
  set (ps := [(lit "Plural-Forms", power_def d)]).
  destruct (written_catalogue_read lib pf [] [] ps (Some f) [v] (power_header d) power_entry (power_bytes d) [RdData (power_bytes d)]) as (c & E & It & _).
  - change (power_header d) with ([] ++ [lit "msgid """""] ++ [lit "msgstr """ ++ escape (header_text ps) ++ lit """"]). apply (wh_intro [] [] ps [] []).
    + constructor.
    + constructor; [|constructor]. split; [|split; [|split]].
      * split; [|split; [|split]]; try (vm_compute; intuition discriminate); intros c r E W; apply is_ws_white in W.
        -- injection E as <- _. discriminate.
        -- change (lit "Plural-Forms") with (lit "Plural-Form" ++ [115]) in E. apply app_inj_tail in E as [_ <-]. discriminate.
      * unfold power_def, forms_definition, one_line. rewrite !in_app_iff. intros [I|[I|[I|[I|I]]]]; try (vm_compute in I; intuition discriminate).
        apply power_chars in I. lia.
      * intros c r E W. apply is_ws_white in W. injection E as <- _. discriminate.
      * intros c r E W. apply is_ws_white in W. unfold power_def, forms_definition in E. rewrite !app_assoc in E. apply app_inj_tail in E as [_ <-]. discriminate.
    + apply (line_written (lit "msgid") []). constructor.
    + apply (line_written (lit "msgstr")). constructor.
  - repeat constructor. intros [].
  - apply (hf_some pf ps (power_def d) f); [reflexivity|discriminate|exact F].
  - change power_entry with (power_entry ++ []). apply wus_unit; [intros t; discriminate| |constructor].
    change power_entry with ([] ++ [] ++ [] ++ [] ++ power_entry). apply (wu_intro (Some f) [] [] [] [] [] false None [] (MSimple [] None) [] None [] (MPlural p) power_entry StFinal).
    + constructor.
    + constructor.
    + constructor.
    + constructor.
    + apply (wm_plural (Some f) false (lit "a") (lit "b") [lit "c"] [lit "msgid ""a"""] [lit "msgid_plural ""b"""] [lit "msgstr[0] ""c"""]).
      * discriminate.
      * cbn. assert (10 ^ N.of_nat d <> 0) by (apply N.pow_nonzero; discriminate). lia.
      * apply (line_written (lit "msgid") (lit "a")). constructor.
      * apply (line_written (lit "msgid_plural") (lit "b")). constructor.
      * apply (wf_cons (own false) 0 (lit "msgstr[0]") (lit "c") [] [lit "msgstr[0] ""c"""] []); [|apply (line_written (lit "msgstr[0]") (lit "c")); constructor|constructor].
        exists (lit "0"). split; [apply (dc_digit 0); lia|reflexivity].
    + apply (so_final _ _ (lit "c")); [intros []|left; reflexivity|discriminate].
  - apply power_contents.
  - rewrite <- (app_nil_r (power_bytes d)) at 2. apply dl_data; [discriminate|constructor].
  - exists [RdData (power_bytes d)], c. split; [exact E|]. split; [rewrite It; reflexivity|]. split; [apply power_size|].
    intros w. pose proof (work_lower w lib pf _ c E) as L. rewrite It in L. cbn [map forms_asked fold_right u_message v p pl_forms nforms f pf_count] in L. lia.
Qed.
