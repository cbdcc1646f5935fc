(** What a translated unit offers; what the header influences; repeated entries. *)
From Coq Require Import String Arith NArith ZArith Bool List Lia.
From Verif Require Import ModelBase ModelUtf8 ModelRegex ModelLine ModelFormula ModelData ModelSource ModelReader
  SpecLine SpecFormula SpecSource SpecReader SpecBlock SpecHeader SpecFile SpecUse BaseFacts LineFacts SourceFacts IterFacts ReadsFacts FormulaThms EvalFacts PanicFacts
  CatalogueFacts BlockFacts BlocksFacts FirstFacts FileFacts MapFacts HeaderFacts SplitFacts BlockThms EntryThms HeaderThms AccessFacts IndepFacts FileIntro StreamFacts AnyFacts.
Import ListNotations.
Local Open Scope N_scope.

(** * Translated units *)
Theorem translated_simple lib pf evs c u id t : read_catalogue lib pf evs = Ok c -> In (UOk u) (c_items c) ->
  u_message u = MSimple id t -> unit_is_translated u = true ->
  exists s, t = Some s /\ s <> [] /\ msg_get_text (u_message u) = s /\ forall n, msg_get_plural_text pf (u_message u) n = Some (Some s).
Proof.
  intros R I M T. destruct (unit_state_any lib pf evs c u R I) as (_ & A & _ & B). apply B, A in T as (_ & s & Is & NE).
  rewrite M in *. destruct t as [s'|]; cbn [translations] in Is; [|destruct Is]. destruct Is as [->|[]].
  exists s. cbn. auto.
Qed.
Theorem translated_no_forms lib pf evs c u p n : read_catalogue lib pf evs = Ok c -> In (UOk u) (c_items c) -> u_message u = MPlural p ->
  sm_get (lit "Plural-Forms") (c_properties c) = None \/ sm_get (lit "Plural-Forms") (c_properties c) = Some [] ->
  msg_get_plural_text pf (u_message u) n = Some None.
Proof.
  intros R I M P. destruct (plural_forms_shown lib pf evs c R) as (forms & F & A). specialize (A u p I (or_introl M)).
  unfold forms_shown in F. assert (forms = None) as ->.
  { destruct P as [P|P]; rewrite P in F; [exact F|]. destruct F as [[_ F]|[F _]]; [exact F|contradiction]. }
  rewrite M. cbn [msg_get_plural_text]. unfold plural_get. rewrite A. reflexivity.
Qed.
Lemma delivered_literals lib pf evs c u p f : read_catalogue lib pf evs = Ok c -> In (UOk u) (c_items c) -> u_message u = MPlural p -> pl_forms p = Some f -> literals_ok (pf_formula f).
Proof.
  intros R I M E. destruct (plural_forms_shown lib pf evs c R) as (forms & F & A). specialize (A u p I (or_introl M)). rewrite E in A. subst forms.
  unfold forms_shown in F. destruct (sm_get (lit "Plural-Forms") (c_properties c)) as [def|]; [|discriminate].
  destruct F as [[_ F]|(_ & f' & [= <-] & bs & _ & _ & _ & _ & Fo & _)]; [discriminate|]. apply formula_parse_iff in Fo. exact (formula_literals _ _ Fo).
Qed.
Theorem lookup_iff pf f n w r : literals_ok (pf_formula f) -> congruent w (Z.of_N n) -> (forms_get_value pf f n = r <-> looks_up pf f w r).
Proof.
  intros L Cg. pose proof Cg as [W _]. pose proof (get_value_panics_iff pf f n w L Cg) as PI. pose proof (proj1 (congruent_wrap _ _) Cg) as EW.
  assert (forall x, overflow_checks pf = false \/ ~ negates_min w (pf_formula f) -> runs w (pf_formula f) x ->
    forms_get_value pf f n = Some (if (x <? 0)%Z then None else if N.ltb (Z.to_N x mod 2 ^ usize_bits pf) (pf_count f) then Some (Z.to_N x mod 2 ^ usize_bits pf) else None)) as V.
  { intros x NP Rn. apply execute_runs in Rn; [|exact W|exact L].
    assert (execute (overflow_checks pf) (pf_formula f) w = Some x) as Ex.
    { destruct (overflow_checks pf) eqn:O; [|exact Rn]. destruct NP as [NP|NP]; [discriminate NP|].
      destruct (execute true (pf_formula f) w) as [y|] eqn:Ey; [pose proof (execute_checks _ _ _ Ey); congruence|]. exfalso. apply NP, execute_panics_iff; assumption. }
    unfold forms_get_value, formula_execute. rewrite <- EW, Ex. destruct (x <? 0)%Z; reflexivity. }
  assert (forall x i, (0 <= x)%Z -> Z.of_N i = (x mod 2 ^ Z.of_N (usize_bits pf))%Z -> Z.to_N x mod 2 ^ usize_bits pf = i) as Md.
  { intros x i X E. apply N2Z.inj. rewrite E, N2Z.inj_mod, N2Z.inj_pow, Z2N.id by assumption. reflexivity. }
  split.
  - intros <-. destruct (forms_get_value pf f n) as [o|] eqn:G.
    2: { destruct (proj1 PI eq_refl). constructor; assumption. }
    assert (overflow_checks pf = false \/ ~ negates_min w (pf_formula f)) as NP.
    { destruct (overflow_checks pf); [right|left; reflexivity]. intros N. specialize (proj2 PI (conj eq_refl N)). discriminate. }
    destruct (execute_total (pf_formula f) w W L) as (x & Ex & _). apply execute_runs in Ex; [|exact W|exact L]. specialize (V x NP Ex). injection V as V.
    destruct (Z.ltb_spec x 0) as [Lt|Ge]; subst o; [exact (lu_negative _ _ _ x NP Ex Lt)|].
    assert (Z.of_N (Z.to_N x mod 2 ^ usize_bits pf) = (x mod 2 ^ Z.of_N (usize_bits pf))%Z) as E by (rewrite N2Z.inj_mod, N2Z.inj_pow, Z2N.id by assumption; reflexivity).
    destruct (N.ltb_spec (Z.to_N x mod 2 ^ usize_bits pf) (pf_count f)) as [Lt|Le]; [exact (lu_form _ _ _ x _ NP Ex Ge E Lt)|exact (lu_large _ _ _ x _ NP Ex Ge E Le)].
  - intros [O N|x NP Rn Lt|x i NP Rn Ge E Lt|x i NP Rn Ge E Le]; [apply PI; auto|rewrite (V x NP Rn)..].
    + destruct (Z.ltb_spec x 0); [reflexivity|lia].
    + destruct (Z.ltb_spec x 0); [lia|]. rewrite (Md x i Ge E). destruct (N.ltb_spec i (pf_count f)); [reflexivity|lia].
    + destruct (Z.ltb_spec x 0); [lia|]. rewrite (Md x i Ge E). destruct (N.ltb_spec i (pf_count f)); [lia|reflexivity].
Qed.
Theorem offers_iff lib pf evs c u p n w : read_catalogue lib pf evs = Ok c -> In (UOk u) (c_items c) -> u_message u = MPlural p -> congruent w (Z.of_N n) ->
  (offers pf u n <-> exists f i s, pl_forms p = Some f /\ looks_up pf f w (Some (Some i)) /\ nth_error (pl_values p) (N.to_nat i) = Some s /\ s <> []).
Proof.
  intros R I M Cg. unfold offers. rewrite M. cbn [msg_get_plural_text]. unfold plural_get. destruct (pl_forms p) as [f|] eqn:E.
  2: { split; [intros (s & _ & [=])|intros (f & _ & _ & [=] & _)]. }
  pose proof (delivered_literals _ _ _ _ _ _ _ R I M E) as L. split.
  - intros (s & NE & H). destruct (forms_get_value pf f n) as [[i|]|] eqn:G; try discriminate. injection H as H. exists f, i, s.
    split; [reflexivity|]. split; [apply (lookup_iff pf f n w _ L Cg), G|auto].
  - intros (f' & i & s & [= <-] & Lu & N & NE). apply (lookup_iff pf f n w _ L Cg) in Lu. rewrite Lu. exists s. split; [exact NE|]. rewrite N. reflexivity.
Qed.
(** Two units of a file: the same text exactly if the values at the index looked up are the same. *)
Theorem same_text_iff lib pf evs c u v p q n w : read_catalogue lib pf evs = Ok c -> In (UOk u) (c_items c) -> In (UOk v) (c_items c) ->
  u_message u = MPlural p -> u_message v = MPlural q -> congruent w (Z.of_N n) ->
  (msg_get_plural_text pf (u_message u) n = msg_get_plural_text pf (u_message v) n
   <-> forall f i, pl_forms p = Some f -> looks_up pf f w (Some (Some i)) -> nth_error (pl_values p) (N.to_nat i) = nth_error (pl_values q) (N.to_nat i)).
Proof.
  intros R Iu Iv Mu Mv Cg. destruct (plural_forms_shown lib pf evs c R) as (forms & _ & A). pose proof (A u p Iu (or_introl Mu)) as Ep. pose proof (A v q Iv (or_introl Mv)) as Eq.
  rewrite Mu, Mv. cbn [msg_get_plural_text]. unfold plural_get. rewrite Eq, Ep. destruct forms as [f|]; [|split; [intros _ f i [=]|reflexivity]].
  pose proof (delivered_literals _ _ _ _ _ _ _ R Iu Mu Ep) as L. split.
  - intros H f' i [= <-] Lu. apply (lookup_iff pf f n w _ L Cg) in Lu. rewrite Lu in H. congruence.
  - intros H. destruct (forms_get_value pf f n) as [[i|]|] eqn:G; try reflexivity. f_equal. apply (H f); [reflexivity|]. apply (lookup_iff pf f n w _ L Cg), G.
Qed.
(** All forms given and not blank: a text for every count for which the formula gives one of the forms. *)
Theorem complete_offers lib pf evs c u p f n w i : read_catalogue lib pf evs = Ok c -> In (UOk u) (c_items c) -> u_message u = MPlural p -> pl_forms p = Some f ->
  congruent w (Z.of_N n) -> N.of_nat (length (pl_values p)) = pf_count f -> (forall s, In s (pl_values p) -> s <> []) -> looks_up pf f w (Some (Some i)) -> offers pf u n.
Proof.
  intros R I M E Cg L NB Lu. eapply offers_iff; try eassumption. exists f, i.
  destruct (nth_error (pl_values p) (N.to_nat i)) as [s|] eqn:Es; [exists s; repeat split; try assumption; apply NB; eapply nth_error_In; exact Es|].
  apply nth_error_None in Es. inversion Lu; subst. lia.
Qed.

(** * The header *)
Lemma header_forms_same pf u u' ps ps' : header u ps -> header u' ps' -> property ps (lit "Plural-Forms") = property ps' (lit "Plural-Forms") ->
  header_forms pf (header_props u) = header_forms pf (header_props u').
Proof.
  intros H H' E. apply header_intro in H as [_ H]. apply header_intro in H' as [_ H']. unfold header_forms.
  rewrite (header_props_spec u ps _ H), (header_props_spec u' ps' _ H'), E. reflexivity.
Qed.
Lemma blocks_items Rn forms r tl r' tl' us o us' o' : Forall written r -> Forall written r' -> resplit Rn r r' -> same_end Rn tl tl' -> blocks forms r tl us o -> blocks forms r' tl' us' o' ->
  Forall2 (uitem_sim Rn eq) (map UOk us ++ error_item o) (map UOk us' ++ error_item o').
Proof.
  intros W W' S E B B'. eapply (reads_split Rn forms); [exact (lsplit_intro Rn _ _ _ _ S E)| |]; (apply reads_blocks; [assumption|]); do 2 eexists; (split; [eassumption|reflexivity]).
Qed.
Theorem header_influence lib pf Rn evs ls e h r tl u ps evs' ls' e' h' r' tl' u' ps' :
  file evs ls e (h ++ r) tl -> first_entry h r tl u -> header u ps -> file evs' ls' e' (h' ++ r') tl' -> first_entry h' r' tl' u' -> header u' ps' ->
  property ps (lit "Plural-Forms") = property ps' (lit "Plural-Forms") -> resplit Rn r r' -> same_end Rn tl tl' ->
  match read_catalogue lib pf evs, read_catalogue lib pf evs' with
  | Ok c, Ok c' => Forall2 (uitem_sim Rn eq) (c_items c) (c_items c') /\ (property ps (lit "Language") = property ps' (lit "Language") -> c_language c = c_language c')
  | Err x, Err x' => x = x'
  | _, _ => False
  end.
Proof.
  intros (bs & f & D & C & P) Fe H (bs' & f' & D' & C' & P') Fe' H' EP S Se.
  pose proof (parsed_written _ _ _ _ _ P) as W. pose proof (parsed_written _ _ _ _ _ P') as W'.
  pose proof H as Hi. apply header_intro in Hi as [Ns Hp]. pose proof H' as Hi'. apply header_intro in Hi' as [Ns' Hp'].
  pose proof (header_complete lib pf h u r tl W Fe Ns) as X. pose proof (header_complete lib pf h' u' r' tl' W' Fe' Ns') as X'.
  rewrite <- (header_forms_same pf u u' ps ps' H H' EP) in X'. apply Forall_app in W as [_ W], W' as [_ W'].
  destruct (header_forms pf (header_props u)) as [forms|x|]; [| |destruct X].
  - destruct (blocks_total forms r tl W) as (us & o & B). destruct (blocks_total forms r' tl' W') as (us' & o' & B').
    specialize (X us o B). specialize (X' us' o' B'). apply (file_catalogue lib pf _ _ _ _ _ _ _ _ D C P) in X. apply (file_catalogue lib pf _ _ _ _ _ _ _ _ D' C' P') in X'.
    rewrite X, X'. cbn [c_items c_language]. split; [exact (blocks_items _ _ _ _ _ _ _ _ _ _ W W' S Se B B')|].
    intros EL. unfold header_language. rewrite (header_props_spec u ps _ Hp), (header_props_spec u' ps' _ Hp'), EL. reflexivity.
  - apply (file_catalogue lib pf _ _ _ _ _ _ _ _ D C P) in X. apply (file_catalogue lib pf _ _ _ _ _ _ _ _ D' C' P') in X'. rewrite X, X'. reflexivity.
Qed.
(** A header that defines no plural forms, and none. *)
Theorem header_added lib pf Rn evs ls e h r tl u ps evs' ls' e' b v rest tl' :
  file evs ls e (h ++ r) tl -> first_entry h r tl u -> header u ps -> property ps (lit "Plural-Forms") = None \/ property ps (lit "Plural-Forms") = Some [] ->
  file evs' ls' e' (b ++ rest) tl' -> unit_entry None b v -> ends_at None b rest tl' -> resplit Rn r (b ++ rest) -> same_end Rn tl tl' ->
  exists c c', read_catalogue lib pf evs = Ok c /\ read_catalogue lib pf evs' = Ok c' /\ Forall2 (uitem_sim Rn eq) (c_items c) (c_items c').
Proof.
  intros (bs & f & D & C & P) Fe H EP (bs' & f' & D' & C' & P') U Ea S Se.
  pose proof (parsed_written _ _ _ _ _ P) as W. pose proof (parsed_written _ _ _ _ _ P') as W'.
  pose proof H as Hi. apply header_intro in Hi as [Ns Hp]. pose proof (header_complete lib pf h u r tl W Fe Ns) as X.
  assert (header_forms pf (header_props u) = Ok None) as HF by (unfold header_forms; rewrite (header_props_spec u ps _ Hp); destruct EP as [->| ->]; reflexivity).
  rewrite HF in X. apply Forall_app in W as [_ W]. pose proof W' as Wr. apply Forall_app in Wr as [_ Wr].
  destruct (blocks_total None r tl W) as (us & o & B). destruct (blocks_total None rest tl' Wr) as (us' & o' & B'). specialize (X us o B).
  assert (blocks None (b ++ rest) tl' (v :: us') o') as B2 by (apply bk_entry; assumption).
  pose proof (plain_complete lib pf _ _ _ _ _ W' B2) as X'. apply (file_catalogue lib pf _ _ _ _ _ _ _ _ D C P) in X. apply (file_catalogue lib pf _ _ _ _ _ _ _ _ D' C' P') in X'.
  rewrite X, X'. do 2 eexists. split; [reflexivity|]. split; [reflexivity|]. cbn [c_items]. exact (blocks_items _ _ _ _ _ _ _ _ _ _ W W' S Se B B2).
Qed.

(** * Repeated entries *)
Theorem repeated lib pf hls v ps forms blks us bs evs i j blk : heading_text pf hls v ps forms -> Forall2 (entry_text forms) blks us ->
  contents bs None (hls ++ concat blks) None -> delivers evs bs None -> nth_error blks i = Some blk -> nth_error blks j = Some blk ->
  exists c u, read_catalogue lib pf evs = Ok c /\ nth_error (c_items c) i = Some (UOk u) /\ nth_error (c_items c) j = Some (UOk u).
Proof.
  intros H F Ct D Bi Bj. destruct (entries_independent lib pf hls v ps forms blks us bs evs H F Ct D) as (c & R & _ & E).
  assert (forall k b, nth_error blks k = Some b -> exists u, nth_error us k = Some u /\ entry_text forms b u) as K.
  { clear -F. induction F as [|b u blks us X F IH]; intros [|k] b0 Q; try discriminate Q; cbn in Q |- *; [injection Q as <-; eauto|apply IH, Q]. }
  destruct (K i blk Bi) as (u & Ui & Eu). destruct (K j blk Bj) as (u' & Uj & Eu'). rewrite (entry_text_unique forms blk u' u Eu' Eu) in Uj.
  exists c, u. split; [exact R|]. rewrite E, !nth_error_map, Ui, Uj. auto.
Qed.

(** * Witnesses *)
Definition forms_lines (texts : list string) : list string :=
  ["msgid """""; "msgstr ""Plural-Forms: nplurals=2; plural=n!=1;\n"""; "msgid ""a"""; "msgid_plural ""b"""]%string ++ texts.
Theorem no_forms_refuted : exists evs c u, (forall lib pf, exists c, read_catalogue lib pf evs = Ok c /\ c_items c = [UOk u])
  /\ read_catalogue demo_lib demo_pf evs = Ok c /\ unit_is_translated u = true /\ translations (u_message u) = [lit "c"; lit "d"]
  /\ forall pf n, msg_get_plural_text pf (u_message u) n = Some None.
Proof.
  exists (lf_stream ["msgid ""a"""; "msgid_plural ""b"""; "msgstr[0] ""c"""; "msgstr[1] ""d"""]%string). do 2 eexists.
  split; [intros lib pf; eexists; split; vm_compute; reflexivity|]. split; [vm_compute; reflexivity|]. repeat split; reflexivity.
Qed.
Theorem blank_form_refuted : exists evs c u, read_catalogue demo_lib demo_pf evs = Ok c /\ c_items c = [UOk u] /\ unit_is_translated u = true
  /\ msg_get_plural_text demo_pf (u_message u) 1 = Some (Some []) /\ offers demo_pf u 2.
Proof.
  exists (lf_stream (forms_lines ["msgstr[0] """""; "msgstr[1] ""d"""]%string)). do 2 eexists. split; [vm_compute; reflexivity|]. split; [reflexivity|]. split; [reflexivity|].
  split; [vm_compute; reflexivity|]. exists (lit "d"). split; [discriminate|vm_compute; reflexivity].
Qed.
Theorem missing_form_refuted : exists evs c u, read_catalogue demo_lib demo_pf evs = Ok c /\ c_items c = [UOk u] /\ unit_is_translated u = true
  /\ msg_get_plural_text demo_pf (u_message u) 2 = Some None /\ offers demo_pf u 1.
Proof.
  exists (lf_stream (forms_lines ["msgstr[0] ""c"""]%string)). do 2 eexists. split; [vm_compute; reflexivity|]. split; [reflexivity|]. split; [reflexivity|].
  split; [vm_compute; reflexivity|]. exists (lit "c"). split; [discriminate|vm_compute; reflexivity].
Qed.
Theorem obsolete_refuted : exists evs u, (forall lib pf, exists c, read_catalogue lib pf evs = Ok c /\ c_items c = [UOk u]) /\ unit_is_translated u = true /\ u_obsolete u = true.
Proof.
  exists (lf_stream ["#~ msgid ""a"""; "#~ msgstr ""b"""]%string). eexists. split; [intros lib pf; eexists; split; vm_compute; reflexivity|]. split; reflexivity.
Qed.
Theorem distinct_refuted : exists evs u v, (forall lib pf, exists c, read_catalogue lib pf evs = Ok c /\ c_items c = [UOk u; UOk v]) /\ lookup_key u = lookup_key v
  /\ msg_get_text (u_message u) <> msg_get_text (u_message v).
Proof.
  exists (lf_stream ["msgid ""a"""; "msgstr ""b"""; "msgid ""a"""; "msgstr ""c"""]%string). do 2 eexists. split; [intros lib pf; eexists; split; vm_compute; reflexivity|].
  split; [reflexivity|discriminate].
Qed.
(** The byte 233 is the letter e with acute accent in ISO-8859-1. *)
Definition latin_lines : list string := ["msgid """""; "msgstr ""Content-Type: text/plain; charset=ISO-8859-1\n"""; "msgid ""a"""]%string.
Definition latin_stream : list rd_event := [RdData (utf8 (flat_map (fun s => lit s ++ [10]) latin_lines) ++ utf8 (lit "msgstr """) ++ [233] ++ utf8 (lit """"))].
Theorem charset_refuted : forall lib pf, exists c, read_catalogue lib pf latin_stream = Ok c /\ sm_get (lit "Content-Type") (c_properties c) = Some (lit "text/plain; charset=ISO-8859-1")
  /\ c_items c = [UErr (EIo 4 IoInvalidUtf8)].
Proof. intros lib pf. eexists. split; [vm_compute; reflexivity|]. split; vm_compute; reflexivity. Qed.
(** The bytes 195 169 are two letters in ISO-8859-1, whose characters are the bytes, and one in UTF-8. *)
Definition misread_stream : list rd_event := [RdData (utf8 (flat_map (fun s => lit s ++ [10]) latin_lines) ++ utf8 (lit "msgstr """) ++ [195; 169] ++ utf8 (lit """"))].
Theorem misread_refuted : forall lib pf, exists c u, read_catalogue lib pf misread_stream = Ok c /\ sm_get (lit "Content-Type") (c_properties c) = Some (lit "text/plain; charset=ISO-8859-1")
  /\ c_items c = [UOk u] /\ msg_get_text (u_message u) = [233].
Proof. intros lib pf. eexists. eexists. split; [vm_compute; reflexivity|]. split; [vm_compute; reflexivity|]. split; vm_compute; reflexivity. Qed.
(** Two entries of one file, equal as messages; for each count they have different texts. *)
Definition twins_stream : list rd_event := lf_stream ["msgid """""; "msgstr ""Plural-Forms: nplurals=2; plural=n != 1;\n"""; "msgid ""a"""; "msgid_plural ""b"""; "msgstr[0] ""c"""; "msgstr[1] ""d""";
  "msgctxt ""x"""; "msgid ""a"""; "msgid_plural ""b"""; "msgstr[0] ""e"""; "msgstr[1] ""f"""]%string.
Theorem twins_refuted : exists u v, (forall lib, exists c, read_catalogue lib demo_pf twins_stream = Ok c /\ c_items c = [UOk u; UOk v])
  /\ msg_eqb (u_message u) (u_message v) = true
  /\ forall n, exists s t, msg_get_plural_text demo_pf (u_message u) n = Some (Some s) /\ msg_get_plural_text demo_pf (u_message v) n = Some (Some t) /\ s <> t.
Proof.
  eexists. eexists. split; [|split].
  - intros lib. eexists. split; [vm_compute; reflexivity|]. reflexivity.
  - vm_compute. reflexivity.
  - intros n. cbn [u_message msg_get_plural_text]. unfold plural_get, forms_get_value, formula_execute. cbn [pl_forms pf_formula pl_values pf_count execute]. set (z := wrap64 (Z.of_N n)). destruct (Z.eqb z 1).
    + vm_compute. do 2 eexists. repeat split; discriminate.
    + vm_compute. do 2 eexists. repeat split; discriminate.
Qed.
