(** Files without their comment lines. *)
From Coq Require Import String Arith NArith Bool List Lia.
From Verif Require Import ModelBase ModelUtf8 ModelLine ModelFormula ModelData ModelSource ModelReader
  SpecLine SpecSource SpecReader SpecBlock SpecHeader SpecFile SpecWhole SpecBare BaseFacts BlockFacts FileFacts FileIntro BlockThms WholeFacts.
Import ListNotations.

Lemma bare_app a b q : bare (a ++ b) q -> exists a' b', q = a' ++ b' /\ bare a a' /\ bare b b'.
Proof. unfold bare. rewrite filter_app. intros H. apply Forall2_app_inv_l in H as (a' & b' & A & B & ->). eauto. Qed.
Lemma bare_nil q : bare [] q -> q = [].
Proof. intros H. inversion H. reflexivity. Qed.
Lemma bare_strings p ls t : strings p ls t -> forall q, bare ls q -> strings p q t.
Proof.
  induction 1 as [|n s ls t S IH]; intros q B.
  - apply bare_nil in B as ->. constructor.
  - unfold bare in B. cbn [filter no_comment] in B. inversion B as [|x y l l' X Y]; subst. inversion X; subst. constructor. apply IH. exact Y.
Qed.
Lemma bare_field p kw ls t : field p kw ls t -> forall q, bare ls q -> field p kw q t.
Proof.
  intros [n s l t' S] q B. unfold bare in B. cbn [filter no_comment] in B. inversion B as [|x y l0 l' X Y]; subst. inversion X; subst. constructor. exact (bare_strings _ _ _ S _ Y).
Qed.
Lemma bare_opt p kw ls t : opt_field p kw ls t -> forall q, bare ls q -> opt_field p kw q t.
Proof. intros [|l s F] q B; [apply bare_nil in B as ->; constructor|constructor; exact (bare_field _ _ _ _ F _ B)]. Qed.
Lemma bare_values p c i ls vs : values p c i ls vs -> forall q, bare ls q -> values p c i q vs.
Proof.
  induction 1 as [i|i k kw l s l' vs Le Lt K F V IH]; intros q B.
  - apply bare_nil in B as ->. constructor.
  - apply bare_app in B as (a & b & -> & A & B). econstructor; try eassumption; [exact (bare_field _ _ _ _ F _ A)|exact (IH _ B)].
Qed.
Lemma bare_body forms obs ls m : body forms obs ls m -> forall q, bare ls q -> body forms obs q m.
Proof.
  intros [l1 id l2 t F1 F2|l1 id l2 pl l3 vs F1 F2 V NE] q B; apply bare_app in B as (a & b & -> & A & B).
  - apply bd_simple; eapply bare_field; eassumption.
  - apply bare_app in B as (b' & c & -> & B & C). apply bd_plural; try assumption; [eapply bare_field; eassumption..|eapply bare_values; eassumption].
Qed.
Lemma bare_previous forms obs ls m : previous forms obs ls m -> forall q, bare ls q -> previous forms obs q m.
Proof.
  intros [|l id F|l1 id l2 pl F1 F2] q B.
  - apply bare_nil in B as ->. constructor.
  - apply pv_simple. eapply bare_field; eassumption.
  - apply bare_app in B as (a & b & -> & A & B). apply pv_plural; eapply bare_field; eassumption.
Qed.
Lemma bare_keywords forms obs ks pc pm c m : keywords forms obs ks pc pm c m -> forall q, bare ks q -> keywords forms obs q pc pm c m.
Proof.
  intros [l1 pc' l2 pm' l3 c' l4 m' H1 H2 H3 H4] q B. apply bare_app in B as (a & b & -> & A & B). apply bare_app in B as (b' & y & -> & B & C). apply bare_app in C as (y' & z & -> & C & D).
  constructor; [eapply bare_opt|eapply bare_previous|eapply bare_opt|eapply bare_body]; eassumption.
Qed.
Lemma bare_comments cs F N L C : block_comments cs F N L C -> forall q, bare cs q -> q = [].
Proof. induction 1; intros q B; try (apply IHblock_comments; exact B). apply bare_nil, B. Qed.
Lemma state_without F m st : state_of F m st -> exists st', state_of [] m st' /\ st' <> StNeedsWork /\ (st <> StNeedsWork -> st' = st).
Proof.
  intros S. assert ((exists t, In t (translations m) /\ t <> []) \/ (forall t, In t (translations m) -> t = [])) as [(t & I & NE)|A].
  { induction (translations m) as [|t l IH]; [right; intros t []|]. destruct t as [|x t]; [|left; exists (x :: t); split; [left; reflexivity|discriminate]].
    destruct IH as [(t & I & NE)|A]; [left; exists t; split; [right; exact I|exact NE]|right; intros t [<-|I]; [reflexivity|exact (A t I)]]. }
  - exists StFinal. split; [exact (so_final [] m t (fun x => x) I NE)|]. split; [discriminate|]. destruct S as [X|t' X I' NE'|X A]; [contradiction|reflexivity|]. destruct (NE (A t I)).
  - exists StEmpty. split; [exact (so_empty [] m (fun x => x) A)|]. split; [discriminate|]. destruct S as [X|t' X I' NE'|X A']; [contradiction| |reflexivity]. destruct (NE' (A t' I')).
Qed.
Lemma bare_entry forms b u : entry forms b u -> forall q, bare b q -> exists u', entry forms q u' /\ uncommented u u'.
Proof.
  intros [cs F N L C obs ks pc pm c m st BC K S] q B. apply bare_app in B as (a & k & -> & A & B). rewrite (bare_comments _ _ _ _ _ BC _ A).
  destruct (state_without F m st S) as (st' & S' & NW & Eq). exists (Unit c m pc pm [] [] [] [] st' obs). split.
  - exact (en_intro forms [] [] [] [] [] obs k pc pm c m st' bc_nil (bare_keywords _ _ _ _ _ _ _ K _ B) S').
  - repeat split; assumption.
Qed.
Lemma bare_unit forms b u : unit_entry forms b u -> forall q, bare b q -> exists u', unit_entry forms q u' /\ uncommented u u'.
Proof.
  intros [E H] q B. destruct (bare_entry _ _ _ E _ B) as (u' & E' & U). exists u'. split; [|exact U]. split; [exact E'|]. intros t Q. apply (H t). rewrite <- Q. symmetry. apply U.
Qed.
Lemma bare_opening forms obs p : opening forms obs p -> forall q, bare p q -> opening forms obs q.
Proof.
  intros [cs F N L C l1 pc l2 pm l3 c BC H1 H2 H3] q B. apply bare_app in B as (a & b & -> & A & B). rewrite (bare_comments _ _ _ _ _ BC _ A).
  apply bare_app in B as (b' & c' & -> & B & C'). apply bare_app in C' as (c2 & d & -> & C2 & D).
  eapply (og_intro forms obs [] [] [] [] [] b' pc c2 pm d c); [constructor|eapply bare_opt|eapply bare_previous|eapply bare_opt]; eassumption.
Qed.
Lemma bare_awaited forms p w : awaited forms p w -> forall q, bare p q -> awaited forms q w.
Proof.
  intros [obs p' O|obs p' l id O F|obs p' l id l' pl O F F'] q B.
  - apply (aw_id forms obs). exact (bare_opening _ _ _ O _ B).
  - apply bare_app in B as (a & b & -> & A & B). apply (aw_str forms obs a b id); [exact (bare_opening _ _ _ O _ A)|eapply bare_field; eassumption].
  - apply bare_app in B as (a & b & -> & A & B). apply bare_app in B as (b' & c & -> & B & C). apply (aw_forms forms obs a b' id c pl); [exact (bare_opening _ _ _ O _ A)|eapply bare_field; eassumption..].
Qed.
Lemma bare_entries forms r us : entries forms r us -> forall q, bare r q -> exists us', entries forms q us' /\ Forall2 uncommented us us'.
Proof.
  intros (bls & tail & -> & F & (w & A)). induction F as [|b u bls us U F IH]; intros q B; cbn [concat app] in B.
  - exists []. split; [|constructor]. exists [], q. split; [reflexivity|]. split; [constructor|]. exists w. exact (bare_awaited _ _ _ A _ B).
  - rewrite <- app_assoc in B. apply bare_app in B as (a & k & -> & X & B). destruct (bare_unit _ _ _ U _ X) as (u' & U' & Un). destruct (IH _ B) as (us' & (bls' & tail' & -> & F' & I') & Fu).
    exists (u' :: us'). split; [|constructor; assumption]. exists (a :: bls'), tail'. cbn [concat]. rewrite <- app_assoc. split; [reflexivity|]. split; [constructor; assumption|exact I'].
Qed.
Lemma entries_begin forms h u r us : entry None h u -> entries forms r us -> ends_at None h r None.
Proof.
  intros E (bls & tail & -> & F & I). destruct F as [|b v bls us [En _] F]; cbn [concat app].
  - destruct tail as [|l tail]; [reflexivity|]. apply starter_ends with u; [exact E|]. apply (begun_starter forms l tail). right. exact I.
  - apply entry_starter in En as (l & b' & -> & S). cbn [app]. apply starter_ends with u; [exact E|exact S].
Qed.
(** Whole files. *)
Theorem whole_bare lib pf pl c q : whole lib pf pl None (Ok c) -> (forall x, ~ In (UErr x) (c_items c)) -> first_has_id pl -> bare pl q ->
  exists us us' c', c_items c = map UOk us /\ whole lib pf q None (Ok c') /\ c_items c' = map UOk us' /\ Forall2 uncommented us us'
    /\ c_notes c' = [] /\ c_comments c' = [] /\ (forall k, sm_get k (c_properties c') = sm_get k (c_properties c)) /\ c_language c' = c_language c.
Proof.
  intros W NE FI B.
  assert (forall us o, c_items c = map UOk us ++ error_item o -> o = None) as NO.
  { intros us [x|] E; [|reflexivity]. exfalso. apply (NE x). rewrite E. apply in_or_app. right; left; reflexivity. }
  remember (Ok c) as o eqn:Eo. destruct W as [c0 _ H N I| | |u us o c0 Bk N I|h u ps r forms us o c0 E Fe H HF Bk Sh I|]; try discriminate; injection Eo as ->.
  - exists [], [], c. split; [exact I|]. split.
    { apply wh_nothing; auto. destruct H as [H|(w & A & NW)]; [left|right; exists w; split; [exact (bare_awaited _ _ _ A _ B)|exact NW]].
      assert (filter no_comment pl = []) as Q. { clear -H. induction H as [|l pl Hl H IH]; [reflexivity|]. destruct l; try contradiction. exact IH. }
      unfold bare in B. rewrite Q in B. inversion B. constructor. }
    destruct N as (N1 & N2 & N3 & N4). repeat split; auto.
  - assert (o = None) as -> by exact (NO _ _ I). apply blocks_entries in Bk as [En _]. destruct (bare_entries _ _ _ En _ B) as (us' & En' & F). exists (u :: us), us', (Catalogue [] [] (c_properties c) (c_language c) (map UOk us')).
    split; [rewrite I; apply app_nil_r|]. inversion F as [|? u' ? us2 Un F2]; subst. destruct N as (N1 & N2 & N3 & N4). split.
    { apply (wh_units lib pf q None u' us2 None); [apply blocks_entries; auto|repeat split; auto|cbn [c_items error_item]; rewrite app_nil_r; reflexivity]. }
    repeat split; auto.
  - assert (o = None) as -> by exact (NO _ _ I). apply blocks_entries in Bk as [En _]. rewrite E in B, FI. apply bare_app in B as (h' & r' & -> & Bh & Br).
    destruct Fe as [En1 Ea|Hl He]; [|exfalso; exact (FI h r u eq_refl Hl He)].
    destruct (bare_entries _ _ _ En _ Br) as (us' & En' & F). destruct (bare_entry _ _ _ En1 _ Bh) as (u' & En1' & Un).
    exists us, us', (Catalogue [] [] (c_properties c) (c_language c) (map UOk us')). split; [rewrite I; apply app_nil_r|]. destruct Sh as (S1 & S2 & S3 & S4). destruct Un as (U1 & U2 & U3 & U4 & U5 & U6 & U7 & U8 & U9 & _). split.
    { apply (wh_header lib pf _ None h' u' ps r' forms us' None); try assumption; [reflexivity|left; [exact En1'|exact (entries_begin _ _ _ _ _ En1' En')]| |apply blocks_entries; auto| |cbn [c_items error_item]; rewrite app_nil_r; reflexivity].
      - destruct H as (t & Et & Hp). exists t. rewrite U2. auto.
      - repeat split; auto. }
    repeat split; auto.
Qed.
Theorem read_bare lib pf evs evs' ls ls' e e' pl pl' tl c : file evs ls e pl tl -> file evs' ls' e' pl' None -> bare pl pl' ->
  read_catalogue lib pf evs = Ok c -> (forall x, ~ In (UErr x) (c_items c)) -> first_has_id pl ->
  exists us us' c', c_items c = map UOk us /\ read_catalogue lib pf evs' = Ok c' /\ c_items c' = map UOk us' /\ Forall2 uncommented us us'
    /\ c_notes c' = [] /\ c_comments c' = [] /\ (forall k, sm_get k (c_properties c') = sm_get k (c_properties c)) /\ c_language c' = c_language c.
Proof.
  intros Fi Fi' B R NE FI. destruct (catalogue_entries lib pf evs ls e pl tl c Fi R NE) as (_ & -> & _).
  assert (whole lib pf pl None (Ok c)) as W by (apply (whole_file lib pf evs ls e pl None _ Fi); rewrite R; apply alike_refl; discriminate).
  destruct (whole_bare lib pf pl c pl' W NE FI B) as (us & us' & c' & I & W' & I' & F & N1 & N2 & N3 & N4).
  apply (whole_file lib pf evs' ls' e' pl' None _ Fi') in W'. inversion W' as [x y A1 A2 A3 A4 A5 Q| |]. subst y. exists us, us', x. split; [exact I|]. split; [reflexivity|].
  repeat split; congruence.
Qed.

(** * The file without its comments exists *)
Lemma same_text_sym l l' : same_text l l' -> same_text l' l.
Proof. intros []; constructor. Qed.
Lemma same_text_trans a b c : same_text a b -> same_text b c -> same_text a c.
Proof. intros [] H; inversion H; constructor. Qed.
Lemma line_of_renumber s n n' l : line_of s n l -> (no_comment l = false \/ l = PBlank) \/ exists l', line_of s n' l' /\ l' <> PBlank /\ same_text l l' /\ no_comment l = true.
Proof.
  intros [B|flags kw q t Q U|flags q t Q U|k c S N].
  - left. right. reflexivity.
  - right. eexists. split; [exact (ln_message s n' flags kw q t Q U)|]. split; [discriminate|]. split; [constructor|reflexivity].
  - right. eexists. split; [exact (ln_cont s n' flags q t Q U)|]. split; [discriminate|]. split; [constructor|reflexivity].
  - left. left. reflexivity.
Qed.
Lemma bare_lines n ls e pl : parsed n ls e pl None -> forall n', exists ls' pl', parsed n' ls' None pl' None /\ bare pl pl' /\ incl ls' ls.
Proof.
  intros P. remember (@None error) as tl eqn:Et. revert Et. induction P as [n|n e|n s ls e O B|n s ls e pl tl O L P IH|n s l ls e pl tl O L NB P IH]; intros Et n'; try discriminate.
  - exists [], []. split; [constructor|]. split; [constructor|intros x []].
  - destruct (IH Et n') as (ls' & pl' & P' & B & I). exists ls', pl'. split; [exact P'|]. split; [exact B|]. intros x Hx. right. exact (I x Hx).
  - destruct (line_of_renumber s n n' l L) as [[C|C]|(l' & L' & NB' & S & C)].
    + destruct (IH Et n') as (ls' & pl' & P' & B & I). exists ls', pl'. split; [exact P'|]. split; [unfold bare; cbn [filter]; rewrite C; exact B|]. intros x Hx. right. exact (I x Hx).
    + contradiction.
    + destruct (IH Et (n' + 1)%N) as (ls' & pl' & P' & B & I). exists (s :: ls'), (l' :: pl'). split; [apply ps_line; assumption|]. split; [unfold bare; cbn [filter]; rewrite C; constructor; assumption|].
      intros x [<-|Hx]; [left; reflexivity|right; exact (I x Hx)].
Qed.
Lemma contents_scalars bs f ls e : contents bs f ls e -> forall s, In s ls -> one_line s /\ scalars s.
Proof.
  induction 1 as [|s N1 O S|l N1 N2|l c N1|s t bs f ls e O S E C IH|l bs f N1 N2]; intros x I; try destruct I; subst; auto. contradiction.
Qed.
Lemma lines_written ls : (forall s, In s ls -> one_line s /\ scalars s) -> exists bs, contents bs None ls None.
Proof.
  induction ls as [|s ls IH]; intros H; [exists []; constructor|]. destruct (IH (fun x I => H x (or_intror I))) as (bs & C). destruct (H s (or_introl eq_refl)) as [O S].
  exists (utf8 s ++ [13; 10]%N ++ bs). apply ct_line; try assumption. constructor.
Qed.
Lemma bare_file evs ls e pl : file evs ls e pl None -> exists evs' ls' pl', file evs' ls' None pl' None /\ bare pl pl'.
Proof.
  intros (bs & f & D & C & P). destruct (bare_lines _ _ _ _ P 1%N) as (ls' & pl' & P' & B & I).
  destruct (lines_written ls') as (bs' & C'); [intros s Hs; exact (contents_scalars _ _ _ _ C s (I s Hs))|].
  exists (match bs' with [] => [] | _ => [RdData bs'] end), ls', pl'. split; [|exact B]. exists bs', None. split; [|auto].
  destruct bs' as [|x bs']; [constructor|]. rewrite <- (app_nil_r (x :: bs')) at 2. apply dl_data; [discriminate|constructor].
Qed.
Theorem comments_only lib pf evs ls e pl tl c evs2 ls2 e2 pl2 tl2 c2 : file evs ls e pl tl -> file evs2 ls2 e2 pl2 tl2 ->
  Forall2 same_text (filter no_comment pl) (filter no_comment pl2) ->
  read_catalogue lib pf evs = Ok c -> (forall x, ~ In (UErr x) (c_items c)) -> first_has_id pl ->
  read_catalogue lib pf evs2 = Ok c2 -> (forall x, ~ In (UErr x) (c_items c2)) -> first_has_id pl2 ->
  exists us us2, c_items c = map UOk us /\ c_items c2 = map UOk us2 /\ Forall2 same_but_comments us us2
    /\ (forall k, sm_get k (c_properties c) = sm_get k (c_properties c2)) /\ c_language c = c_language c2.
Proof.
  intros Fi Fi2 S R NE FI R2 NE2 FI2.
  destruct (catalogue_entries lib pf evs ls e pl tl c Fi R NE) as (_ & -> & _). destruct (catalogue_entries lib pf evs2 ls2 e2 pl2 tl2 c2 Fi2 R2 NE2) as (_ & -> & _).
  destruct (bare_file _ _ _ _ Fi) as (evs' & ls' & pl' & Fi' & B).
  assert (bare pl2 pl') as B2.
  { unfold bare in *. revert S B. generalize (filter no_comment pl), (filter no_comment pl2). clear. intros a b S. revert pl'. induction S as [|x y a b X S IH]; intros q B; inversion B as [|? z ? q' Y Z]; subst; [constructor|].
    constructor; [exact (same_text_trans _ _ _ (same_text_sym _ _ X) Y)|exact (IH _ Z)]. }
  destruct (read_bare lib pf _ _ _ _ _ _ _ _ _ _ Fi Fi' B R NE FI) as (us & us' & c' & I & R' & I' & F & _ & _ & N3 & N4).
  destruct (read_bare lib pf _ _ _ _ _ _ _ _ _ _ Fi2 Fi' B2 R2 NE2 FI2) as (us2 & us2' & c2' & I2 & R2' & I2' & F2 & _ & _ & M3 & M4).
  rewrite R' in R2'. injection R2' as <-. assert (us2' = us') as ->.
  { rewrite I' in I2'. clear -I2'. revert us2' I2'. induction us' as [|u us' IH]; intros [|v us2'] E; try discriminate; [reflexivity|]. injection E as -> E. f_equal. exact (IH _ E). }
  exists us, us2. split; [exact I|]. split; [exact I2|]. split; [|split; [intros k; rewrite <- N3; apply M3|congruence]].
  clear -F F2. revert us2 F2. induction F as [|u u' us us' U F IH]; intros us2 F2; inversion F2 as [|v ? us3 ? V F3]; subst; [constructor|]. constructor; [|exact (IH _ F3)].
  destruct U as (U1 & U2 & U3 & U4 & U5 & _ & _ & _ & _ & _ & U6), V as (V1 & V2 & V3 & V4 & V5 & _ & _ & _ & _ & _ & V6). repeat split; try congruence. intros A A'. rewrite <- (U6 A), <- (V6 A'). reflexivity.
Qed.
