(** The catalogues that can be read are the possible ones (C119). *)
From Coq Require Import String Arith NArith ZArith Bool List Lia.
From Verif Require Import ModelBase ModelLine ModelFormula ModelData ModelUtf8 ModelSource ModelReader
  SpecLine SpecSource SpecReader SpecBlock SpecHeader SpecFile SpecAny SpecWriter SpecPossible
  BaseFacts LineFacts ReaderFacts ReadsFacts CatalogueFacts StreamFacts BlockFacts SoundFacts FileFacts MapFacts HeaderFacts BlockThms HeaderThms WriterFacts WritableFacts AccessFacts PieceFacts AnyFacts.
Import ListNotations.
Local Open Scope N_scope.

Lemma values_app k a b : values_of k (a ++ b) = values_of k a ++ values_of k b.
Proof. unfold values_of. rewrite filter_app, map_app. reflexivity. Qed.
Lemma values_pair k vs : values_of k (map (pair k) vs) = vs.
Proof. unfold values_of. induction vs as [|v vs IH]; [reflexivity|]. cbn. rewrite (proj2 (str_eqb_eq k k) eq_refl). cbn. f_equal. exact IH. Qed.
Lemma values_other j k vs : j <> k -> values_of j (map (pair k) vs) = [].
Proof. intros N. unfold values_of. induction vs as [|v vs IH]; [reflexivity|]. cbn. destruct (str_eqb j k) eqn:E; [apply str_eqb_eq in E; contradiction|exact IH]. Qed.
Lemma sm_get_absent (k : str) (m : list (str * str)) : ~ In k (map fst m) -> sm_get k m = None.
Proof. induction m as [|[j v] m IH]; [reflexivity|]. cbn. intros N. destruct (str_eqb k j) eqn:E; [apply str_eqb_eq in E; subst; exfalso; apply N; left; reflexivity|]. apply IH. intros I. apply N. right. exact I. Qed.
(** Properties written with one line for each piece of a value. *)
Lemma spread_properties props : NoDup (map fst props) -> (forall k v, In (k, v) props -> property_shape k v /\ scalars k /\ scalars v) ->
  exists ps, Forall property_text ps /\ (forall k v, In (k, v) ps -> scalars k /\ scalars v) /\ forall k, property ps k = sm_get k props.
Proof.
  induction props as [|[k v] props IH]; intros ND H.
  - exists []. split; [constructor|]. split; [intros k v []|reflexivity].
  - inversion ND as [|x y Nk ND']; subst. destruct IH as (ps & T & S & P); [exact ND'|intros j w I; apply H; right; exact I|].
    destruct (H k v (or_introl eq_refl)) as (((Kf & Kl) & (Ko & Kc) & vs & NE & -> & V) & Sk & Sv). exists (map (pair k) vs ++ ps). split; [|split].
    + apply Forall_app. split; [|exact T]. apply Forall_forall. intros q I. apply in_map_iff in I as (w & <- & I). rewrite Forall_forall in V. destruct (V w I) as ((A & B) & C). repeat split; assumption.
    + intros j w I. apply in_app_or in I as [I|I]; [|apply S, I]. apply in_map_iff in I as (w' & [= <- <-] & I). split; [exact Sk|]. intros c J. apply Sv. exact (separated_incl 32 vs w' I c J).
    + intros j. unfold property. rewrite values_app. cbn [sm_get]. destruct (str_eqb j k) eqn:E.
      * apply str_eqb_eq in E. subst j. rewrite values_pair. specialize (P k). rewrite (sm_get_absent k props Nk) in P. unfold property in P. destruct (values_of k ps) as [|a b]; [|discriminate P]. rewrite app_nil_r. destruct vs; [contradiction|reflexivity].
      * rewrite values_other; [exact (P j)|]. intros ->. rewrite (proj2 (str_eqb_eq k k) eq_refl) in E. discriminate E.
Qed.
Lemma property_once ps k : NoDup (map fst ps) -> property ps k = sm_get k ps.
Proof.
  intros ND. induction ps as [|[j v] ps IH]; [reflexivity|]. inversion ND as [|x y Nj ND']; subst. specialize (IH ND'). cbn [sm_get]. unfold property in *. change ((j, v) :: ps) with ([(j, v)] ++ ps). rewrite values_app. unfold values_of at 1. cbn [filter map fst snd].
  destruct (str_eqb k j) eqn:E; [|exact IH]. apply str_eqb_eq in E. subst j. rewrite (sm_get_absent k ps Nj) in IH. destruct (values_of k ps); [reflexivity|discriminate IH].
Qed.
Lemma forms_same_properties pf ps ps' forms : (forall k, property ps k = property ps' k) -> header_forms_of pf ps forms -> header_forms_of pf ps' forms.
Proof. intros E H. destruct H as [H|H|def f H N F]; rewrite E in H; [apply hf_absent|apply hf_empty|eapply hf_some]; eassumption. Qed.
Lemma language_same_properties lib ps ps' l : (forall k, property ps k = property ps' k) -> language_of lib ps l -> language_of lib ps' l.
Proof. intros E. unfold language_of. rewrite E. auto. Qed.
(** * Possible catalogues are read from some file *)
Theorem possible_read lib pf c us : possible lib pf c us -> exists evs bs c', delivers evs bs None /\ read_catalogue lib pf evs = Ok c' /\ same_catalogue c c' /\ c_items c' = map UOk us.
Proof.
  intros [HN HC ND HP HL (forms & HF & W)]. destruct (spread_properties _ ND HP) as (ps & T & S & P).
  assert (forall k, property (c_properties c) k = property ps k) as Q by (intros k; rewrite property_once by exact ND; symmetry; apply P).
  destruct (catalogue_has_file (c_notes c) (c_comments c) ps forms us HN HC T S W) as (hls & uls & bs & Wh & Wu & C).
  pose proof (delivers_one bs) as D. destruct (written_file_read lib pf _ _ _ _ _ _ _ _ _ Wh (forms_same_properties _ _ _ _ Q HF) Wu C D) as (c' & R & Ei & En & Ec & Ep & El).
  do 3 eexists. split; [exact D|]. split; [exact R|]. split; [|exact Ei]. repeat split; auto.
  - intros k. rewrite Ep. symmetry. apply P.
  - exact (language_det _ _ _ _ (language_same_properties _ _ _ _ Q HL) El).
Qed.
(** * What is read is possible *)
Lemma header_all_texts u ps h : entry None h u \/ headless None h u -> header u ps -> Forall sane h ->
  (forall n, In n (u_notes u) -> comment_text (note_kind (note_origin n)) (note_value n))
  /\ (forall x, In x (u_comments u) -> ~ In (com_kind x) [44; 58; 46; 32] /\ comment_text (com_kind x) (com_content x))
  /\ Forall property_text ps /\ scalars (header_text ps).
Proof.
  intros En (t & Em & HP) S.
  assert (scalars (opt_str t) /\ (forall n, In n (u_notes u) -> comment_text (note_kind (note_origin n)) (note_value n))
      /\ (forall x, In x (u_comments u) -> ~ In (com_kind x) [44; 58; 46; 32] /\ comment_text (com_kind x) (com_content x))) as (St & A & B).
  { destruct En as [En|En]; [destruct En as [cs F N L C obs ks pc pm x m st Bc K Q]|destruct En as [cs F N L C obs l1 pc l2 pm l3 x l4 t' st Bc H1 H2 H3 H4 H5]].
    - apply Forall_app in S as [S1 S2]. destruct (block_comments_texts _ _ _ _ _ Bc S1) as (_ & _ & A & B). cbn [u_message u_notes u_comments] in *.
      split; [|auto]. destruct K as [l1 pc l2 pm l3 x l4 m H1 H2 H3 H4]. do 3 apply Forall_app in S2 as [_ S2]. subst m. apply (body_text _ _ _ _ H4 S2).
    - apply Forall_app in S as [S1 _]. destruct (block_comments_texts _ _ _ _ _ Bc S1) as (_ & _ & A & B). cbn [u_message u_notes u_comments] in *.
      injection Em as <-. split; [intros y []|auto]. }
  destruct (header_pairs_texts _ _ HP St) as [PT ST]. auto.
Qed.
Lemma header_text_scalars ps k v : scalars (header_text ps) -> In (k, v) ps -> scalars k /\ scalars v.
Proof.
  intros S I. assert (forall c, In c (k ++ lit ": " ++ v ++ [10]) -> scalar c) as Q. { intros c J. apply S. unfold header_text. apply in_flat_map. exists (k, v). split; [exact I|exact J]. }
  split; intros c J; apply Q; apply in_or_app; [left; exact J|right]. apply in_or_app. right. apply in_or_app. left. exact J.
Qed.
Lemma scalars_separated vs : Forall scalars vs -> scalars (separated 32 vs).
Proof.
  induction 1 as [|x [|y vs] H F IH]; [intros c []|exact H|]. change (scalars (x ++ 32 :: separated 32 (y :: vs))). intros c I. apply in_app_or in I as [I|[<-|I]]; [apply H, I|left; lia|apply IH, I].
Qed.
Lemma sm_get_key (k : str) (m : list (str * str)) v : NoDup (map fst m) -> In (k, v) m -> sm_get k m = Some v.
Proof.
  induction m as [|[j w] m IH]; intros ND I; [destruct I|]. inversion ND as [|x y Nj ND']; subst. cbn [sm_get]. destruct I as [[= -> ->]|I]; [rewrite (proj2 (str_eqb_eq k k) eq_refl); reflexivity|].
  destruct (str_eqb k j) eqn:E; [|exact (IH ND' I)]. apply str_eqb_eq in E. subst j. exfalso. apply Nj. apply in_map_iff. exists (k, v). auto.
Qed.
Theorem read_possible lib pf evs c : read_catalogue lib pf evs = Ok c -> possible lib pf c (units (c_items c)).
Proof.
  intros R. destruct (all_calls evs) as (bs & f & rs & P & A & _). destruct (any_stream _ _ _ _ _ _ _ P A R) as (h & forms & bls & rest & E & Pr & F).
  assert (Forall sane (kept rs)) as S by (apply answers_kept in A; rewrite Forall_forall in *; intros l X; apply A, X). rewrite E in S.
  apply Forall_app in S as [S1 S]. apply Forall_app in S as [S2 _]. clear E P A. destruct (properties_shape _ _ _ _ R) as [ND Sh].
  assert (Forall (well_formed forms) (units (c_items c))) as W.
  { clear -F S2. induction F as [|b u bls us U F IH]; [constructor|]. cbn [concat] in S2. apply Forall_app in S2 as [A B]. constructor; [exact (entry_well_formed _ _ _ U A)|apply IH, B]. }
  destruct Pr as [(-> & -> & Hn & Hc & Hp & Hl)|(u & ps & En & H & HF & (Hn & Hc & Hp & Hl))].
  - assert (c_properties c = []) as Hp'. { destruct (c_properties c) as [|[k v] l]; [reflexivity|]. specialize (Hp k). cbn in Hp. rewrite (proj2 (str_eqb_eq k k) eq_refl) in Hp. discriminate Hp. }
    constructor; rewrite ?Hn, ?Hc, ?Hp', ?Hl; [intros n []|intros x []|constructor|intros k v []|reflexivity|]. exists None. split; [apply hf_absent; reflexivity|exact W].
  - destruct (header_all_texts _ _ _ En H S1) as (TN & TC & TP & TS).
    assert (forall k, property ps k = property (c_properties c) k) as Q by (intros k; rewrite (property_once _ k ND); symmetry; apply Hp).
    constructor; rewrite ?Hn, ?Hc; auto.
    + intros k v I. split; [apply Sh, I|]. pose proof (sm_get_key _ _ _ ND I) as G. rewrite Hp in G. unfold property in G.
      assert (Forall scalars (values_of k ps) /\ (values_of k ps <> [] -> scalars k)) as [Vs Vk].
      { unfold values_of. split.
        - apply Forall_forall. intros w J. apply in_map_iff in J as ([j w'] & <- & J). apply filter_In in J as [J _]. exact (proj2 (header_text_scalars _ _ _ TS J)).
        - destruct (filter _ ps) as [|[j w] l] eqn:Fl; [intros []; reflexivity|]. intros _. assert (In (j, w) (filter (fun p => str_eqb k (fst p)) ps)) as J by (rewrite Fl; left; reflexivity). apply filter_In in J as [J K]. cbn in K. apply str_eqb_eq in K. subst j. exact (proj1 (header_text_scalars _ _ _ TS J)). }
      destruct (values_of k ps) as [|w l]; [discriminate G|]. injection G as <-. split; [apply Vk; discriminate|exact (scalars_separated _ Vs)].
    + exact (language_same_properties _ _ _ _ Q Hl).
    + exists forms. split; [exact (forms_same_properties _ _ _ _ Q HF)|exact W].
Qed.
