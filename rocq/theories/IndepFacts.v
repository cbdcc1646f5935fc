(** Entries are independent of each other and of their place in the file. *)
From Coq Require Import String Arith NArith ZArith Bool List Lia Permutation.
From Verif Require Import ModelBase ModelUtf8 ModelLine ModelFormula ModelData ModelSource ModelReader
  SpecLine SpecFormula SpecSource SpecReader SpecBlock SpecHeader SpecFile BaseFacts LineFacts LineThms StreamThms SourceFacts
  BlockFacts UnitFacts BlocksFacts FileFacts BlockThms EntryThms WriterFacts.
Import ListNotations.
Local Open Scope N_scope.

Notation alike := (Forall2 (line_sim (fun _ _ => True))).
Lemma strings_alike p a t : strings p a t -> forall b, alike a b -> strings p b t.
Proof. induction 1; intros b H'; inversion H'; subst; [constructor|]. match goal with H : line_sim _ (PCont _ _ _) _ |- _ => inversion H; subst end. constructor. auto. Qed.
Lemma field_alike p kw a t : field p kw a t -> forall b, alike a b -> field p kw b t.
Proof.
  intros [n s ls x S] b H. inversion H as [|? l' ? b' Hl Ht]; subst. inversion Hl; subst. constructor. eapply strings_alike; eassumption.
Qed.
Lemma opt_field_alike p kw a t : opt_field p kw a t -> forall b, alike a b -> opt_field p kw b t.
Proof. intros [|ls s F] b H; [inversion H; subst; constructor|constructor; eapply field_alike; eassumption]. Qed.
Lemma values_alike p count i a vs : values p count i a vs -> forall b, alike a b -> values p count i b vs.
Proof.
  induction 1 as [i|i k kw ls s ls' vs I K M F V IH]; intros b H; [inversion H; subst; constructor|].
  apply Forall2_app_inv_l in H as (b1 & b2 & H1 & H2 & ->). econstructor; eauto. eapply field_alike; eassumption.
Qed.
Ltac cut H := apply Forall2_app_inv_l in H as (?b & ?b & ?H & ?H & ->).
Lemma body_alike forms obs a m : body forms obs a m -> forall b, alike a b -> body forms obs b m.
Proof.
  intros [l1 id l2 t F1 F2|l1 id l2 pl l3 vs F1 F2 V NE] b H.
  - apply Forall2_app_inv_l in H as (b1 & b2 & H1 & H2 & ->). constructor; eapply field_alike; eassumption.
  - apply Forall2_app_inv_l in H as (b1 & b2 & H1 & H2 & ->). apply Forall2_app_inv_l in H2 as (b2' & b3 & H2 & H3 & ->).
    constructor; try (eapply field_alike; eassumption); [eapply values_alike; eassumption|exact NE].
Qed.
Lemma previous_alike forms obs a m : previous forms obs a m -> forall b, alike a b -> previous forms obs b m.
Proof.
  intros [|l id F1|l1 id l2 pl F1 F2] b H.
  - inversion H; subst. constructor.
  - constructor. eapply field_alike; eassumption.
  - apply Forall2_app_inv_l in H as (b1 & b2 & H1 & H2 & ->). constructor; eapply field_alike; eassumption.
Qed.
Lemma comments_alike a F N L C : block_comments a F N L C -> forall b, alike a b -> block_comments b F N L C.
Proof.
  induction 1; intros b H'; inversion H' as [|? l' ? b' Hl Ht]; subst; try (inversion Hl; subst); try (econstructor; eauto; fail).
Qed.
Theorem entry_alike forms a u : entry forms a u -> forall b, alike a b -> entry forms b u.
Proof.
  intros [cs F N L C obs ks pc pm c m st B K St] b H. apply Forall2_app_inv_l in H as (b1 & b2 & H1 & H2 & ->).
  apply (en_intro forms b1 F N L C obs b2 pc pm c m st); [eapply comments_alike; eassumption| |exact St].
  destruct K as [l1 pc' l2 pm' l3 c' l4 m' K1 K2 K3 K4]. apply Forall2_app_inv_l in H2 as (k1 & r1 & G1 & H2 & ->).
  apply Forall2_app_inv_l in H2 as (k2 & r2 & G2 & H2 & ->). apply Forall2_app_inv_l in H2 as (k3 & k4 & G3 & G4 & ->).
  constructor; [eapply opt_field_alike; eassumption|eapply previous_alike; eassumption|eapply opt_field_alike; eassumption|eapply body_alike; eassumption].
Qed.
Lemma unit_entry_alike forms a u b : unit_entry forms a u -> alike a b -> unit_entry forms b u.
Proof. intros [E S] H. split; [eapply entry_alike; eassumption|exact S]. Qed.

Theorem parsed_anywhere ls : plain ls -> forall n pl, parsed n ls None pl None -> forall m, exists pl', parsed m ls None pl' None /\ alike pl pl'.
Proof.
  induction ls as [|s ls IH]; intros P n pl H m; [inversion H; subst; exists []; split; constructor|].
  apply plain_cons in P as [O P]. pose proof (parse_line_renumber s n m O) as R.
  inversion H as [| | |? ? ? ? ? ? O' E Ht|? ? l ? ? pl0 ? O' E NB Ht]; subst; apply line_of_iff in E; try exact O; rewrite E in R.
  - destruct (parse_line s m) as [[]|] eqn:E'; try contradiction. destruct (IH P _ _ Ht (m + 1)) as (pl' & Q & A). exists pl'. split; [apply ps_blank; [exact O|apply line_of_iff; assumption|assumption]|exact A].
  - destruct (IH P _ _ Ht (m + 1)) as (pl' & Q & A).
    destruct l as [|a k t|a p k t|a p t], (parse_line s m) as [[|a' k' t'|a' p' k' t'|a' p' t']|] eqn:E'; try contradiction.
    all: decompose [and] R; subst; eexists; split; [eapply ps_line; [exact O|apply line_of_iff; [exact O|exact E']|discriminate|exact Q]|constructor; [constructor; exact Logic.I|exact A]].
Qed.
Lemma line_of_det s n l l' : one_line s -> line_of s n l -> line_of s n l' -> l = l'.
Proof. intros O A B. apply line_of_iff in A, B; try exact O. congruence. Qed.
Lemma parsed_det n ls e pl tl : parsed n ls e pl tl -> forall pl' tl', parsed n ls e pl' tl' -> pl' = pl /\ tl' = tl.
Proof.
  induction 1 as [n|n e|n s ls e O E|n s ls e pl tl O E H IH|n s l ls e pl tl O E NB H IH]; intros pl' tl' Q; inversion Q; subst; auto.
  all: try match goal with X : line_of ?s ?n _, Y : forall l, ~ line_of ?s ?n l |- _ => destruct (Y _ X) end.
  all: try match goal with X : line_of ?s ?n ?a, Y : line_of ?s ?n ?b, O : one_line ?s |- _ => pose proof (line_of_det s n a b O X Y); subst; try contradiction end.
  match goal with X : parsed (n + 1) _ _ pl0 _ |- _ => destruct (IH _ _ X) as [-> ->]; auto end.
Qed.
(** The lines of an entry determine its content. *)
Theorem entry_unique forms b u u' : entry forms b u -> entry forms b u' -> u = u'.
Proof.
  intros E E'. pose proof (runit_first_entry forms b u [] None E eq_refl) as A. pose proof (runit_first_entry forms b u' [] None E' eq_refl) as B. congruence.
Qed.
Theorem entry_text_unique forms ls u u' : entry_text forms ls u -> entry_text forms ls u' -> u = u'.
Proof.
  intros (b & P & E & _) (b' & P' & E' & _). destruct (parsed_det _ _ _ _ _ P _ _ P') as [-> _]. eapply entry_unique; eassumption.
Qed.

Lemma texts_read forms blks us : Forall2 (entry_text forms) blks us -> plain (concat blks) -> forall n,
  exists bls, rd n (concat blks) (concat bls) /\ Forall2 (unit_entry forms) bls us.
Proof.
  induction 1 as [|blk u blks us (b & R & U) H IH]; intros P n.
  - exists []. split; constructor.
  - cbn [concat] in *. apply plain_app in P as [P1 P2]. destruct (parsed_anywhere blk P1 1 b R n) as (b' & R' & A).
    destruct (IH P2 (n + N.of_nat (length blk))) as (bls & R2 & F). exists (b' :: bls). split; [apply rd_app; assumption|].
    constructor; [eapply unit_entry_alike; eassumption|exact F].
Qed.
Theorem entries_independent lib pf hls v ps forms blks us bs evs : heading_text pf hls v ps forms -> Forall2 (entry_text forms) blks us ->
  contents bs None (hls ++ concat blks) None -> delivers evs bs None ->
  exists c, read_catalogue lib pf evs = Ok c /\ header_shown lib v ps c /\ c_items c = map UOk us.
Proof.
  intros (h & R & E & H & HF) F Ct D. pose proof (contents_one_line _ _ _ _ Ct) as P. apply plain_app in P as [Ph Pu].
  destruct (texts_read _ _ _ F Pu (1 + N.of_nat (length hls))) as (bls & R' & F').
  assert (file evs (hls ++ concat blks) None (h ++ concat bls) None) as Fi by (exists bs, None; split; [exact D|]; split; [exact Ct|]; apply rd_app; assumption).
  pose proof (entries_ends None forms h v _ us E (entries_only _ _ _ F')) as Ea.
  destruct (read_header lib pf evs _ _ _ _ h v ps (concat bls) forms us None Fi eq_refl (fe_entry _ _ _ _ E Ea) H HF) as (c & Rc & Hs & Ei).
  { apply blocks_entries. split; [apply entries_only, F'|reflexivity]. }
  exists c. rewrite app_nil_r in Ei. auto.
Qed.
Theorem entries_independent_plain lib pf blk u blks us bs evs : entry_text None blk u -> Forall2 (entry_text None) blks us ->
  contents bs None (blk ++ concat blks) None -> delivers evs bs None ->
  read_catalogue lib pf evs = Ok (Catalogue [] [] [] (lang_invariant lib) (map UOk (u :: us))).
Proof.
  intros E F Ct D. destruct (texts_read None (blk :: blks) (u :: us)) with (n := 1) as (bls & R & F'); [constructor; assumption|exact (contents_one_line _ _ _ _ Ct)|].
  assert (file evs (blk ++ concat blks) None (concat bls) None) as Fi by (exists bs, None; auto).
  rewrite (read_plain lib pf evs _ _ _ _ u us None Fi); [cbn [error_item]; rewrite app_nil_r; reflexivity|].
  apply blocks_entries. split; [apply entries_only, F'|reflexivity].
Qed.
Lemma permuted {A B} (R : A -> B -> Prop) l l' : Permutation l l' -> forall m, Forall2 R l m -> exists m', Forall2 R l' m' /\ Permutation m m'.
Proof.
  induction 1 as [|x l l' P IH|x y l|l l' l'' P IH P' IH']; intros m F.
  - inversion F; subst. exists []. split; constructor.
  - inversion F as [|? b ? m0 Rx Ft]; subst. destruct (IH _ Ft) as (m' & F' & Q). exists (b :: m'). split; constructor; assumption.
  - inversion F as [|? b ? m0 Rx Ft]; subst. inversion Ft as [|? b' ? m1 Rx' Ft']; subst. exists (b' :: b :: m1). split; [repeat constructor; assumption|constructor].
  - destruct (IH _ F) as (m' & F' & Q). destruct (IH' _ F') as (m'' & F'' & Q'). exists m''. split; [exact F''|etransitivity; eassumption].
Qed.
(** Entries in another order. *)
Theorem entries_permuted lib pf hls v ps forms blks blks' us bs bs' evs evs' : heading_text pf hls v ps forms -> Forall2 (entry_text forms) blks us ->
  Permutation blks blks' -> contents bs None (hls ++ concat blks) None -> delivers evs bs None ->
  contents bs' None (hls ++ concat blks') None -> delivers evs' bs' None ->
  exists c c', read_catalogue lib pf evs = Ok c /\ read_catalogue lib pf evs' = Ok c' /\ Permutation (c_items c) (c_items c').
Proof.
  intros H F P Ct D Ct' D'. destruct (permuted _ _ _ P _ F) as (us' & F' & Q).
  destruct (entries_independent lib pf hls v ps forms blks us bs evs H F Ct D) as (c & R & _ & E).
  destruct (entries_independent lib pf hls v ps forms blks' us' bs' evs' H F' Ct' D') as (c' & R' & _ & E').
  exists c, c'. split; [exact R|]. split; [exact R'|]. rewrite E, E'. apply Permutation_map, Q.
Qed.
(** The header matters only by the plural forms it defines. *)
Theorem header_matters_by_forms lib pf hls hls' v v' ps ps' forms blks us bs bs' evs evs' :
  heading_text pf hls v ps forms -> heading_text pf hls' v' ps' forms -> Forall2 (entry_text forms) blks us ->
  contents bs None (hls ++ concat blks) None -> delivers evs bs None ->
  contents bs' None (hls' ++ concat blks) None -> delivers evs' bs' None ->
  exists c c', read_catalogue lib pf evs = Ok c /\ read_catalogue lib pf evs' = Ok c' /\ c_items c = c_items c'.
Proof.
  intros H H' F Ct D Ct' D'.
  destruct (entries_independent lib pf hls v ps forms blks us bs evs H F Ct D) as (c & R & _ & E).
  destruct (entries_independent lib pf hls' v' ps' forms blks us bs' evs' H' F Ct' D') as (c' & R' & _ & E').
  exists c, c'. split; [exact R|]. split; [exact R'|]. congruence.
Qed.

(** * Examples *)
From Verif Require Import FileIntro.
Lemma okb_lines ls : forallb line_okb ls = true -> forall s, In s ls -> one_line s.
Proof. intros H s I. rewrite forallb_forall in H. apply line_okb_text, H, I. Qed.
Lemma simple_text forms s t ls : forallb line_okb ls = true -> fst (parse_lines 1 ls) = simple_block 1 2 s t -> snd (parse_lines 1 ls) = None -> s <> [] -> entry_text forms ls (simple_unit s t).
Proof.
  intros O E N S. exists (simple_block 1 2 s t). split.
  - pose proof (parse_lines_spec ls (okb_lines ls O) 1) as P. rewrite E, N in P. exact P.
  - split; [apply simple_entry|]. intros x H. cbn in H. injection H as -> _. congruence.
Qed.
Lemma empty_heading pf : heading_text pf [lit "msgid """""; lit "msgstr """""] (simple_unit [] []) [] None.
Proof.
  exists (simple_block 1 2 [] []). split; [exact (parse_lines_spec [lit "msgid """""; lit "msgstr """""] (okb_lines [lit "msgid """""; lit "msgstr """""] eq_refl) 1)|]. split; [apply simple_entry|].
  split; [|apply hf_absent; reflexivity]. exists None. split; [reflexivity|]. exists [[]]. split; [discriminate|]. split; [reflexivity|].
  split; [intros l [<-|[]] I; exact I|]. repeat constructor. intros [].
Qed.
