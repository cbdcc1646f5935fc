(** The parts of an entry are read independently of each other. *)
From Coq Require Import String Arith NArith ZArith Bool List Lia.
From Verif Require Import ModelBase ModelUtf8 ModelLine ModelFormula ModelData ModelSource ModelReader
  SpecLine SpecFormula SpecSource SpecReader SpecBlock SpecHeader SpecFile SpecSections BaseFacts LineFacts LineThms StreamThms SourceFacts
  CommentFacts BlockFacts UnitFacts BlocksFacts FileFacts BlockThms EntryThms WriterFacts IndepFacts FirstFacts JoinFacts ExtractedFacts FileIntro.
Import ListNotations.
Local Open Scope N_scope.

Lemma rd_plain n ls pl : rd n ls pl -> plain ls.
Proof.
  intros H. unfold rd in H. remember None as e eqn:Ee in H at 1. remember None as tl eqn:Et in H.
  induction H as [n|n e|n s ls e O B|n s ls e pl tl O L H IH|n s l ls e pl tl O L Nb H IH]; try discriminate; [intros s []|..]; apply plain_cons; auto.
Qed.
Lemma alike_sym a b : alike a b -> alike b a.
Proof. induction 1 as [|x y a b H F IH]; [constructor|]. constructor; [|exact IH]. destruct H; constructor; exact Logic.I. Qed.
(** Lines read in another place. *)
Lemma rd_at ls n pl m : rd n ls pl -> exists pl', rd m ls pl' /\ alike pl pl'.
Proof. intros H. exact (parsed_anywhere ls (rd_plain _ _ _ H) n pl H m). Qed.
Lemma rd_join a b p q n : rd 1 a p -> rd 1 b q -> exists p' q', rd n (a ++ b) (p' ++ q') /\ alike p p' /\ alike q q'.
Proof.
  intros A B. destruct (rd_at _ _ _ n A) as (p' & A' & Sa). destruct (rd_at _ _ _ (n + N.of_nat (length a)) B) as (q' & B' & Sb).
  exists p', q'. split; [apply rd_app; assumption|auto].
Qed.
Lemma rd_cut ls p q : rd 1 ls (p ++ q) -> exists a b q', ls = a ++ b /\ rd 1 a p /\ rd 1 b q' /\ alike q q'.
Proof.
  intros H. destruct (parsed_split _ _ _ _ _ H p q eq_refl) as (a & b & -> & A & B). destruct (rd_at _ _ _ 1 B) as (q' & B' & S). exists a, b, q'. auto.
Qed.
(** Text lines cut in two: so are the parsed lines. *)
Lemma rd_app_inv a : forall n b pl, rd n (a ++ b) pl -> exists p q, pl = p ++ q /\ rd n a p /\ rd (n + N.of_nat (length a)) b q.
Proof.
  induction a as [|s a IH]; intros n b pl H.
  - exists [], pl. split; [reflexivity|]. split; [apply rd_nil|]. cbn [length]. rewrite N.add_0_r. exact H.
  - cbn [app] in H. cbn [length]. rewrite Nat2N.inj_succ. replace (n + N.succ (N.of_nat (length a))) with (n + 1 + N.of_nat (length a)) by lia.
    inversion H as [| | |? ? ? ? ? ? O E Ht|? ? l ? ? pl0 ? O E NB Ht]; subst; destruct (IH _ _ _ Ht) as (p & q & -> & A & B).
    + exists p, q. split; [reflexivity|]. split; [apply ps_blank; assumption|exact B].
    + exists (l :: p), q. split; [reflexivity|]. split; [apply ps_line; assumption|exact B].
Qed.

(** * The parts of an entry *)
Theorem entry_sections forms ls u : entry_text forms ls u <-> sections forms ls u.
Proof.
  split.
  - intros (b & R & E & S). destruct E as [cs F N L C obs ks pc pm c m st B K St]. destruct K as [l1 pc l2 pm l3 c l4 m K1 K2 K3 K4].
    destruct (rd_cut _ _ _ R) as (A & r1 & q1 & -> & RA & R1 & S1). rewrite (app_assoc l1 l2) in S1. apply Forall2_app_inv_l in S1 as (k12 & k34 & S12 & S34 & ->).
    apply Forall2_app_inv_l in S12 as (k1 & k2 & S1 & S2 & ->). destruct (rd_cut _ _ _ R1) as (P & r2 & q2 & -> & RP & R2 & S5).
    apply Forall2_app_inv_l in S34 as (k3 & k4 & S3 & S4 & ->). apply Forall2_app_inv_l in S5 as (j3 & j4 & T3 & T4 & ->).
    destruct (rd_cut _ _ _ R2) as (X & M & q3 & -> & RX & RM & T5).
    apply (sc_intro forms A P X M F N L C obs pc pm c m st); [exists cs; auto| | | |exact St|exact S].
    + exists k1, k2. split; [exact RP|]. split; [eapply opt_field_alike; eassumption|eapply previous_alike; eassumption].
    + exists j3. split; [exact RX|]. eapply opt_field_alike; [eapply opt_field_alike; eassumption|eassumption].
    + exists q3. split; [exact RM|]. eapply body_alike; [eapply body_alike; [eapply body_alike; eassumption|eassumption]|exact T5].
  - intros [A P X M F N L C obs pc pm c m st (ba & RA & B) (b1 & b2 & RP & K1 & K2) (b3 & RX & K3) (b4 & RM & K4) St S].
    destruct (rd_join _ _ _ _ 1 RX RM) as (c3 & c4 & RXM & S3 & S4). destruct (rd_join _ _ _ _ 1 RP RXM) as (c12 & c34 & RR & S12 & S34).
    destruct (rd_join _ _ _ _ 1 RA RR) as (ca & cr & RT & Sa & Sr).
    apply Forall2_app_inv_l in S12 as (c1 & c2 & S1 & S2 & ->). apply Forall2_app_inv_l in S34 as (d3 & d4 & T3 & T4 & ->).
    apply Forall2_app_inv_l in Sr as (e12 & e34 & E12 & E34 & ->). apply Forall2_app_inv_l in E12 as (e1 & e2 & E1 & E2 & ->). apply Forall2_app_inv_l in E34 as (e3 & e4 & E3 & E4 & ->).
    exists (ca ++ (e1 ++ e2) ++ e3 ++ e4). split; [exact RT|]. split; [|exact S]. rewrite <- app_assoc. apply en_intro; [eapply comments_alike; eassumption| |exact St].
    constructor; [eapply opt_field_alike; [eapply opt_field_alike; eassumption|eassumption]|eapply previous_alike; [eapply previous_alike; eassumption|eassumption]| |].
    + eapply opt_field_alike; [eapply opt_field_alike; [eapply opt_field_alike; eassumption|eassumption]|eassumption].
    + eapply body_alike; [eapply body_alike; [eapply body_alike; eassumption|eassumption]|eassumption].
Qed.
Lemma all_sections forms blks us : Forall2 (sections forms) blks us -> Forall2 (entry_text forms) blks us.
Proof. induction 1; constructor; [apply entry_sections|]; assumption. Qed.
Theorem catalogue_sections lib pf hls v ps forms blks us bs evs : heading_text pf hls v ps forms -> Forall2 (sections forms) blks us ->
  contents bs None (hls ++ concat blks) None -> delivers evs bs None ->
  exists c, read_catalogue lib pf evs = Ok c /\ header_shown lib v ps c /\ c_items c = map UOk us.
Proof. intros H F. eapply entries_independent; [exact H|apply all_sections, F]. Qed.

(** * Other comments *)
Lemma comments_app a F N L C : block_comments a F N L C -> forall b F' N' L' C', block_comments b F' N' L' C' ->
  block_comments (a ++ b) (F ++ F') (N ++ N') (L ++ L') (C ++ C').
Proof. induction 1; intros; cbn [app]; rewrite <- ?app_assoc; try (econstructor; eauto; fail). assumption. Qed.
Lemma comments_app_inv a : forall b F N L C, block_comments (a ++ b) F N L C -> exists F1 F2 N1 N2 L1 L2 C1 C2,
  block_comments a F1 N1 L1 C1 /\ block_comments b F2 N2 L2 C2 /\ F = F1 ++ F2 /\ N = N1 ++ N2 /\ L = L1 ++ L2 /\ C = C1 ++ C2.
Proof.
  induction a as [|l a IH]; intros b F N L C H.
  - exists [], F, [], N, [], L, [], C. repeat split; [constructor|exact H].
  - cbn [app] in H. inversion H; subst; match goal with X : block_comments (a ++ b) _ _ _ _ |- _ => apply IH in X as (F1 & F2 & N1 & N2 & L1 & L2 & C1 & C2 & A & B & -> & -> & -> & ->) end.
    all: do 8 eexists; split; [econstructor; eassumption|]; split; [exact B|]; repeat split; rewrite <- ?app_assoc; reflexivity.
Qed.
Lemma state_flags F F' m st : (In (lit "fuzzy") F <-> In (lit "fuzzy") F') -> state_of F m st -> state_of F' m st.
Proof. intros E [H|t H I T|H I]; [apply so_fuzzy|eapply so_final|apply so_empty]; try eassumption; rewrite <- E; assumption. Qed.
Lemma comments_within cs ks p q : cs ++ ks = p ++ q -> Forall is_comment p -> (forall l ks', ks = l :: ks' -> ~ is_comment l) -> ks <> [] ->
  exists z, cs = p ++ z /\ q = z ++ ks.
Proof.
  intros E P K NE. apply app_eq_app in E as (z & [[-> ->]|[-> E]]); [exists z; auto|].
  destruct z as [|l z]; [rewrite app_nil_r in *; exists []; rewrite app_nil_r; cbn in E; subst; auto|].
  exfalso. apply Forall_app in P as [_ P]. inversion P; subst. eapply (K l); [reflexivity|assumption].
Qed.
Theorem comments_added forms A S B u F N L C : (exists F N L C, comment_part A F N L C) -> comment_part S F N L C -> entry_text forms (A ++ B) u ->
  exists u', entry_text forms (A ++ S ++ B) u' /\ commented_unit u F N L C u'.
Proof.
  intros (F0 & N0 & L0 & C0 & ba & RA & BA) (bs & RS & BS) (b & R & E & Sr).
  destruct (rd_app_inv _ _ _ _ R) as (p & q & -> & RA' & RB). destruct (parsed_det _ _ _ _ _ RA' _ _ RA) as [-> _].
  remember (p ++ q) as b eqn:Eb. destruct E as [cs F1 N1 L1 C1 obs ks pc pm c m st B1 K St].
  destruct (keywords_first _ _ _ _ _ _ _ K) as (kn & kp & kt & kx & ks' & Ek).
  destruct (comments_within cs ks p q Eb (block_comments_comment _ _ _ _ _ BA)) as (z & -> & ->).
  { intros l y Ey (n0 & k0 & s0 & ->). congruence. }
  { congruence. }
  destruct (comments_app_inv _ _ _ _ _ _ B1) as (Fa & Fz & Na & Nz & La & Lz & Ca & Cz & Ba & Bz & -> & -> & -> & ->).
  destruct (rd_at _ _ _ (1 + N.of_nat (length A)) RS) as (bs' & RS' & Ss).
  destruct (rd_at _ _ _ (1 + N.of_nat (length A) + N.of_nat (length S)) RB) as (zk & RB' & Szk). apply Forall2_app_inv_l in Szk as (z' & ks2 & Sz & Sk & ->).
  pose proof (comments_app _ _ _ _ _ Ba _ _ _ _ _ (comments_app _ _ _ _ _ (comments_alike _ _ _ _ _ BS _ Ss) _ _ _ _ _ (comments_alike _ _ _ _ _ Bz _ Sz))) as BB.
  assert (exists st', state_of (Fa ++ F ++ Fz) m st') as (st' & St') by (eexists; apply state_of_iff; reflexivity).
  assert (keywords forms obs ks2 pc pm c m) as K'.
  { destruct K as [l1 pc' l2 pm' l3 c' l4 m' K1 K2 K3 K4]. apply Forall2_app_inv_l in Sk as (k1 & r1 & G1 & H2 & ->).
    apply Forall2_app_inv_l in H2 as (k2 & r2 & G2 & H2 & ->). apply Forall2_app_inv_l in H2 as (k3 & k4 & G3 & G4 & ->).
    constructor; [eapply opt_field_alike; eassumption|eapply previous_alike; eassumption|eapply opt_field_alike; eassumption|eapply body_alike; eassumption]. }
  exists (Unit c m pc pm (distinct (Fa ++ F ++ Fz)) (Na ++ N ++ Nz) (La ++ L ++ Lz) (Ca ++ C ++ Cz) st' obs). split.
  - exists ((p ++ bs' ++ z') ++ ks2). split.
    + replace ((p ++ bs' ++ z') ++ ks2) with (p ++ bs' ++ z' ++ ks2) by (rewrite <- !app_assoc; reflexivity).
      apply rd_app; [exact RA'|]. apply rd_app; [exact RS'|exact RB'].
    + split; [apply en_intro; assumption|exact Sr].
  - unfold commented_unit. cbn. do 4 (split; [reflexivity|]). split.
    { intros f. rewrite !distinct_in, !in_app_iff. tauto. }
    do 3 (split; [do 2 eexists; split; reflexivity|]). split; [|split; [|reflexivity]].
    + intros I. apply (f_equal (fun x => x)). inversion St'; subst; [reflexivity|..]; match goal with X : ~ In _ (_ ++ _) |- _ => destruct X; rewrite !in_app_iff; auto end.
    + intros NI. apply (state_flags _ (Fa ++ Fz)) in St'; [|rewrite !in_app_iff; tauto].
      apply state_of_iff in St. apply state_of_iff in St'. congruence.
Qed.
Lemma fuzzy_part : comment_part [lit "#, fuzzy"] [lit "fuzzy"] [] [] [].
Proof.
  exists [PComment 1 44 (lit "fuzzy")]. split.
  - exact (parse_lines_spec [lit "#, fuzzy"] (okb_lines [lit "#, fuzzy"] eq_refl) 1).
  - apply (bc_flags 1 (lit "fuzzy") [lit "fuzzy"] [] [] [] [] []); [|constructor]. exists [lit "fuzzy"]. split; [discriminate|]. split; [reflexivity|]. split.
    + intros p [<-|[]] I. cbn in I. intuition discriminate.
    + apply Forall2_cons; [|constructor]. exists [], []. split; [reflexivity|]. split; [intros c []|]. split; [intros c []|]. split.
      * intros c r E W. injection E as <- _. apply is_ws_white in W. discriminate W.
      * intros c r E W. assert (c = 121) as -> by (apply (f_equal (fun z => last z 0)) in E; rewrite last_last in E; symmetry; exact E). apply is_ws_white in W. discriminate W.
Qed.

(** * Another message *)
Lemma body_first forms obs l m : body forms obs l m -> exists n s r, l = PMessage n (own obs) (lit "msgid") s :: r.
Proof. intros [l1 id l2 t [n s ls x S] F2|l1 id l2 pl l3 vs [n s ls x S] F2 V NE]; cbn [app]; destruct obs; do 3 eexists; reflexivity. Qed.
Lemma body_suffix forms forms' obs obs' l m l' m' x y : body forms obs l m -> body forms' obs' l' m' -> x ++ l = y ++ l' -> x = y /\ l = l' /\ obs = obs'.
Proof.
  intros B B' E. pose proof (body_first _ _ _ _ B) as (n & s & r & El). pose proof (body_first _ _ _ _ B') as (n' & s' & r' & El').
  pose proof (body_msgid _ _ _ _ B) as M. pose proof (body_msgid _ _ _ _ B') as M'.
  apply app_eq_app in E as (z & [[-> E]|[-> E]]).
  - destruct z as [|k z]; [cbn in E; subst l'; rewrite app_nil_r; rewrite El in El'; repeat split; injection El' as _ O _ _; destruct obs, obs'; try reflexivity; discriminate|].
    exfalso. rewrite E in M', El'. cbn [app] in M', El'. injection El' as -> _.
    change (msgid_lines (PMessage n' (own obs') (lit "msgid") s' :: z ++ l)) with (Datatypes.S (msgid_lines (z ++ l))) in M'. rewrite msgid_lines_app in M'. lia.
  - destruct z as [|k z]; [cbn in E; subst l; rewrite app_nil_r; rewrite El in El'; repeat split; injection El' as _ O _ _; destruct obs, obs'; try reflexivity; discriminate|].
    exfalso. rewrite E in M, El. cbn [app] in M, El. injection El as -> _.
    change (msgid_lines (PMessage n (own obs) (lit "msgid") s :: z ++ l')) with (Datatypes.S (msgid_lines (z ++ l'))) in M. rewrite msgid_lines_app in M. lia.
Qed.
Theorem message_replaced forms B M M' u obs m m' st : message_part forms obs M m -> message_part forms obs M' m' -> entry_text forms (B ++ M) u ->
  (forall t, m' <> MSimple [] t) -> state_of (u_flags u) m' st -> entry_text forms (B ++ M') (reworded u m' st).
Proof.
  intros (bm & RM & BM) (bm' & RM' & BM') (b & R & E & Sr) H St.
  destruct (rd_app_inv _ _ _ _ R) as (p & q & Eb & RB & RQ). destruct (rd_at _ _ _ 1 RQ) as (q1 & RQ1 & Sq). destruct (parsed_det _ _ _ _ _ RQ1 _ _ RM) as [-> _].
  pose proof (body_alike _ _ _ _ BM _ (alike_sym _ _ Sq)) as BQ. destruct (rd_at _ _ _ (1 + N.of_nat (length B)) RM') as (q' & RQ' & Sq').
  pose proof (body_alike _ _ _ _ BM' _ Sq') as BQ'. destruct E as [cs F N L C o ks pc pm c m0 st0 B1 K St0].
  destruct K as [l1 pc l2 pm l3 c l4 m0 K1 K2 K3 K4].
  destruct (body_suffix _ _ _ _ _ _ _ _ (cs ++ l1 ++ l2 ++ l3) p K4 BQ) as (<- & <- & ->); [rewrite <- Eb, <- !app_assoc; reflexivity|].
  exists ((cs ++ l1 ++ l2 ++ l3) ++ q'). split; [apply rd_app; assumption|]. split; [|intros t; exact (H t)].
  rewrite <- !app_assoc. unfold reworded. cbn. apply en_intro; [exact B1|constructor; assumption|].
  eapply state_flags; [|exact St]. cbn. apply distinct_in.
Qed.
Lemma simple_part forms obs I S id t : string_part obs (lit "msgid") I id -> string_part obs (lit "msgstr") S t -> message_part forms obs (I ++ S) (MSimple id (some_text t)).
Proof.
  intros (b1 & R1 & F1) (b2 & R2 & F2). destruct (rd_join _ _ _ _ 1 R1 R2) as (c1 & c2 & R & S1 & S2). exists (c1 ++ c2). split; [exact R|].
  constructor; eapply field_alike; eassumption.
Qed.
Theorem translation_replaced forms B I S S' u obs id t t' : string_part obs (lit "msgid") I id -> id <> [] -> string_part obs (lit "msgstr") S t -> string_part obs (lit "msgstr") S' t' ->
  entry_text forms (B ++ I ++ S) u ->
  let st := if existsb (str_eqb (lit "fuzzy")) (u_flags u) then StNeedsWork else match t' with [] => StEmpty | _ => StFinal end in
  entry_text forms (B ++ I ++ S') (reworded u (MSimple id (some_text t')) st).
Proof.
  intros PI NE PS PS' E st. eapply message_replaced; [exact (simple_part forms _ _ _ _ _ PI PS)|exact (simple_part forms _ _ _ _ _ PI PS')|exact E|intros x [= -> _]; auto|].
  unfold st. destruct (existsb _ _) eqn:Ex.
  - apply existsb_exists in Ex as (f & I0 & Ef). apply str_eqb_eq in Ef. subst f. apply so_fuzzy, I0.
  - assert (~ In (lit "fuzzy") (u_flags u)) as NI.
    { intros I0. apply Bool.not_true_iff_false in Ex. apply Ex, existsb_exists. exists (lit "fuzzy"). split; [exact I0|apply str_eqb_eq; reflexivity]. }
    destruct t' as [|x t']; cbn.
    + apply so_empty; [exact NI|]. intros y [].
    + eapply so_final; [exact NI|left; reflexivity|discriminate].
Qed.

(** * In files *)
Lemma one_changed lib pf hls v ps forms blks1 blk blks2 us1 u us2 bs evs : heading_text pf hls v ps forms -> Forall2 (entry_text forms) blks1 us1 ->
  entry_text forms blk u -> Forall2 (entry_text forms) blks2 us2 ->
  contents bs None (hls ++ concat blks1 ++ blk ++ concat blks2) None -> delivers evs bs None ->
  exists c, read_catalogue lib pf evs = Ok c /\ header_shown lib v ps c /\ c_items c = map UOk (us1 ++ u :: us2).
Proof.
  intros H F1 E F2 Ct D. eapply entries_independent; [exact H|exact (Forall2_app F1 (Forall2_cons _ _ E F2))| |exact D].
  rewrite concat_app. exact Ct.
Qed.
Theorem catalogue_comments lib pf hls v ps forms blks1 A S B blks2 us1 u us2 F N L C bs evs : heading_text pf hls v ps forms -> Forall2 (entry_text forms) blks1 us1 ->
  (exists F N L C, comment_part A F N L C) -> comment_part S F N L C -> entry_text forms (A ++ B) u -> Forall2 (entry_text forms) blks2 us2 ->
  contents bs None (hls ++ concat blks1 ++ (A ++ S ++ B) ++ concat blks2) None -> delivers evs bs None ->
  exists c u', read_catalogue lib pf evs = Ok c /\ header_shown lib v ps c /\ c_items c = map UOk (us1 ++ u' :: us2) /\ commented_unit u F N L C u'.
Proof.
  intros H F1 PA PS E F2 Ct D. destruct (comments_added forms A S B u F N L C PA PS E) as (u' & E' & W).
  destruct (one_changed lib pf hls v ps forms blks1 _ blks2 us1 u' us2 bs evs H F1 E' F2 Ct D) as (c & R & Hs & I). exists c, u'. auto.
Qed.
Theorem catalogue_message lib pf hls v ps forms blks1 B M M' blks2 us1 u us2 obs m m' st bs evs : heading_text pf hls v ps forms -> Forall2 (entry_text forms) blks1 us1 ->
  message_part forms obs M m -> message_part forms obs M' m' -> entry_text forms (B ++ M) u -> Forall2 (entry_text forms) blks2 us2 ->
  (forall t, m' <> MSimple [] t) -> state_of (u_flags u) m' st ->
  contents bs None (hls ++ concat blks1 ++ (B ++ M') ++ concat blks2) None -> delivers evs bs None ->
  exists c, read_catalogue lib pf evs = Ok c /\ header_shown lib v ps c /\ c_items c = map UOk (us1 ++ reworded u m' st :: us2).
Proof.
  intros H F1 PM PM' E F2 NE St Ct D. pose proof (message_replaced forms B M M' u obs m m' st PM PM' E NE St) as E'.
  exact (one_changed lib pf hls v ps forms blks1 _ blks2 us1 _ us2 bs evs H F1 E' F2 Ct D).
Qed.
