(** Selections of the entries of a file. *)
From Coq Require Import String Arith NArith ZArith Bool List Lia.
From Verif Require Import ModelBase ModelUtf8 ModelLine ModelFormula ModelData ModelSource ModelReader
  SpecLine SpecFormula SpecSource SpecReader SpecBlock SpecHeader SpecFile SpecWhole SpecPicked BaseFacts LineFacts LineThms StreamThms SourceFacts
  BlockFacts UnitFacts BlocksFacts FileFacts BlockThms EntryThms WriterFacts IndepFacts ExtractedFacts WholeFacts FileIntro FlagFacts.
Import ListNotations.
Local Open Scope N_scope.

Lemma blocks_cut forms pl tl us o : blocks forms pl tl us o -> exists bls rest, pl = concat bls ++ rest /\ Forall2 (unit_entry forms) bls us.
Proof.
  induction 1 as [rest tl o C|b u r tl us o U E B (bls & rest & -> & F)]; [exists [], rest; split; [reflexivity|constructor]|].
  exists (b :: bls), rest. split; [cbn; apply app_assoc|constructor; assumption].
Qed.
Lemma lines_cut bls : forall n ls e rest tl, parsed n ls e (concat bls ++ rest) tl ->
  exists blks rl, ls = concat blks ++ rl /\ Forall2 (fun t b => exists m, parsed m t None b None) blks bls.
Proof.
  induction bls as [|b bls IH]; intros n ls e rest tl H; [exists [], ls; split; [reflexivity|constructor]|].
  cbn [concat] in H. rewrite <- app_assoc in H. destruct (parsed_split _ _ _ _ _ H _ _ eq_refl) as (l1 & l2 & -> & P1 & P2).
  destruct (IH _ _ _ _ _ P2) as (blks & rl & -> & F). exists (l1 :: blks), rl. split; [cbn; apply app_assoc|constructor; [eauto|exact F]].
Qed.
Lemma entry_texts forms blks bls us : plain (concat blks) -> Forall2 (fun t b => exists m, parsed m t None b None) blks bls -> Forall2 (unit_entry forms) bls us ->
  Forall2 (entry_text forms) blks us.
Proof.
  intros P F. revert P us. induction F as [|t b blks bls (m & R) F IH]; intros P us U; inversion U; subst; constructor.
  - cbn [concat] in P. apply plain_app in P as [P _]. destruct (parsed_anywhere t P m b R 1) as (b' & R' & A). exists b'. split; [exact R'|eapply unit_entry_alike; eassumption].
  - cbn [concat] in P. apply plain_app in P as [_ P]. apply IH; assumption.
Qed.
Lemma picked_texts (R : list str -> unit_ -> Prop) blks us sel vs : Forall2 R blks us -> picked blks us sel vs -> Forall2 R sel vs.
Proof.
  intros F (ks & A & B). revert vs B. induction A as [|k b ks sel Hb A IH]; intros vs B; inversion B as [|? v ? vs' Hv B']; subst; constructor; [|apply IH; assumption].
  clear - F Hb Hv. revert k Hb Hv. induction F as [|x y l l' H F IH]; intros [|k] Hb Hv; try discriminate; cbn in Hb, Hv; [congruence|exact (IH k Hb Hv)].
Qed.
Lemma texts_length {A B} (R : A -> B -> Prop) l l' : Forall2 R l l' -> length l = length l'.
Proof. induction 1; cbn; congruence. Qed.
Lemma empty_read lib pf evs bs : contents bs None [] None -> delivers evs bs None -> read_catalogue lib pf evs = Ok (Catalogue [] [] [] (lang_invariant lib) []).
Proof.
  intros C D. pose proof (file_shape lib pf evs bs None [] None [] None D C (ps_end 1)) as S.
  assert (Z : forall b r u forms, [] = b ++ r -> entry forms b u -> False).
  { intros b r u forms E En. symmetry in E. apply app_eq_nil in E as [-> _]. destruct (entry_starter _ _ _ En) as (l & b' & X & _). discriminate. }
  assert (Y : forall h r u, [] = h ++ r -> first_entry h r None u -> False).
  { intros h r u E [En _|Hl He]; [exact (Z _ _ _ _ E En)|]. symmetry in E. apply app_eq_nil in E as [-> ->]. destruct He as [_ He]. apply He. constructor. }
  remember (read_catalogue lib pf evs) as o eqn:Eo. destruct S as [|x E|inc w l r E|u us o B|h u r x E F|h u r forms us o E F]; try discriminate; try reflexivity.
  - destruct inc; discriminate.
  - exfalso. remember (u :: us) as us' eqn:Eu. remember (@nil po_line) as pl eqn:Ep. destruct B as [|b v r tl us0 o [En _]]; [discriminate|]. exact (Z _ _ _ _ eq_refl En).
  - destruct (Y _ _ _ E F).
  - destruct (Y _ _ _ E F).
Qed.
Lemma no_header_empty lib c : no_header lib c -> forall items, same_head c (Catalogue [] [] [] (lang_invariant lib) items).
Proof. intros (A & B & C & D) items. split; [exact A|]. split; [exact B|]. split; [exact C|exact D]. Qed.
Lemma header_heads lib u ps c c' : header_shown lib u ps c -> header_shown lib u ps c' -> same_head c c'.
Proof.
  intros (A & B & C & D) (A' & B' & C' & D'). split; [congruence|]. split; [congruence|]. split; [intros k; rewrite C, C'; reflexivity|]. eapply language_unique; eassumption.
Qed.
Lemma same_head_trans a b c : same_head a b -> same_head b c -> same_head a c.
Proof. intros (A & B & C & D) (A' & B' & C' & D'). split; [congruence|]. split; [congruence|]. split; [intros k; rewrite C; apply C'|congruence]. Qed.
Lemma units_of us o : units (map UOk us ++ error_item o) = us.
Proof. unfold units. rewrite flat_map_app. replace (flat_map _ (error_item o)) with (@nil unit_) by (destruct o; reflexivity). rewrite app_nil_r. induction us; cbn; congruence. Qed.
Theorem file_separable lib pf evs ls e pl tl c : file evs ls e pl tl -> read_catalogue lib pf evs = Ok c -> ~ idless_start pl tl ->
  exists hls blks rest, ls = hls ++ concat blks ++ rest /\ separable lib pf c hls blks.
Proof.
  intros Fi R NI. destruct (whole_total lib pf _ _ _ _ _ Fi) as (o & W). pose proof (proj1 (whole_file lib pf _ _ _ _ _ o Fi) W) as A. rewrite R in A.
  inversion A as [c0 c1 An Ac Ap Al Ai| |]; subst. destruct Fi as (bs & f & D & C & P).
  pose proof (contents_one_line _ _ _ _ C) as Pl.
  inversion W as [c2 E H N I|? E|? ? ? ? E|u us o' c2 B N I|h u ps r forms us o' c2 E F H HF B S I|]; subst.
  - exists [], [], ls. split; [reflexivity|]. unfold separable. rewrite Ai, I. split; [reflexivity|]. intros sel vs evs' bs' (ks & K1 & K2) C' D'.
    destruct K2 as [|k v ks vs K]; [|destruct k; discriminate]. inversion K1; subst. exists (Catalogue [] [] [] (lang_invariant lib) []).
    split; [exact (empty_read lib pf _ _ C' D')|]. split; [|reflexivity]. apply no_header_empty. destruct N as (N1 & N2 & N3 & N4). split; [congruence|]. split; [congruence|]. split; [intros k; rewrite Ap; apply N3|congruence].
  - destruct (blocks_cut _ _ _ _ _ B) as (bls & rest & -> & Fb). destruct (lines_cut _ _ _ _ _ _ P) as (blks & rl & -> & Fl). apply plain_app in Pl as [Pb _].
    pose proof (entry_texts None _ _ _ Pb Fl Fb) as T. exists [], blks, rl. split; [reflexivity|]. unfold separable. rewrite Ai, I, units_of. split; [exact (texts_length _ _ _ T)|].
    intros sel vs evs' bs' K C' D'. pose proof (picked_texts _ _ _ _ _ T K) as Ts. assert (NH : no_header lib c).
    { destruct N as (N1 & N2 & N3 & N4). split; [congruence|]. split; [congruence|]. split; [intros k; rewrite Ap; apply N3|congruence]. }
    destruct Ts as [|b v sel vs Tb Ts].
    + eexists. split; [exact (empty_read lib pf _ _ C' D')|]. split; [apply no_header_empty, NH|reflexivity].
    + eexists. split; [exact (entries_independent_plain lib pf _ _ _ _ _ _ Tb Ts C' D')|]. split; [apply no_header_empty, NH|reflexivity].
  - destruct F as [En Ea|Hl He]; [|exfalso; apply NI; exists h, r, u; auto].
    destruct (blocks_cut _ _ _ _ _ B) as (bls & rest & -> & Fb). destruct (parsed_split _ _ _ _ _ P _ _ eq_refl) as (hls & l2 & -> & Ph & P2).
    destruct (lines_cut _ _ _ _ _ _ P2) as (blks & rl & -> & Fl). apply plain_app in Pl as [Ph' Pb]. apply plain_app in Pb as [Pb _].
    pose proof (entry_texts forms _ _ _ Pb Fl Fb) as T. exists hls, blks, rl. split; [reflexivity|]. unfold separable. rewrite Ai, I, units_of. split; [exact (texts_length _ _ _ T)|].
    intros sel vs evs' bs' K C' D'. pose proof (picked_texts _ _ _ _ _ T K) as Ts.
    destruct (entries_independent lib pf hls u ps forms sel vs bs' evs') as (c' & R' & S' & I'); [exists h; auto|exact Ts|exact C'|exact D'|].
    exists c'. split; [exact R'|]. split; [|exact I']. eapply same_head_trans; [|exact (header_heads _ _ _ _ _ S S')]. split; [exact An|]. split; [exact Ac|]. split; [exact Ap|exact Al].
Qed.

(** * A first entry without msgid *)
Definition as_stream (ls : list str) : list rd_event := match ls with [] => [] | _ => str_stream ls end.
Lemma contents_whole bs f ls e : contents bs f ls e -> e = None -> f = None.
Proof. induction 1; intros E; try discriminate; auto. Qed.
Lemma as_stream_lines ls : forallb line_okb ls = true -> exists bs, delivers (as_stream ls) bs None /\ contents bs None ls None.
Proof.
  intros O. destruct ls as [|s ls]; [exists []; split; constructor|].
  destruct (parse_lines 1 (s :: ls)) as [pl tl] eqn:E. destruct (str_file (s :: ls) pl tl) as (bs & f & D & C & _); [discriminate|exact O|exact E|].
  pose proof (contents_whole _ _ _ _ C eq_refl) as Z. subst f. exists bs. auto.
Qed.
Definition idless_lines : list str := map lit ["msgctxt ""x"""; "# c"; "msgid ""a"""; "msgstr ""b"""; "msgid ""d"""; "msgstr ""e"""]%string.
(** What is looked at: the id, whether there is a context, the number of notes. *)
Definition look (l : list uitem) : list (str * bool * nat) :=
  map (fun i => match i with UOk u => (msg_get_id (u_message u), match u_context u with Some _ => true | None => false end, length (u_notes u)) | UErr _ => ([], true, O) end) l.
Fixpoint looks_eqb (a b : list (str * bool * nat)) : bool :=
  match a, b with
  | [], [] => true
  | (s, x, n) :: a', (t, y, m) :: b' => str_eqb s t && Bool.eqb x y && Nat.eqb n m && looks_eqb a' b'
  | _, _ => false
  end.
Definition expected_look (ks : list nat) : list (str * bool * nat) := map (fun k => match k with O => (lit "a", false, 1%nat) | _ => (lit "d", false, O) end) ks.
Definition looks_right (lib : lang_lib) (pf : platform) (ls : list str) (ks : list nat) : bool :=
  match read_catalogue lib pf (as_stream ls) with Ok c => looks_eqb (look (c_items c)) (expected_look ks) | _ => false end.
Definition cut_right (lib : lang_lib) (pf : platform) (i j k : nat) : bool :=
  let h := firstn i idless_lines in let r := skipn i idless_lines in
  let b := firstn j r in let d := firstn k (skipn j r) in
  looks_right lib pf (h ++ b ++ d) [0; 1]%nat && looks_right lib pf (h ++ d) [1]%nat && looks_right lib pf (h ++ b) [0]%nat && looks_right lib pf (h ++ d ++ b) [1; 0]%nat.
Lemma no_cut lib pf : forallb (fun i => forallb (fun j => forallb (fun k => negb (cut_right lib pf i j k)) (seq 0 7)) (seq 0 7)) (seq 0 7) = true.
Proof. vm_compute. reflexivity. Qed.

Lemma first_part {A} (a b : list A) : firstn (length a) (a ++ b) = a.
Proof. rewrite firstn_app, firstn_all, Nat.sub_diag. apply app_nil_r. Qed.
Lemma other_part {A} (a b : list A) : skipn (length a) (a ++ b) = b.
Proof. rewrite skipn_app, skipn_all, Nat.sub_diag. reflexivity. Qed.
Lemma looks_eqb_refl l : looks_eqb l l = true.
Proof. induction l as [|[[s x] n] l IH]; [reflexivity|]. cbn. rewrite IH, Nat.eqb_refl, eqb_reflx, (proj2 (str_eqb_eq s s) eq_refl). reflexivity. Qed.
Lemma cut_found lib pf c a d u v hls b1 b2 rest : idless_lines = hls ++ b1 ++ b2 ++ rest -> separable lib pf c hls [b1; b2] -> units (c_items c) = [u; v] ->
  look [UOk u] = expected_look [a] -> look [UOk v] = expected_look [d] -> a = O -> d = 1%nat -> cut_right lib pf (length hls) (length b1) (length b2) = true.
Proof.
  intros E [_ S] Eu Lu Lv -> ->. rewrite Eu in S.
  assert (O : forallb line_okb idless_lines = true) by (vm_compute; reflexivity). rewrite E, !forallb_app, !andb_true_iff in O. destruct O as (Oh & O1 & O2 & _).
  assert (Q : forall ks sel vs, Forall2 (fun k b => nth_error [b1; b2] k = Some b) ks sel -> Forall2 (fun k w => nth_error [u; v] k = Some w) ks vs -> Forall (fun b => b = b1 \/ b = b2) sel ->
            look (map UOk vs) = expected_look ks -> looks_right lib pf (hls ++ concat sel) ks = true).
  { intros ks sel vs A B I L. destruct (as_stream_lines (hls ++ concat sel)) as (bs & D & C).
    { rewrite forallb_app, Oh. cbn [andb]. clear A B L. induction I as [|x l [-> | ->] I IH] in |- *; [reflexivity| |]; cbn [concat]; rewrite forallb_app, ?O1, ?O2; exact IH. }
    destruct (S sel vs (as_stream (hls ++ concat sel)) bs (ex_intro _ ks (conj A B)) C D) as (c' & R & _ & I'). unfold looks_right. rewrite R, I', L. apply looks_eqb_refl. }
  unfold cut_right. rewrite E, first_part, other_part, first_part, other_part, first_part.
  assert (Lu' : forall vs ks, look (map UOk vs) = expected_look ks -> look (map UOk (u :: vs)) = expected_look (0%nat :: ks)).
  { intros vs ks H. change (look (map UOk (u :: vs))) with (look [UOk u] ++ look (map UOk vs)). rewrite Lu, H. reflexivity. }
  assert (Lv' : forall vs ks, look (map UOk vs) = expected_look ks -> look (map UOk (v :: vs)) = expected_look (1%nat :: ks)).
  { intros vs ks H. change (look (map UOk (v :: vs))) with (look [UOk v] ++ look (map UOk vs)). rewrite Lv, H. reflexivity. }
  pose proof (Q [0; 1]%nat [b1; b2] [u; v]) as Q1. pose proof (Q [1]%nat [b2] [v]) as Q2. pose proof (Q [0]%nat [b1] [u]) as Q3. pose proof (Q [1; 0]%nat [b2; b1] [v; u]) as Q4.
  cbn [concat] in Q1, Q2, Q3, Q4. rewrite !app_nil_r in Q1, Q2, Q3, Q4.
  rewrite Q1, Q2, Q3, Q4; [reflexivity| | | | | | | | | | | | | | | |].
  all: try (repeat constructor; auto; fail).
Qed.
Theorem idless_refuted : exists ls pl, file (str_stream ls) ls None pl None /\ forall lib pf, exists c, read_catalogue lib pf (str_stream ls) = Ok c /\
  forall hls blks rest, ls = hls ++ concat blks ++ rest -> ~ separable lib pf c hls blks.
Proof.
  exists idless_lines. eexists. split; [apply str_file; [discriminate|vm_compute; reflexivity|vm_compute; reflexivity]|]. intros lib pf. eexists. split; [vm_compute; reflexivity|].
  intros hls blks rest E S. pose proof (proj1 S) as L. cbn in L. destruct blks as [|b1 [|b2 [|b3 blks]]]; try discriminate. cbn [concat] in E. rewrite app_nil_r, <- app_assoc in E.
  pose proof (cut_found lib pf _ 0%nat 1%nat _ _ _ _ _ _ E S eq_refl eq_refl eq_refl eq_refl eq_refl) as C. pose proof (no_cut lib pf) as N.
  assert (length idless_lines = 6%nat) as Len by reflexivity. rewrite E, !app_length in Len.
  rewrite forallb_forall in N. specialize (N (length hls)). rewrite in_seq in N. specialize (N ltac:(lia)).
  rewrite forallb_forall in N. specialize (N (length b1)). rewrite in_seq in N. specialize (N ltac:(lia)).
  rewrite forallb_forall in N. specialize (N (length b2)). rewrite in_seq in N. specialize (N ltac:(lia)). rewrite C in N. discriminate.
Qed.

(** * Files whose first entry has a msgid *)
Definition idless_line (l : po_line) : Prop := match l with PMessage _ _ t _ => t <> lit "msgid" | _ => True end.
Lemma strings_idless p a t : strings p a t -> Forall idless_line a.
Proof. induction 1; constructor; [exact Logic.I|assumption]. Qed.
Lemma field_idless p kw a t : field p kw a t -> reported_tag p kw <> lit "msgid" -> Forall idless_line a.
Proof. intros [n s ls x S] H. constructor; [exact H|eapply strings_idless; eassumption]. Qed.
Lemma opt_idless p kw a o : opt_field p kw a o -> reported_tag p kw <> lit "msgid" -> Forall idless_line a.
Proof. intros [|ls s F] H; [constructor|eapply field_idless; eassumption]. Qed.
Lemma headless_idless forms b u : headless forms b u -> Forall idless_line b.
Proof.
  intros [cs F N L C obs l1 pc l2 pm l3 c l4 t st B K1 K2 K3 K4 St]. apply Forall_app. split; [clear -B; induction B; constructor; auto; exact Logic.I|].
  apply Forall_app. split; [eapply opt_idless; [exact K1|destruct obs; discriminate]|]. apply Forall_app. split.
  { destruct K2 as [|l id G|l1' id l2' pl G1 G2]; [constructor|eapply field_idless; [exact G|destruct obs; discriminate]|].
    apply Forall_app. split; [eapply field_idless; [exact G1|destruct obs; discriminate]|eapply field_idless; [exact G2|destruct obs; discriminate]]. }
  apply Forall_app. split; [eapply opt_idless; [exact K3|destruct obs; discriminate]|eapply opt_idless; [exact K4|destruct obs; discriminate]].
Qed.
Lemma entry_not_idless forms b u : entry forms b u -> ~ Forall idless_line b.
Proof.
  intros [cs F N L C obs ks pc pm c m st B [l1 pc' l2 pm' l3 c' l4 m' K1 K2 K3 K4] St] H. apply Forall_app in H as [_ H]. apply Forall_app in H as [_ H]. apply Forall_app in H as [_ H]. apply Forall_app in H as [_ H].
  assert (Z : forall l id r, field (own obs) (lit "msgid") l id -> Forall idless_line (l ++ r) -> False).
  { intros l id r [n s ls x S] G. inversion G as [|? ? G' _]; subst. apply G'. destruct obs; reflexivity. }
  destruct K4 as [l id l' text F1 F2|l id l' pl l'' vs F1 F2 V NE]; exact (Z _ _ _ F1 H).
Qed.
Theorem entry_start h r u tl : entry None h u -> ~ idless_start (h ++ r) tl.
Proof.
  intros En (h' & r' & u' & E & Hl & He). apply app_eq_app in E as (l & [(-> & ->)|(-> & ->)]).
  - destruct l as [|x l].
    + rewrite app_nil_r in *. apply (entry_not_idless _ _ _ En), (headless_idless _ _ _ Hl).
    + cbn [app] in He. destruct He as [He _]. apply He. left. exists l, u. rewrite <- app_assoc. exact En.
  - apply (entry_not_idless _ _ _ En). pose proof (headless_idless _ _ _ Hl) as G. apply Forall_app in G as [G _]. exact G.
Qed.
