(** Messages as GNU gettext writes them are read back. *)
From Coq Require Import String Arith NArith ZArith Bool List Lia.
From Verif Require Import ModelBase ModelUtf8 ModelLine ModelFormula ModelData ModelSource ModelReader
  SpecLine SpecFormula SpecSource SpecReader SpecBlock SpecHeader SpecFile SpecWriter SpecFlags SpecExtracted SpecMarks SpecOutput BaseFacts LineFacts LineThms
  BlockFacts CommentFacts BlocksFacts FileFacts BlockThms EntryThms WriterFacts WritableFacts IndepFacts FlagFacts MarksFacts FileIntro BlockWitness.
Import ListNotations.
Local Open Scope N_scope.

(** * Strings *)
Lemma output_char_cases c : (exists l, In (c, l) named_escapes /\ output_char c = [92; l]) \/ ((forall l, ~ In (c, l) named_escapes) /\ output_char c = [c]).
Proof.
  unfold output_char. destruct (find (fun p => fst p =? c) named_escapes) as [[d l]|] eqn:E.
  - apply find_some in E as [I Eq]. apply N.eqb_eq in Eq. cbn [fst] in Eq. subst. left. exists l. auto.
  - right. split; [|reflexivity]. intros l I. pose proof (find_none _ _ E _ I) as F. cbn [fst] in F. rewrite N.eqb_refl in F. discriminate.
Qed.
Lemma output_unescapes p : unescapes (output_escape p) (spoilt p).
Proof.
  induction p as [|c p IH]; [constructor|]. unfold output_escape, spoilt in *. cbn [flat_map]. destruct (output_char_cases c) as [(l & I & E)|(N & E)].
  - rewrite E. assert (NL : ~ escape_letter 97 /\ ~ escape_letter 98 /\ ~ escape_letter 118 /\ ~ escape_letter 102) by (repeat split; intros (v & J); cbn in J; intuition discriminate).
    assert (N92 : forall x, x <> 92 -> unescapes (x :: output_escape p) (x :: spoilt p)) by (intros x Nx; apply ue_copy; [left; exact Nx|exact IH]).
    assert (K : forall x, x <> 92 -> ~ escape_letter x -> unescapes (92 :: x :: output_escape p) (92 :: x :: spoilt p)).
    { intros x Nx Ne. apply ue_copy; [right; intros c' s' [= <- _]; exact Ne|apply N92, Nx]. }
    cbn in I. repeat (destruct I as [[= <- <-]|I]); try contradiction; match goal with |- context [spoilt_char ?x] => let y := eval vm_compute in (spoilt_char x) in change (spoilt_char x) with y end; cbn [app];
      [ apply K | apply K | apply ue_escape | apply ue_escape | apply K | apply K | apply ue_escape | apply ue_escape | apply ue_escape ]; try discriminate; try tauto; try (cbn; tauto); exact IH.
  - assert (spoilt_char c = [c]) as -> by (unfold spoilt_char; rewrite E; destruct existsb; reflexivity). rewrite E. cbn [app]. apply ue_copy; [|exact IH].
    left. intros ->. apply (N 92). cbn. tauto.
Qed.
Lemma output_one_line p : one_line (output_escape p).
Proof.
  intros I. apply in_flat_map in I as (c & _ & I). destruct (output_char_cases c) as [(l & J & E)|(N & E)]; rewrite E in I.
  - destruct I as [I|[I|[]]]; [discriminate|]. subst. cbn in J. intuition discriminate.
  - destruct I as [->|[]]. apply (N 110). cbn. tauto.
Qed.
Lemma spoilt_app a b : spoilt (a ++ b) = spoilt a ++ spoilt b.
Proof. apply flat_map_app. Qed.
Lemma spoilt_concat ps : spoilt (concat ps) = concat (map spoilt ps).
Proof. induction ps as [|p ps IH]; [reflexivity|]. cbn [concat map]. rewrite spoilt_app, IH. reflexivity. Qed.
Lemma spoilt_empty s : spoilt s = [] -> s = [].
Proof. destruct s as [|c s]; [reflexivity|]. unfold spoilt. cbn [flat_map]. unfold spoilt_char. destruct (output_char_cases c) as [(l & _ & ->)|(_ & ->)]; destruct existsb; discriminate. Qed.
Lemma prefix_blank m : exists w, mark_prefix m = mark_text m ++ w /\ blanks w.
Proof. destruct m as [[|] [|]]; unfold mark_prefix; cbn [mark_text]; [exists [32]|exists [32]|exists [32]|exists []]; (split; [reflexivity|]); intros c I; [destruct I as [<-|[]]|destruct I as [<-|[]]|destruct I as [<-|[]]|destruct I]; vm_compute; tauto. Qed.
Lemma blanks_space : blanks [32].
Proof. intros c [<-|[]]; vm_compute; tauto. Qed.
Lemma output_line m kw p : keyword kw -> string_line (flags_of m) (Some kw) (spoilt p) (mark_prefix m ++ kw ++ [32; 34] ++ output_escape p ++ [34]).
Proof.
  intros K. exists (output_escape p). split; [|apply output_unescapes]. destruct (prefix_blank m) as (w & -> & B). exists (mark_text m), [], w, [32], []. cbn [opt_str app].
  split; [rewrite <- ?app_assoc; reflexivity|]. split; [apply mark_marker|]. split; [intros k [= <-]; exact K|].
  split; [intros c []|]. split; [exact B|]. split; [exact blanks_space|]. split; [intros c []|apply output_one_line].
Qed.
Lemma output_more m p : string_line (flags_of m) None (spoilt p) (mark_prefix m ++ [34] ++ output_escape p ++ [34]).
Proof.
  exists (output_escape p). split; [|apply output_unescapes]. destruct (prefix_blank m) as (w & -> & B). exists (mark_text m), [], w, [], []. cbn [opt_str app].
  split; [rewrite <- ?app_assoc; reflexivity|]. split; [apply mark_marker|]. split; [discriminate|].
  split; [intros c []|]. split; [exact B|]. split; [intros c []|]. split; [intros c []|apply output_one_line].
Qed.
Lemma output_string_writes m kw s ls : keyword kw -> output_string m kw s ls -> writes_string (flags_of m) kw (spoilt s) ls.
Proof.
  intros K [p ps]. rewrite spoilt_app, spoilt_concat. constructor; [apply output_line, K|]. induction ps as [|q ps IH]; constructor; [apply output_more|exact IH].
Qed.
Lemma output_opt_writes m kw o ls : keyword kw -> output_opt m kw o ls -> writes_opt (flags_of m) kw (option_map spoilt o) ls.
Proof. intros K [|s ls' H]; constructor. apply output_string_writes; assumption. Qed.

(** * Comments *)
Definition gives (ls : list str) (F : list str) (N : list note) (L : list str) : Prop := forall n, exists pl, rd n ls pl /\ block_comments pl F N L [].
Lemma hash_blank n : parse_line (lit "#") n = Some (PComment n 32 []).
Proof.
  apply parse_line_comment; [intros I; cbn in I; intuition discriminate|]. split; [reflexivity|]. split; [exists []; split; [intros c []|left; auto]|].
  intros flags kw body (mark & w1 & w2 & w3 & w4 & E & _). apply (f_equal (@length N)) in E. assert (Q : In 34 (lit "#")); [|cbn in Q; intuition discriminate].
  exfalso. clear -E. rewrite !app_length in E. cbn in E. lia.
Qed.
Lemma kind_comment k t n : one_line (35 :: k :: t) -> ~ white k -> ~ In k [34; 109; 124; 126] -> exists x, unindented t x /\ parse_line (35 :: k :: t) n = Some (PComment n k x).
Proof.
  intros O W K. destruct (split_ws t) as (w & x & -> & Hw & Hn). exists x. apply not_white_first_iff in Hn. split; [constructor; assumption|].
  exact (hash_kind_comment [] k w x n (fun c (I : In c []) => match I with end) Hw Hn O W K).
Qed.
Lemma unindented_det t x y : unindented t x -> unindented t y -> x = y.
Proof.
  intros [w a B N] H. remember (w ++ a) as t0 eqn:E. destruct H as [w' b B' N']. apply app_eq_app in E as (l & [(-> & ->)|(-> & ->)]); destruct l as [|c l]; try reflexivity; exfalso.
  - apply (N c (l ++ b) eq_refl). apply B'. apply in_or_app. right. left. reflexivity.
  - apply (N' c (l ++ a) eq_refl). apply B. apply in_or_app. right. left. reflexivity.
Qed.
Lemma give_line s l ls pl' n : one_line s -> parse_line s n = Some l -> l <> PBlank -> rd (n + 1) ls pl' -> rd n (s :: ls) (l :: pl').
Proof. intros O P B R. exact (rd_line n s l O P B _ _ R). Qed.
Lemma gives_comments C ls F N L : gives ls F N L -> plain (map (output_comment (lit "#")) C ++ ls) -> Forall (fun t => ~ string_text t) C ->
  exists C', Forall2 unindented C C' /\ gives (map (output_comment (lit "#")) C ++ ls) F (map (Note Translator) C' ++ N) L.
Proof.
  intros G. induction C as [|t C IH]; intros P S; [exists []; split; [constructor|exact G]|]. cbn [map app] in P. apply plain_cons in P as [O P]. inversion S as [|? ? S1 S2]; subst.
  destruct (IH P S2) as (C' & U & G'). assert (X : exists x, unindented t x /\ forall n, parse_line (output_comment (lit "#") t) n = Some (PComment n 32 x)).
  { destruct t as [|c t]; [exists []; split; [apply (ui_intro [] []); [intros c []|discriminate]|intros n; apply hash_blank]|].
    assert (Ot : one_line (c :: t)) by (intros I; apply O; cbn; auto). destruct (free_comment (c :: t) 1 Ot S1) as (w & x & E & B & N0 & _). exists x. split; [rewrite E; constructor; assumption|].
    intros n. destruct (free_comment (c :: t) n Ot S1) as (w' & x' & E' & B' & N0' & Pn). replace x with x'; [exact Pn|]. apply (unindented_det (c :: t)); [rewrite E'|rewrite E]; constructor; assumption. }
  destruct X as (x & Ux & Px). exists (x :: C'). split; [constructor; assumption|]. intros n. destruct (G' (n + 1)) as (pl & R & B). exists (PComment n 32 x :: pl).
  split; [apply give_line; [exact O|apply Px|discriminate|exact R]|]. cbn [map app]. constructor. exact B.
Qed.
Lemma gives_extracted C ls F N L : gives ls F N L -> plain (map (output_comment (lit "#.")) C ++ ls) ->
  exists C', Forall2 unindented C C' /\ gives (map (output_comment (lit "#.")) C ++ ls) F (map (Note Developer) C' ++ N) L.
Proof.
  intros G. induction C as [|t C IH]; intros P; [exists []; split; [constructor|exact G]|]. cbn [map app] in P. apply plain_cons in P as [O P].
  destruct (IH P) as (C' & U & G'). assert (X : exists x, unindented t x /\ forall n, parse_line (output_comment (lit "#.") t) n = Some (PComment n 46 x)).
  { assert (W : ~ white 46) by (vm_compute; intuition discriminate). assert (K : ~ In 46 [34; 109; 124; 126]) by (cbn; intuition discriminate).
    destruct t as [|c t].
    - destruct (kind_comment 46 [] 1 O W K) as (x & Ux & _). exists x. split; [exact Ux|]. intros n. destruct (kind_comment 46 [] n O W K) as (y & Uy & Py). rewrite (unindented_det _ _ _ Ux Uy). exact Py.
    - assert (Z : forall n, exists x, unindented (c :: t) x /\ parse_line (output_comment (lit "#.") (c :: t)) n = Some (PComment n 46 x)).
      { intros n. destruct (kind_comment 46 (32 :: c :: t) n O W K) as (y & Uy & Py). exists y. split; [|exact Py]. remember (32 :: c :: t) as q eqn:E. destruct Uy as [w y B N0].
        destruct w as [|d w]; [exfalso; cbn [app] in E; apply (N0 32 (c :: t) E); vm_compute; tauto|]. injection E as -> <-. constructor; [intros d I; apply B; right; exact I|exact N0]. }
      destruct (Z 1) as (x & Ux & _). exists x. split; [exact Ux|]. intros n. destruct (Z n) as (y & Uy & Py). rewrite (unindented_det _ _ _ Ux Uy). exact Py. }
  destruct X as (x & Ux & Px). exists (x :: C'). split; [constructor; assumption|]. intros n. destruct (G' (n + 1)) as (pl & R & B). exists (PComment n 46 x :: pl).
  split; [apply give_line; [exact O|apply Px|discriminate|exact R]|]. cbn [map app]. constructor. exact B.
Qed.
Lemma places_joined ps : ps <> [] -> flat_map (fun p => 32 :: p) ps = 32 :: joined (lit " ") ps.
Proof. induction ps as [|p [|q ps] IH]; intros NE; [contradiction|cbn; rewrite app_nil_r; reflexivity|]. cbn [flat_map app] in *. rewrite IH by discriminate. reflexivity. Qed.
Lemma joined_first sep ps c r : Forall (fun p => not_white_first p /\ p <> []) ps -> joined sep ps = c :: r -> ~ white c.
Proof.
  intros H E. destruct H as [|p ps [H1 H2] H]; [discriminate|]. destruct p as [|d p]; [contradiction|]. assert (c = d) as -> by (destruct ps; cbn in E; injection E; auto). exact (H1 d p eq_refl).
Qed.
Lemma gives_places P ls F N L : gives ls F N L -> plain (map output_places P ++ ls) -> Forall (Forall word) P -> gives (map output_places P ++ ls) F N (concat P ++ L).
Proof.
  intros G. induction P as [|ps P IH]; intros O W; [exact G|]. cbn [map app] in *. apply plain_cons in O as [O O']. inversion W as [|? ? W1 W2]; subst. intros n. destruct (IH O' W2 (n + 1)) as (pl & R & B).
  assert (J : Forall (fun p => not_white_first p /\ p <> []) ps) by (eapply Forall_impl; [|exact W1]; intros p [NE NW]; split; [intros c r ->; apply NW; left; reflexivity|exact NE]).
  assert (Pl : parse_line (output_places ps) n = Some (PComment n 58 (joined (lit " ") ps))).
  { assert (W58 : ~ white 58) by (vm_compute; intuition discriminate). assert (K : ~ In 58 [34; 109; 124; 126]) by (cbn; intuition discriminate).
    destruct ps as [|p ps]; [exact (hash_kind_comment [] 58 [] [] n (fun c (I : In c []) => match I with end) (fun c (I : In c []) => match I with end) ltac:(discriminate) O W58 K)|].
    unfold output_places in *. rewrite places_joined in * by discriminate. apply (hash_kind_comment [] 58 [32] (joined (lit " ") (p :: ps)) n); try assumption; [intros c []|exact blanks_space|]. intros c r E. exact (joined_first _ _ c r J E). }
  exists (PComment n 58 (joined (lit " ") ps) :: pl). split; [apply give_line; [exact O|exact Pl|discriminate|exact R]|]. cbn [concat]. rewrite <- app_assoc. constructor; [apply joined_words, W1|exact B].
Qed.
Lemma gives_flags F : plain (output_flags F) -> Forall (fun f => flag_text f /\ f <> []) F -> gives (output_flags F) F [] [].
Proof.
  intros O H n. destruct F as [|f F]; [exists []; split; [apply rd_nil|constructor]|]. cbn [output_flags] in *. apply plain_cons in O as [O _].
  exists [PComment n 44 (joined (lit ", ") (f :: F))]. split.
  - apply give_line; [exact O| |discriminate|apply rd_nil]. apply (hash_kind_comment [] 44 [32] (joined (lit ", ") (f :: F)) n); try assumption; [intros c []|exact blanks_space| |vm_compute; intuition discriminate|cbn; intuition discriminate].
    intros c r E. apply (joined_first (lit ", ") (f :: F) c r); [|exact E]. eapply Forall_impl; [|exact H]. intros g [(G1 & _) G2]. auto.
  - rewrite <- (app_nil_r (f :: F)) at 2. constructor; [|constructor]. apply joined_flags; [discriminate|]. eapply Forall_impl; [|exact H]. intros g [G1 _]. exact G1.
Qed.

(** * Messages *)
Lemma output_numbered_writes m i vs ls : output_numbered m i vs ls -> writes_forms (flags_of m) i (map spoilt vs) ls.
Proof. induction 1 as [|i kw v vs a b K S O IH]; cbn [map]; [constructor|]. apply (wf_cons _ i kw); [exact K|apply output_string_writes; [|exact S]|exact IH]. apply (msgstr_keyword i kw K). Qed.
Lemma output_previous_writes forms obs pv ls : output_previous (obs, true) pv ls ->
  writes_previous forms obs (match option_map (fun q : str * option str => (spoilt (fst q), option_map spoilt (snd q))) pv with None => MSimple [] None | Some (id, None) => MSimple id None | Some (id, Some p) => MPlural (Plural forms id p []) end) ls.
Proof.
  intros [|id p a b A B]; cbn [option_map fst snd]; [constructor|]. apply output_string_writes in A; [|constructor]. destruct B as [|s b B]; cbn [option_map].
  - rewrite app_nil_r. constructor. exact A.
  - apply output_string_writes in B; [|constructor]. constructor; assumption.
Qed.
Lemma output_texts_writes forms obs id i t x : output_string (obs, false) (lit "msgid") id i -> output_texts (obs, false) t x ->
  match t with inl _ => True | inr (_, vs) => vs <> [] /\ N.of_nat (length vs) <= nforms forms end ->
  writes_message forms obs (match (match t with inl t => inl (spoilt t) | inr (p, vs) => inr (spoilt p, map spoilt vs) end : str + str * list str) with
    inl t => MSimple (spoilt id) (some_text t) | inr (p, vs) => MPlural (Plural forms (spoilt id) p vs) end) (i ++ x).
Proof.
  intros I [t' ls T|p vs a b A B] H; apply output_string_writes in I; try exact kw_msgid.
  - apply output_string_writes in T; [|constructor]. destruct (spoilt t') as [|c r] eqn:E.
    + apply (wm_simple forms obs (spoilt id) None); [discriminate|exact I|]. cbn [opt_str]. exact T.
    + apply (wm_simple forms obs (spoilt id) (Some (c :: r))); [discriminate|exact I|exact T].
  - destruct H as [NE L]. apply output_string_writes in A; [|constructor]. apply output_numbered_writes in B. apply (wm_plural forms obs); try assumption.
    + destruct vs; [contradiction|discriminate].
    + rewrite map_length. exact L.
Qed.
Lemma some_state F m : exists st, state_of F m st.
Proof.
  destruct (in_dec (list_eq_dec N.eq_dec) (lit "fuzzy") F) as [I|I]; [eexists; apply so_fuzzy, I|].
  assert (D : (exists t, In t (translations m) /\ t <> []) \/ forall t, In t (translations m) -> t = []).
  { induction (translations m) as [|[|c t] ts IH]; [right; intros t []| |left; exists (c :: t); split; [left; reflexivity|discriminate]].
    destruct IH as [(t & J & NE)|IH]; [left; exists t; split; [right; exact J|exact NE]|right; intros t [<-|J]; [reflexivity|exact (IH t J)]]. }
  destruct D as [(t & J & NE)|D]; eexists; [eapply so_final; eassumption|apply so_empty; assumption].
Qed.
Theorem output_entry forms m ls : readable forms m -> output_message m ls -> plain ls -> exists m' u, altered m m' /\ conveys forms m' u /\ entry_text forms ([] :: ls) u.
Proof.
  intros Rd Hm. revert Rd. destruct Hm as [C E P F pc pv c id t obs a b d i x A B D I X]. intros (Sc & Sp & Sf & Si & St) O. cbn [gm_comments gm_places gm_flags gm_id gm_texts] in *.
  rewrite !app_assoc in O. rewrite <- (app_assoc _ i x) in O. apply plain_app in O as [O Om]. apply plain_app in O as [O Od]. apply plain_app in O as [O Ob]. apply plain_app in O as [O Oa].
  rewrite <- !app_assoc in O. pose proof O as O1. apply plain_app in O1 as [_ O1]. pose proof O1 as O2. apply plain_app in O2 as [_ O2]. pose proof O2 as O3. apply plain_app in O3 as [_ O3].
  pose proof (gives_flags F O3 Sf) as G3. pose proof (gives_places P _ _ _ _ G3 O2 Sp) as G2. destruct (gives_extracted E _ _ _ _ G2 O1) as (E' & UE & G1). destruct (gives_comments C _ _ _ _ G1 O Sc) as (C' & UC & G0).
  clear G1 G2 G3 O1 O2 O3. set (cs := map (output_comment (lit "#")) C ++ map (output_comment (lit "#.")) E ++ map output_places P ++ output_flags F) in *.
  pose proof (output_opt_writes _ _ _ _ kw_msgctxt A) as Wa. pose proof (output_previous_writes forms _ _ _ B) as Wb. pose proof (output_opt_writes _ _ _ _ kw_msgctxt D) as Wd.
  pose proof (output_texts_writes forms _ _ _ _ _ I X St) as We. cbn [flags_of fst snd] in Wa, Wd.
  destruct (G0 (1 + 1)) as (p0 & R0 & S0). destruct (opt_read _ _ _ _ Wa Oa (1 + 1 + N.of_nat (length cs))) as (p1 & R1 & S1).
  destruct (previous_read _ _ _ _ Wb Ob (1 + 1 + N.of_nat (length cs) + N.of_nat (length a))) as (p2 & R2 & S2).
  destruct (opt_read _ _ _ _ Wd Od (1 + 1 + N.of_nat (length cs) + N.of_nat (length a) + N.of_nat (length b))) as (p3 & R3 & S3).
  destruct (message_read _ _ _ _ We Om (1 + 1 + N.of_nat (length cs) + N.of_nat (length a) + N.of_nat (length b) + N.of_nat (length d))) as (p4 & R4 & S4).
  match type of S4 with body _ _ _ ?m => destruct (some_state F m) as (st & Hst) end.
  pose proof (en_intro forms p0 _ _ _ [] obs _ _ _ _ _ st S0 (kws_intro forms obs _ _ _ _ _ _ _ _ S1 S2 S3 S4) Hst) as En.
  eexists. match type of En with entry _ _ ?u => exists u end. split; [exists C', E'; split; [exact UC|split; [exact UE|reflexivity]]|]. split.
  2: { exists (p0 ++ p1 ++ p2 ++ p3 ++ p4). split.
    - apply ps_blank; [intros []|apply ln_blank; intros y []|].
      assert (Q : rd (1 + 1) (cs ++ a ++ b ++ d ++ i ++ x) (p0 ++ p1 ++ p2 ++ p3 ++ p4)) by (repeat (apply rd_app; [assumption|]); assumption). unfold cs in Q. rewrite <- !app_assoc in Q. exact Q.
    - split; [exact En|]. intros text Ht. cbn [u_message] in Ht. destruct t as [t|[p vs]]; [|discriminate]. injection Ht as Ht _. apply Si. apply spoilt_empty, Ht. }
  unfold conveys. cbn. rewrite !app_nil_r. repeat (split; [reflexivity|]). exact Hst.
Qed.

(** * Files *)
Lemma output_entries forms ms bls : Forall2 output_message ms bls -> Forall (readable forms) ms -> plain (concat (map (cons []) bls)) ->
  exists ms' us, Forall2 altered ms ms' /\ Forall2 (conveys forms) ms' us /\ Forall2 (entry_text forms) (map (cons []) bls) us.
Proof.
  induction 1 as [|m b ms bls M F IH]; intros R P; [exists [], []; repeat split; constructor|]. inversion R as [|? ? R1 R2]; subst. cbn [map concat app] in P. apply plain_cons in P as [_ P]. apply plain_app in P as [P1 P2].
  destruct (IH R2 P2) as (ms' & us & A & C & E). destruct (output_entry forms m b R1 M P1) as (m' & u & A' & C' & E'). exists (m' :: ms'), (u :: us). cbn [map]. repeat split; constructor; assumption.
Qed.
Theorem output_read lib pf hls v ps forms ms ls bs evs : heading_text pf hls v ps forms -> output_file ms ls -> Forall (readable forms) ms ->
  contents bs None (hls ++ ls) None -> delivers evs bs None ->
  exists c ms' us, read_catalogue lib pf evs = Ok c /\ header_shown lib v ps c /\ c_items c = map UOk us /\ Forall2 altered ms ms' /\ Forall2 (conveys forms) ms' us.
Proof.
  intros H (bls & O & ->) R Ct D. pose proof (contents_one_line _ _ _ _ Ct) as P. apply plain_app in P as [_ P].
  destruct (output_entries forms ms bls O R P) as (ms' & us & A & C & E). destruct (entries_independent lib pf hls v ps forms _ us bs evs H E Ct D) as (c & Rc & Hc & Ic). exists c, ms', us. auto.
Qed.
Lemma spoilt_same s : spoilt s = s <-> no_controls s.
Proof.
  assert (L : forall s, (length s <= length (spoilt s))%nat).
  { induction s0 as [|c s0 IH]; [apply Nat.le_refl|]. unfold spoilt in *. cbn [flat_map]. rewrite app_length. cbn [length]. assert (1 <= length (spoilt_char c))%nat; [|lia].
    unfold spoilt_char. destruct (output_char_cases c) as [(l & _ & ->)|(_ & ->)]; destruct existsb; cbn; lia. }
  induction s as [|c s IH]; [split; [intros _ c []|reflexivity]|]. split.
  - intros E. assert (Q : existsb (N.eqb c) [7; 8; 11; 12] = false).
    { destruct (existsb (N.eqb c) [7; 8; 11; 12]) eqn:X; [|reflexivity]. exfalso. apply (f_equal (@length N)) in E. unfold spoilt in E. cbn [flat_map] in E. rewrite app_length in E. specialize (L s). unfold spoilt in L.
      assert (length (spoilt_char c) = 2%nat) as W.
      { unfold spoilt_char. rewrite X. destruct (output_char_cases c) as [(l & _ & ->)|(N & ->)]; [reflexivity|]. exfalso. apply existsb_exists in X as (y & I & Q). apply N.eqb_eq in Q. subst y. cbn in I.
        destruct I as [<-|[<-|[<-|[<-|[]]]]]; [apply (N 97)|apply (N 98)|apply (N 118)|apply (N 102)]; cbn; tauto. }
      rewrite W in E. cbn [length] in E. unfold str, char in *. lia. }
    unfold spoilt in E. cbn [flat_map] in E. unfold spoilt_char at 1 in E. rewrite Q in E. injection E as E. apply IH in E. intros d [<-|I]; [|apply E, I].
    intros I. assert (existsb (N.eqb c) [7; 8; 11; 12] = true) by (apply existsb_exists; exists c; split; [exact I|apply N.eqb_refl]). congruence.
  - intros H. unfold spoilt. cbn [flat_map]. unfold spoilt_char at 1. replace (existsb (N.eqb c) [7; 8; 11; 12]) with false.
    + cbn [app]. f_equal. apply IH. intros d I. apply H. right. exact I.
    + symmetry. apply not_true_iff_false. intros X. apply existsb_exists in X as (y & I & Q). apply N.eqb_eq in Q. subst y. exact (H c (or_introl eq_refl) I).
Qed.
Lemma unindented_same t : unindented t t <-> not_white_first t.
Proof.
  split; [|intros N; apply (ui_intro [] t); [intros c []|exact N]]. intros H. remember t as x eqn:E in H at 2. destruct H as [w x B Nx]. destruct w as [|c w]; [exact Nx|].
  apply (f_equal (@length N)) in E. cbn in E. rewrite app_length in E. unfold str, char in *. lia.
Qed.
Lemma unindented_all C : Forall2 unindented C C <-> Forall not_white_first C.
Proof.
  induction C as [|t C IH]; [split; constructor|]. split.
  - intros H. inversion H as [|? ? ? ? U F]; subst. constructor; [apply unindented_same, U|apply IH, F].
  - intros H. inversion H as [|? ? U F]; subst. constructor; [apply unindented_same, U|apply IH, F].
Qed.
Lemma spoilt_option o : option_map spoilt o = o <-> Forall no_controls (if_any o).
Proof.
  destruct o as [s|]; cbn [option_map if_any]; [|split; [constructor|reflexivity]]. split.
  - intros [= E]. constructor; [apply spoilt_same, E|constructor].
  - intros H. inversion H; subst. f_equal. apply spoilt_same. assumption.
Qed.
Lemma spoilt_all l : map spoilt l = l <-> Forall no_controls l.
Proof.
  induction l as [|s l IH]; [split; constructor|]. cbn [map]. split.
  - intros [= E1 E2]. constructor; [apply spoilt_same, E1|apply IH, E2].
  - intros H. inversion H; subst. f_equal; [apply spoilt_same|apply IH]; assumption.
Qed.
Theorem altered_same m : altered m m <-> ordinary m.
Proof.
  destruct m as [C E P F pc pv c id t obs]. unfold altered, ordinary, gm_strings. cbn [gm_comments gm_extracted gm_places gm_flags gm_prev_context gm_prev gm_context gm_id gm_texts gm_obsolete].
  rewrite !Forall_app. rewrite Forall_cons_iff, <- !spoilt_option. split.
  - intros (C' & E' & UC & UE & Q). injection Q as QC QE Qpc Qpv Qc Qid Qt. subst C' E'. rewrite unindented_all in UC, UE. split; [|auto]. split; [auto|]. split; [|split; [auto|split; [apply spoilt_same; auto|]]].
    + destruct pv as [[i [p|]]|]; cbn in Qpv |- *; [injection Qpv as Q1 Q2|injection Qpv as Q1|constructor]; repeat constructor; apply spoilt_same; auto.
    + destruct t as [t|[p vs]]; [injection Qt as Qt|injection Qt as Q1 Q2]; [repeat constructor; apply spoilt_same; auto|]. constructor; [apply spoilt_same; auto|apply spoilt_all; auto].
  - intros ((Qpc & Qpv & Qc & Qid & Qt) & UC & UE). exists C, E. rewrite !unindented_all. split; [exact UC|]. split; [exact UE|]. apply spoilt_same in Qid. rewrite Qpc, Qc, Qid. f_equal.
    + destruct pv as [[i [p|]]|]; cbn [option_map fst snd if_any app] in Qpv |- *; [| |reflexivity]; inversion Qpv as [|? ? Q1 Q2]; subst; apply spoilt_same in Q1; rewrite Q1; [|reflexivity]. inversion Q2 as [|? ? Q3 Q4]; subst. apply spoilt_same in Q3. rewrite Q3. reflexivity.
    + destruct t as [t|[p vs]]; inversion Qt as [|? ? Q1 Q2]; subst; apply spoilt_same in Q1; rewrite Q1; [reflexivity|]. apply spoilt_all in Q2. rewrite Q2. reflexivity.
Qed.
Lemma all_det C : forall A B, Forall2 unindented C A -> Forall2 unindented C B -> A = B.
Proof. induction C as [|t C IH]; intros A B HA HB; inversion HA; inversion HB; subst; [reflexivity|]. f_equal; [eapply unindented_det; eassumption|apply IH; assumption]. Qed.
Lemma altered_det m a b : altered m a -> altered m b -> a = b.
Proof. intros (C & E & UC & UE & ->) (C' & E' & UC' & UE' & ->). rewrite (all_det _ _ _ UC UC'), (all_det _ _ _ UE UE'). reflexivity. Qed.
Lemma map_note_inj o a : forall b, map (Note o) a = map (Note o) b -> a = b.
Proof. induction a as [|x a IH]; intros [|y b] E; try discriminate; [reflexivity|]. injection E as -> E. f_equal. apply IH, E. Qed.
Lemma notes_inj C : forall C' E E', map (Note Translator) C ++ map (Note Developer) E = map (Note Translator) C' ++ map (Note Developer) E' -> C = C' /\ E = E'.
Proof.
  induction C as [|x C IH]; intros [|y C'] E E' H.
  - split; [reflexivity|]. exact (map_note_inj Developer E E' H).
  - cbn [map app] in H. destruct E; discriminate.
  - cbn [map app] in H. destruct E'; discriminate.
  - cbn [map app] in H. injection H as -> H. destruct (IH _ _ _ H) as [-> ->]. auto.
Qed.
Lemma some_text_inj a b : some_text a = some_text b -> a = b.
Proof. destruct a, b; try discriminate; [reflexivity|]. intros [= -> ->]. reflexivity. Qed.
Lemma conveys_inj forms m m' u : altered m m' -> conveys forms m u -> conveys forms m' u -> m' = m.
Proof.
  intros (C' & E' & _ & _ & ->) (A1 & A2 & A3 & A4 & A5 & A6 & A7 & A8 & A9 & _) (B1 & B2 & B3 & B4 & B5 & B6 & B7 & B8 & B9 & _).
  destruct m as [C E P F pc pv c id t obs]. cbn [gm_comments gm_extracted gm_places gm_flags gm_prev_context gm_prev gm_context gm_id gm_texts gm_obsolete] in *.
  rewrite A1 in B1. rewrite A2 in B2. rewrite A3 in B3. rewrite A4 in B4. rewrite A7 in B7. apply notes_inj in B7 as [-> ->]. rewrite <- B1, <- B3. f_equal.
  - destruct pv as [[i [p|]]|]; cbn [option_map fst snd] in *; [|injection B4 as B4; rewrite <- B4; reflexivity|reflexivity].
    injection B4 as Q1 Q2. rewrite <- Q1, <- Q2. reflexivity.
  - destruct t as [t|[p vs]]; injection B2; auto.
  - destruct t as [t|[p vs]]; [injection B2 as _ B2; apply some_text_inj in B2; rewrite <- B2; reflexivity|]. injection B2 as _ Q1 Q2. rewrite <- Q1, <- Q2. reflexivity.
Qed.
Theorem output_exact lib pf hls v ps forms ms ls bs evs : heading_text pf hls v ps forms -> output_file ms ls -> Forall (readable forms) ms ->
  contents bs None (hls ++ ls) None -> delivers evs bs None ->
  exists c us, read_catalogue lib pf evs = Ok c /\ header_shown lib v ps c /\ c_items c = map UOk us /\ (Forall2 (conveys forms) ms us <-> Forall ordinary ms).
Proof.
  intros H O R Ct D. destruct (output_read lib pf hls v ps forms ms ls bs evs H O R Ct D) as (c & ms' & us & Rc & Hc & Ic & A & C). exists c, us. split; [exact Rc|]. split; [exact Hc|]. split; [exact Ic|]. clear -A C. split.
  - intros C'. revert us C C'. induction A as [|m m' ms ms' Am A IH]; intros us C C'; [constructor|]. inversion C as [|? u ? us' Cm Ct]; subst. inversion C' as [|? ? ? ? Cm' Ct']; subst.
    constructor; [|exact (IH _ Ct Ct')]. rewrite (conveys_inj forms m m' u Am Cm' Cm) in Am. apply altered_same, Am.
  - intros Or. revert us C. induction A as [|m m' ms ms' Am A IH]; intros us C; [inversion C; constructor|]. inversion C as [|? u ? us' Cm Ct]; subst. inversion Or as [|? ? O1 O2]; subst.
    constructor; [|exact (IH O2 _ Ct)]. apply altered_same in O1. rewrite (altered_det _ _ _ O1 Am). exact Cm.
Qed.

(** * Witnesses *)
Definition plain_msg (ctx : option str) (id text : str) : gmsg := GMsg [] [] [] [] None None ctx id (inl text) false.
Lemma one_piece m kw s : output_string m kw s [mark_prefix m ++ kw ++ [32; 34] ++ output_escape s ++ [34]].
Proof. rewrite <- (app_nil_r s) at 1. exact (os_intro m kw s []). Qed.
Lemma plain_output id text : output_message (plain_msg None id text) [lit "msgid " ++ 34 :: output_escape id ++ [34]; lit "msgstr " ++ 34 :: output_escape text ++ [34]].
Proof.
  apply (om_intro [] [] [] [] None None None id (inl text) false [] [] [] [lit "msgid " ++ 34 :: output_escape id ++ [34]] [lit "msgstr " ++ 34 :: output_escape text ++ [34]]);
    [constructor|constructor|constructor|exact (one_piece (false, false) (lit "msgid") id)|constructor; exact (one_piece (false, false) (lit "msgstr") text)].
Qed.
Definition empty_heading_lines : list str := [lit "msgid """""; lit "msgstr """""].
Definition output_stream (ms : list str) : list rd_event := str_stream (empty_heading_lines ++ ms).
Theorem output_confused : exists m m' ls ls' u, m <> m' /\ output_file [m] ls /\ output_file [m'] ls' /\ readable None m /\ readable None m' /\ conveys None m' u
  /\ forall lib pf, exists c c', read_catalogue lib pf (output_stream ls) = Ok c /\ read_catalogue lib pf (output_stream ls') = Ok c' /\ c_items c = [UOk u] /\ c_items c' = [UOk u].
Proof.
  exists (plain_msg None (lit "a") [7]), (plain_msg None (lit "a") (lit "\a")), [[]; lit "msgid ""a"""; lit "msgstr ""\a"""], [[]; lit "msgid ""a"""; lit "msgstr ""\\a"""], (simple_unit (lit "a") (lit "\a")).
  split; [discriminate|]. split; [exists [[lit "msgid ""a"""; lit "msgstr ""\a"""]]; split; [constructor; [exact (plain_output (lit "a") [7])|constructor]|reflexivity]|].
  split; [exists [[lit "msgid ""a"""; lit "msgstr ""\\a"""]]; split; [constructor; [exact (plain_output (lit "a") (lit "\a"))|constructor]|reflexivity]|].
  assert (Rd : forall t, readable None (plain_msg None (lit "a") t)) by (intros t; repeat split; try constructor; discriminate).
  split; [apply Rd|]. split; [apply Rd|]. split; [unfold conveys; cbn; repeat (split; [reflexivity|]); apply (so_final [] _ (lit "\a")); [intros []|left; reflexivity|discriminate]|].
  intros lib pf. eexists. eexists. split; [vm_compute; reflexivity|]. split; [vm_compute; reflexivity|]. split; reflexivity.
Qed.
Theorem output_idless : exists m ls, output_file [m] ls /\ ordinary m /\ gm_context m = Some (lit "c") /\ gm_id m = []
  /\ forall lib pf, exists c e, read_catalogue lib pf (output_stream ls) = Ok c /\ c_items c = [UErr e].
Proof.
  exists (plain_msg (Some (lit "c")) [] (lit "b")), [[]; lit "msgctxt ""c"""; lit "msgid """""; lit "msgstr ""b"""]. split; [exists [[lit "msgctxt ""c"""; lit "msgid """""; lit "msgstr ""b"""]]; split; [constructor; [|constructor]|reflexivity]|].
  - apply (om_intro [] [] [] [] None None (Some (lit "c")) [] (inl (lit "b")) false [] [] [_] [_] [_]); [constructor|constructor|constructor; exact (one_piece (false, false) (lit "msgctxt") (lit "c"))|exact (one_piece (false, false) (lit "msgid") [])|constructor; exact (one_piece (false, false) (lit "msgstr") (lit "b"))].
  - split; [split; [|constructor]|split; [reflexivity|split; [reflexivity|intros lib pf; eexists; eexists; split; vm_compute; reflexivity]]].
    cbn. repeat constructor; intros c I J; cbn in I; repeat (destruct I as [<-|I]; [cbn in J; intuition discriminate|]); contradiction.
Qed.
