(** Written catalogues are read back. *)
From Coq Require Import String Arith NArith ZArith Bool List Lia.
From Verif Require Import ModelBase ModelUtf8 ModelRegex ModelLine ModelFormula ModelData ModelSource ModelReader
  SpecLine SpecFormula SpecSource SpecReader SpecBlock SpecHeader SpecFile SpecWriter BaseFacts LineFacts LineThms DecFacts SourceFacts
  CommentFacts HeaderFacts BlockFacts BlocksFacts FileFacts FileIntro BlockThms EntryThms.
Import ListNotations.
Local Open Scope N_scope.

(** * Lines *)
Definition rd (n : N) (ls : list str) (pl : list po_line) : Prop := parsed n ls None pl None.
Definition plain (ls : list str) : Prop := forall s, In s ls -> one_line s.
Lemma plain_app a b : plain (a ++ b) <-> plain a /\ plain b.
Proof.
  split; [intros H; split; intros s I; apply H, in_or_app; auto|]. intros [A B] s I. apply in_app_or in I as [I|I]; auto.
Qed.
Lemma plain_cons s ls : plain (s :: ls) <-> one_line s /\ plain ls.
Proof. split; [intros H; split; [apply H; left; reflexivity|intros t I; apply H; right; exact I]|]. intros [A B] t [<-|I]; auto. Qed.
Lemma rd_app a : forall n b p q, rd n a p -> rd (n + N.of_nat (length a)) b q -> rd n (a ++ b) (p ++ q).
Proof.
  induction a as [|s a IH]; intros n b p q A B; inversion A; subst; cbn [app length] in *; try (rewrite Nat2N.inj_succ in B).
  - rewrite N.add_0_r in B. exact B.
  - apply ps_blank; [assumption|assumption|]. apply IH; [assumption|]. replace (n + 1 + N.of_nat (length a)) with (n + N.succ (N.of_nat (length a))) by lia. exact B.
  - apply ps_line; [assumption|assumption|assumption|]. apply IH; [assumption|]. replace (n + 1 + N.of_nat (length a)) with (n + N.succ (N.of_nat (length a))) by lia. exact B.
Qed.
Lemma rd_line n s l : one_line s -> parse_line s n = Some l -> l <> PBlank -> forall ls pl, rd (n + 1) ls pl -> rd n (s :: ls) (l :: pl).
Proof. intros. apply ps_line; try assumption. apply line_of_iff; assumption. Qed.
Lemma rd_nil n : rd n [] [].
Proof. constructor. Qed.

(** * Strings *)
Lemma string_line_message flags kw p s n : one_line s -> string_line flags (Some kw) p s ->
  parse_line s n = Some (PMessage n flags (reported_tag flags kw) p).
Proof. intros O (b & Q & U). apply parse_line_message; [exact O|]. split; [reflexivity|]. exists kw, b. auto. Qed.
Lemma string_line_cont flags p s n : one_line s -> string_line flags None p s -> parse_line s n = Some (PCont n flags p).
Proof. intros O (b & Q & U). apply parse_line_cont; [exact O|]. split; [reflexivity|]. exists b. auto. Qed.
Lemma pieces_read flags ps ls : Forall2 (string_line flags None) ps ls -> plain ls -> forall n,
  exists pl, rd n ls pl /\ strings flags pl (concat ps).
Proof.
  induction 1 as [|p s ps ls H F IH]; intros P n; [exists []; split; [apply rd_nil|constructor]|].
  apply plain_cons in P as [O P]. destruct (IH P (n + 1)) as (pl & R & S). eexists. split.
  - eapply rd_line; [exact O|apply string_line_cont; eassumption|discriminate|exact R].
  - constructor. exact S.
Qed.
Lemma string_read flags kw s ls : writes_string flags kw s ls -> plain ls -> forall n, exists pl, rd n ls pl /\ field flags kw pl s.
Proof.
  intros [p l ps ls' H F] P n. apply plain_cons in P as [O P]. destruct (pieces_read _ _ _ F P (n + 1)) as (pl & R & S).
  eexists. split; [eapply rd_line; [exact O|apply string_line_message; eassumption|discriminate|exact R]|]. constructor. exact S.
Qed.
Lemma opt_read flags kw o ls : writes_opt flags kw o ls -> plain ls -> forall n, exists pl, rd n ls pl /\ opt_field flags kw pl o.
Proof.
  intros [|s ls' H] P n; [exists []; split; [apply rd_nil|constructor]|]. destruct (string_read _ _ _ _ H P n) as (pl & R & S).
  exists pl. split; [exact R|constructor; exact S].
Qed.
Lemma forms_read flags count i vs ls : writes_forms flags i vs ls -> plain ls -> i + N.of_nat (length vs) <= count -> forall n,
  exists pl, rd n ls pl /\ values flags count i pl vs.
Proof.
  induction 1 as [i|i kw v vs a b K W H IH]; intros P L n; [exists []; split; [apply rd_nil|constructor]|].
  apply plain_app in P as [P1 P2]. cbn [length] in L. rewrite Nat2N.inj_succ in L.
  destruct (string_read _ _ _ _ W P1 n) as (p1 & R1 & S1). destruct (IH P2 ltac:(lia) (n + N.of_nat (length a))) as (p2 & R2 & S2).
  exists (p1 ++ p2). split; [apply rd_app; assumption|]. apply (vs_cons flags count i i kw); try assumption; lia.
Qed.

(** * Messages *)
Lemma message_read forms obs m ls : writes_message forms obs m ls -> plain ls -> forall n, exists pl, rd n ls pl /\ body forms obs pl m.
Proof.
  intros [id t a b NE Wa Wb|id pl vs a b c NE L Wa Wb Wc] P n.
  - apply plain_app in P as [Pa Pb]. destruct (string_read _ _ _ _ Wa Pa n) as (p1 & R1 & S1).
    destruct (string_read _ _ _ _ Wb Pb (n + N.of_nat (length a))) as (p2 & R2 & S2). exists (p1 ++ p2). split; [apply rd_app; assumption|].
    replace t with (some_text (opt_str t)) by (destruct t as [[|x t]|]; [contradiction|reflexivity|reflexivity]). constructor; assumption.
  - apply plain_app in P as [Pa P]. apply plain_app in P as [Pb Pc]. destruct (string_read _ _ _ _ Wa Pa n) as (p1 & R1 & S1).
    destruct (string_read _ _ _ _ Wb Pb (n + N.of_nat (length a))) as (p2 & R2 & S2).
    destruct (forms_read _ (nforms forms) _ _ _ Wc Pc ltac:(lia) (n + N.of_nat (length a) + N.of_nat (length b))) as (p3 & R3 & S3).
    exists (p1 ++ p2 ++ p3). split; [apply rd_app; [assumption|]; apply rd_app; assumption|]. constructor; assumption.
Qed.
Lemma previous_read forms obs m ls : writes_previous forms obs m ls -> plain ls -> forall n, exists pl, rd n ls pl /\ previous forms obs pl m.
Proof.
  intros [|id a Wa|id pl a b Wa Wb] P n.
  - exists []. split; [apply rd_nil|constructor].
  - destruct (string_read _ _ _ _ Wa P n) as (p1 & R1 & S1). exists p1. split; [exact R1|constructor; exact S1].
  - apply plain_app in P as [Pa Pb]. destruct (string_read _ _ _ _ Wa Pa n) as (p1 & R1 & S1).
    destruct (string_read _ _ _ _ Wb Pb (n + N.of_nat (length a))) as (p2 & R2 & S2). exists (p1 ++ p2).
    split; [apply rd_app; assumption|constructor; assumption].
Qed.

(** * Comments *)
Lemma comment_line_read k t s n : one_line s -> comment_line k t s -> parse_line s n = Some (PComment n k t).
Proof.
  intros O (w & Bw & Nf & -> & NQ). apply parse_line_comment; [exact O|]. split; [reflexivity|]. split; [|exact NQ].
  exists []. split; [intros c []|]. right. exists w. auto.
Qed.
Lemma joined_flags fs : fs <> [] -> Forall flag_text fs -> flag_list (joined (lit ", ") fs) fs.
Proof.
  intros NE H. apply flag_list_iff.
  assert (forall f, flag_text f -> trim f = f) as T1.
  { intros f (A & B & _). symmetry. apply trims_to_iff. exists [], []. rewrite app_nil_r. repeat split; auto; intros c []. }
  assert (forall f, flag_text f -> trim (32 :: f) = f) as T2.
  { intros f (A & B & _). symmetry. apply trims_to_iff. exists [32], []. rewrite app_nil_r. repeat split; auto; [|intros c []].
    intros c [<-|[]]. vm_compute. tauto. }
  assert (joined (lit ", ") fs = separated 44 (match fs with [] => [] | f :: fs' => f :: map (cons 32) fs' end)) as E.
  { clear H. destruct fs as [|f fs]; [reflexivity|]. revert f NE. induction fs as [|g fs IH]; intros f _; [reflexivity|].
    cbn [joined map]. change (f ++ lit ", " ++ joined (lit ", ") (g :: fs) = f ++ 44 :: separated 44 ((32 :: g) :: map (cons 32) fs)).
    rewrite (IH g ltac:(discriminate)). f_equal. cbn. destruct (map (cons 32) fs); reflexivity. }
  rewrite E, split_separated.
  - destruct fs as [|f fs]; [reflexivity|]. inversion H as [|? ? H1 H2]; subst. cbn [map]. rewrite (T1 f H1). f_equal. clear -H2 T2.
    induction H2 as [|g fs H H2 IH]; [reflexivity|]. cbn [map]. rewrite (T2 g H). f_equal. exact IH.
  - destruct fs; [contradiction|discriminate].
  - destruct fs as [|f fs]; [contradiction|]. intros p [<-|I]; [inversion H as [|? ? (_ & _ & X) _]; exact X|].
    apply in_map_iff in I as (g & <- & I). intros [D|D]; [discriminate|]. rewrite Forall_forall in H. exact (proj2 (proj2 (H g (or_intror I))) D).
Qed.
Lemma joined_words ws : Forall word ws -> words (joined (lit " ") ws) ws.
Proof.
  induction 1 as [|x ws W H IH]; [apply wd_end; intros c []|]. destruct W as [NE NW]. destruct ws as [|y ws].
  - cbn [joined]. rewrite <- (app_nil_r x) at 1. apply (wd_word [] x [] []); [intros c []|exact NE|exact NW|discriminate|apply wd_end; intros c []].
  - change (joined (lit " ") (x :: y :: ws)) with ([] ++ x ++ (32 :: joined (lit " ") (y :: ws))). apply wd_word; auto; [intros c []| |].
    + intros c r' Er. injection Er as <- _. vm_compute. tauto.
    + apply words_iff in IH. apply words_iff. rewrite IH at 1. symmetry. apply (pieces_blank [32]). intros c [<-|[]]. vm_compute. tauto.
Qed.
Lemma comments_read F N L C ls : writes_comments F N L C ls -> plain ls -> forall n, exists pl, rd n ls pl /\ block_comments pl F N L C.
Proof.
  induction 1 as [|fs s F N L C ls NE Hf K H IH|ws s F N L C ls Hw K H IH|o t s F N L C ls K H IH|k t s F N L C ls Nk K H IH]; intros P n.
  1: { exists []. split; [apply rd_nil|constructor]. }
  all: apply plain_cons in P as [O P]; destruct (IH P (n + 1)) as (pl & R & S); eexists;
    (split; [eapply rd_line; [exact O|apply comment_line_read; eassumption|discriminate|exact R]|]).
  - constructor; [apply joined_flags; assumption|exact S].
  - constructor; [apply joined_words; assumption|exact S].
  - destruct o; constructor; exact S.
  - constructor; assumption.
Qed.

(** * Units *)
Theorem unit_read forms u ls : writes_unit forms u ls -> plain ls -> forall n, exists pl, rd n ls pl /\ entry forms pl u.
Proof.
  intros [F N L C cs obs pc a pm b c d m e st Wc Wa Wb Wd We St] P n.
  apply plain_app in P as [Pc P]. apply plain_app in P as [Pa P]. apply plain_app in P as [Pb P]. apply plain_app in P as [Pd Pe].
  destruct (comments_read _ _ _ _ _ Wc Pc n) as (p0 & R0 & S0).
  destruct (opt_read _ _ _ _ Wa Pa (n + N.of_nat (length cs))) as (p1 & R1 & S1).
  destruct (previous_read _ _ _ _ Wb Pb (n + N.of_nat (length cs) + N.of_nat (length a))) as (p2 & R2 & S2).
  destruct (opt_read _ _ _ _ Wd Pd (n + N.of_nat (length cs) + N.of_nat (length a) + N.of_nat (length b))) as (p3 & R3 & S3).
  destruct (message_read _ _ _ _ We Pe (n + N.of_nat (length cs) + N.of_nat (length a) + N.of_nat (length b) + N.of_nat (length d))) as (p4 & R4 & S4).
  exists (p0 ++ p1 ++ p2 ++ p3 ++ p4). split; [repeat (apply rd_app; [assumption|]); assumption|].
  apply (en_intro forms p0 F N L C obs (p1 ++ p2 ++ p3 ++ p4)); [exact S0|constructor; assumption|exact St].
Qed.
Lemma blank_read w n : one_line w -> blanks w -> line_of w n PBlank.
Proof. intros O B. apply ln_blank, B. Qed.
Theorem units_read forms us ls : writes_units forms us ls -> plain ls -> forall n,
  exists bls, rd n ls (concat bls) /\ Forall2 (unit_entry forms) bls us.
Proof.
  induction 1 as [|w us ls B H IH|u us a ls S W H IH]; intros P n.
  - exists []. split; [apply rd_nil|constructor].
  - apply plain_cons in P as [O P]. destruct (IH P (n + 1)) as (bls & R & F). exists bls. split; [|exact F].
    apply ps_blank; [exact O|apply blank_read; assumption|exact R].
  - apply plain_app in P as [Pa P]. destruct (unit_read _ _ _ W Pa n) as (b & R & E). destruct (IH P (n + N.of_nat (length a))) as (bls & R' & F).
    exists (b :: bls). split; [apply rd_app; assumption|]. constructor; [split; assumption|exact F].
Qed.

(** * The header *)
Lemma lines_of_text ls : (forall l, In l ls -> one_line l) -> flat_map (fun l => l ++ [10]) ls = separated 10 (ls ++ [[]]).
Proof.
  induction ls as [|l ls IH]; intros H; [reflexivity|]. cbn [flat_map app separated]. rewrite IH by (intros x I; apply H; right; exact I).
  rewrite <- app_assoc. cbn [app]. destruct ls; reflexivity.
Qed.
Lemma header_text_pairs props : Forall property_text props -> header_pairs (header_text props) props.
Proof.
  intros H. exists (map (fun p => fst p ++ lit ": " ++ snd p) props ++ [[]]).
  assert (forall l, In l (map (fun p => fst p ++ lit ": " ++ snd p) props) -> one_line l) as O.
  { intros l I. apply in_map_iff in I as ([k v] & <- & I). rewrite Forall_forall in H. destruct (H _ I) as ((_ & A & _) & B & _).
    cbn [fst snd]. intros J. apply in_app_or in J as [J|J]; [exact (A J)|]. apply in_app_or in J as [J|J]; [|exact (B J)].
    cbn in J. intuition discriminate. }
  split; [destruct props; discriminate|]. split; [|split].
  - rewrite <- lines_of_text by exact O. clear. unfold header_text. induction props as [|[k v] props IH]; [reflexivity|].
    cbn [flat_map map fst snd]. rewrite IH, <- !app_assoc. reflexivity.
  - intros l I. apply in_app_or in I as [I|[<-|[]]]; [apply O, I|intros []].
  - clear O. induction H as [|[k v] props ((A & _ & B & C) & _ & D & E) H IH]; cbn [map app]; [apply pr_other; [intros []|constructor]|].
    change (fst (k, v) ++ lit ": " ++ snd (k, v)) with (k ++ 58 :: (32 :: v)). apply pr_pair; [exact A| | |exact IH].
    + exists [], []. rewrite app_nil_r. repeat split; auto; intros c [].
    + exists [32], []. rewrite app_nil_r. repeat split; auto; [|intros c []]. intros c [<-|[]]. vm_compute. tauto.
Qed.
Lemma property_lookup props k : NoDup (map fst props) -> property props k = lookup k props.
Proof.
  intros ND. unfold property, lookup, values_of. induction props as [|[k' v] props IH]; [reflexivity|]. inversion ND as [|? ? NI ND']; subst. cbn [filter find fst].
  destruct (str_eqb_spec k k') as [->|D]; [|apply IH, ND']. cbn [map snd option_map].
  replace (filter (fun p => str_eqb k' (fst p)) props) with (@nil (str * str)); [reflexivity|]. clear -NI. induction props as [|[k v] props IH]; [reflexivity|].
  cbn [filter fst]. destruct (str_eqb_spec k' k) as [->|D]; [destruct NI; left; reflexivity|]. apply IH. intros I. apply NI. right. exact I.
Qed.
Theorem header_read N C props ls : writes_header N C props ls -> plain ls -> forall n, exists pl u, rd n ls pl /\ entry None pl u
  /\ header u props /\ u_notes u = N /\ u_comments u = C.
Proof.
  induction 1 as [F L cs a b Wc Hp Wa Wb|w ls B H IH]; intros P n.
  - apply plain_app in P as [Pc P]. apply plain_app in P as [Pa Pb].
    destruct (comments_read _ _ _ _ _ Wc Pc n) as (p0 & R0 & S0).
    destruct (string_read _ _ _ _ Wa Pa (n + N.of_nat (length cs))) as (p1 & R1 & S1).
    destruct (string_read _ _ _ _ Wb Pb (n + N.of_nat (length cs) + N.of_nat (length a))) as (p2 & R2 & S2).
    assert (exists st, state_of F (MSimple [] (some_text (header_text props))) st) as (st & St).
    { destruct (in_dec (list_eq_dec N.eq_dec) (lit "fuzzy") F) as [I|I]; [eexists; apply so_fuzzy, I|].
      destruct (header_text props) as [|c t]; [eexists; apply so_empty; [exact I|intros ? []]|]. eexists. eapply so_final; [exact I|left; reflexivity|discriminate]. }
    exists (p0 ++ p1 ++ p2). eexists. split; [repeat (apply rd_app; [assumption|]); assumption|].
    split; [apply (en_intro None p0 F N L C false (p1 ++ p2) None (MSimple [] None) None (MSimple [] (some_text (header_text props))) st); [exact S0| |exact St]|].
    + change (p1 ++ p2) with ([] ++ [] ++ [] ++ (p1 ++ p2)). constructor; [constructor|constructor|constructor|]. constructor; assumption.
    + split; [|split; reflexivity]. exists (some_text (header_text props)). split; [reflexivity|].
      replace (opt_str (some_text (header_text props))) with (header_text props) by (destruct (header_text props); reflexivity). apply header_text_pairs, Hp.
  - apply plain_cons in P as [O P]. destruct (IH P (n + 1)) as (pl & u & R & E). exists pl, u. split; [|exact E].
    apply ps_blank; [exact O|apply blank_read; assumption|exact R].
Qed.

(** * Files *)
Lemma contents_one_line bs f ls e : contents bs f ls e -> forall s, In s ls -> one_line s.
Proof. induction 1; intros x; cbn; intuition (subst; auto). Qed.
Lemma entries_only forms bls us : Forall2 (unit_entry forms) bls us -> entries forms (concat bls) us.
Proof.
  intros F. exists bls, []. rewrite app_nil_r. split; [reflexivity|]. split; [exact F|]. exists (lit "msgid"). apply (aw_id forms false).
  exact (og_intro forms false [] [] [] [] [] [] None [] (MSimple [] None) [] None bc_nil (of_none _ _) (pv_none _ _) (of_none _ _)).
Qed.
Theorem written_file_read lib pf N C props forms us hls uls bs evs :
  writes_header N C props hls -> header_forms_of pf props forms -> writes_units forms us uls ->
  contents bs None (hls ++ uls) None -> delivers evs bs None ->
  exists c, read_catalogue lib pf evs = Ok c /\ c_items c = map UOk us /\ c_notes c = N /\ c_comments c = C
    /\ (forall k, sm_get k (c_properties c) = property props k) /\ language_of lib props (c_language c).
Proof.
  intros Wh HF Wu Ct D. pose proof (contents_one_line _ _ _ _ Ct) as P. apply plain_app in P as [Ph Pu].
  destruct (header_read _ _ _ _ Wh Ph 1) as (h & u & R & E & H & <- & <-). destruct (units_read _ _ _ Wu Pu (1 + N.of_nat (length hls))) as (bls & R' & F).
  assert (file evs (hls ++ uls) None (h ++ concat bls) None) as Fi by (exists bs, None; split; [exact D|]; split; [exact Ct|]; apply rd_app; assumption).
  pose proof (entries_ends None forms h u _ us E (entries_only _ _ _ F)) as Ea.
  destruct (read_header lib pf evs _ _ _ _ h u props (concat bls) forms us None Fi eq_refl (fe_entry _ _ _ _ E Ea) H HF) as (c & Rc & (Hn & Hc & Hp & Hl) & Ei).
  { apply blocks_entries. split; [apply entries_only, F|reflexivity]. }
  exists c. rewrite app_nil_r in Ei. repeat split; auto.
Qed.
Theorem written_catalogue_read lib pf N C props forms us hls uls bs evs :
  writes_header N C props hls -> NoDup (map fst props) -> header_forms_of pf props forms -> writes_units forms us uls ->
  contents bs None (hls ++ uls) None -> delivers evs bs None ->
  exists c, read_catalogue lib pf evs = Ok c /\ c_items c = map UOk us /\ c_notes c = N /\ c_comments c = C
    /\ (forall k, sm_get k (c_properties c) = lookup k props) /\ language_of lib props (c_language c).
Proof.
  intros Wh ND HF Wu Ct D. destruct (written_file_read lib pf N C props forms us hls uls bs evs Wh HF Wu Ct D) as (c & A & B & E & F & G & H).
  exists c. repeat split; auto. intros k. rewrite G. apply property_lookup, ND.
Qed.
(** Without a header. *)
Theorem written_units_read lib pf u us uls bs evs : writes_units None (u :: us) uls -> contents bs None uls None -> delivers evs bs None ->
  read_catalogue lib pf evs = Ok (Catalogue [] [] [] (lang_invariant lib) (map UOk (u :: us))).
Proof.
  intros Wu Ct D. destruct (units_read _ _ _ Wu (contents_one_line _ _ _ _ Ct) 1) as (bls & R & F).
  assert (file evs uls None (concat bls) None) as Fi by (exists bs, None; auto).
  rewrite (read_plain lib pf evs _ _ _ _ u us None Fi); [cbn [error_item]; rewrite app_nil_r; reflexivity|].
  apply blocks_entries. split; [apply entries_only, F|reflexivity].
Qed.

