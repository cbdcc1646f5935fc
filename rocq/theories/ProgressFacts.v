(** Streams that never end: every call returns. *)
From Coq Require Import String Arith NArith ZArith Bool List Lia.
From Verif Require Import ModelBase ModelUtf8 ModelLine ModelFormula ModelData ModelSource ModelReader ModelLazy
  SpecLine SpecSource SpecReader SpecBlock SpecHeader SpecFile SpecLazy SpecEndless BaseFacts LineFacts SourceFacts IterFacts ReaderFacts ReadsFacts
  CatalogueFacts LocalFacts StreamFacts BlockFacts CommentFacts UnitFacts SoundFacts BlocksFacts FirstFacts FileFacts FileIntro LazyFacts FutureFacts LazyThms PlaceThms EndlessFacts.
Import ListNotations.

Section Keywords.
  Variable full : nat.
  Definition kw (x : option item) : bool := match x with Some (ILine l) => keyword_line full l | _ => false end.
  Definition msgs (ls : lines) : nat := length (filter kw ls).
  Lemma msgs_cons x ls : msgs (x :: ls) = (if kw x then 1 else 0) + msgs ls.
  Proof. unfold msgs. cbn [filter]. destruct (kw x); reflexivity. Qed.
  (** At most [c] keyword lines are taken. *)
  Definition takes {A} (c : nat) (ls : lines) (m : res A) : Prop := msgs ls <= msgs (snd m) + c.
  Lemma takes_bind {A B} (m : res A) (f : A -> lines -> res B) a b ls : takes a ls m -> (forall x l, takes b l (f x l)) -> takes (a + b) ls (bind m f).
  Proof. unfold takes. intros H K. destruct m as [[x|e|] l]; cbn [bind snd] in *; try lia. specialize (K x l). lia. Qed.
  Lemma takes_le {A} (m : res A) a b ls : takes a ls m -> a <= b -> takes b ls m.
  Proof. unfold takes. lia. Qed.
  Lemma takes_ret {A} (o : outcome A) c ls : takes c ls (o, ls).
  Proof. unfold takes. cbn [snd]. lia. Qed.
  Lemma append_takes p ls : forall s, takes 0 ls (append_conts p s ls).
  Proof.
    induction ls as [|[[[|n k c|n q t c|n q c]|e]|] ls IH]; intros s; cbn [append_conts]; try apply takes_ret.
    - destruct (str_eqb q p); [|apply takes_ret]. specialize (IH (s ++ c)). unfold takes in *. rewrite msgs_cons. cbn [kw keyword_line]. lia.
    - unfold takes. cbn [snd]. rewrite msgs_cons. cbn [kw]. lia.
    - unfold takes. cbn [snd]. rewrite msgs_cons. cbn [kw]. lia.
  Qed.
  Lemma parse_msg_takes o t ls : takes 1 ls (parse_msg o t ls).
  Proof.
    rewrite parse_msg_eq. destruct ls as [|[[[|n k c|n q u c|n q c]|e]|] ls]; try apply takes_ret; try (unfold takes; cbn [snd]; rewrite msgs_cons; cbn [kw keyword_line]; lia).
    destruct (_ && _); [|apply takes_ret]. pose proof (append_takes q ls c) as H. unfold takes in *. rewrite msgs_cons. destruct (kw _); lia.
  Qed.
  Lemma expected_takes z ls : takes 0 ls (expected z ls).
  Proof. unfold expected, peek, next. destruct ls as [|[[[| | |]|]|] ls]; try apply takes_ret. unfold takes. cbn [snd hd tl]. rewrite msgs_cons. cbn [kw]. lia. Qed.
  Lemma values_takes o k : forall i vs ls, takes k ls (parse_values o k i vs ls).
  Proof.
    induction k as [|k IH]; intros i vs ls; cbn [parse_values]; [apply takes_ret|]. apply (takes_bind _ _ 1 k); [apply parse_msg_takes|]. intros v l. apply IH.
  Qed.
  Definition room (forms : option plural_forms) : nat := N.to_nat (forms_count forms) + 7.
  Lemma new_message_takes forms o id pl ls : takes (N.to_nat (forms_count forms) + 1) ls (new_message forms o id pl ls).
  Proof.
    unfold new_message. destruct id as [id|]; [|apply takes_ret]. destruct pl as [pl|].
    - apply (takes_le _ (N.to_nat (forms_count forms) + 0)); [|lia]. apply takes_bind; [apply values_takes|]. intros vs l. destruct (is_empty vs); [|apply takes_ret].
      apply (takes_bind _ _ 0 0); [apply expected_takes|intros; apply takes_ret].
    - apply (takes_le _ (1 + 0)); [|lia]. apply takes_bind; [apply parse_msg_takes|]. intros [t|] l; [apply takes_ret|]. apply (takes_bind _ _ 0 0); [apply expected_takes|intros; apply takes_ret].
  Qed.
  Lemma fields_takes forms first u ls : takes (room forms) ls (parse_message_fields forms first u ls).
  Proof.
    unfold parse_message_fields, room. set (c := N.to_nat (forms_count forms)). apply (takes_le _ (1 + (1 + (1 + (1 + (1 + (1 + (c + 1)))))))); [|lia].
    apply takes_bind; [apply parse_msg_takes|intros pc l1]. apply takes_bind; [apply parse_msg_takes|intros pi l2].
    apply takes_bind; [destruct pi; [apply parse_msg_takes|apply takes_ret]|intros pp l3]. apply takes_bind; [apply parse_msg_takes|intros cx l4]. apply takes_bind; [apply parse_msg_takes|intros id l5].
    destruct (negb first && _).
    - apply (takes_le _ (0 + 0)); [|lia]. apply takes_bind; [apply expected_takes|intros; apply takes_ret].
    - apply takes_bind; [apply parse_msg_takes|intros pl l6]. rewrite <- (Nat.add_0_r (c + 1)). apply takes_bind; [apply new_message_takes|]. intros [m|] l7; apply takes_ret.
  Qed.
  Lemma comments_takes ls : forall u, takes 0 ls (parse_comments u ls).
  Proof.
    induction ls as [|[[[| | |]|]|] ls IH]; intros u; cbn [parse_comments]; try apply takes_ret.
    - specialize (IH (apply_comment u kind content)). unfold takes in *. rewrite msgs_cons. cbn [kw keyword_line]. lia.
    - unfold takes. cbn [snd]. rewrite msgs_cons. cbn [kw]. lia.
  Qed.
  Lemma runit_takes forms first ls : takes (room forms) ls (runit forms first ls).
  Proof.
    unfold runit. apply (takes_bind _ _ 0 (room forms)); [apply comments_takes|]. intros u l. destruct (peek l) as [[x|e]|]; try (apply takes_ret).
    rewrite <- (Nat.add_0_r (room forms)). apply takes_bind; [apply fields_takes|]. intros o l2. unfold takes. rewrite finish_unit_lines. lia.
  Qed.
  Lemma next_unit_takes first r : msgs (rd_lines r) <= msgs (rd_lines (snd (next_unit first r))) + room (rd_plural_forms r).
  Proof. rewrite next_unit_eq. cbn [snd rd_lines with_lines]. apply runit_takes. Qed.
  Lemma po_next_takes r : msgs (rd_lines r) <= msgs (rd_lines (snd (po_next r))) + room (rd_plural_forms r).
  Proof.
    unfold po_next. destruct (rd_next_unit r) as [[u|e]|]; cbn [snd rd_lines with_next_unit]; try lia.
    pose proof (next_unit_takes false r). destruct (next_unit false r) as [[nu|] r']; exact H.
  Qed.
  Lemma calls_takes k : forall r, msgs (rd_lines r) <= msgs (rd_lines (snd (calls k r))) + k * room (rd_plural_forms r).
  Proof.
    induction k as [|k IH]; intros r; cbn [calls]; [cbn [snd]; lia|]. pose proof (po_next_takes r) as H. pose proof (po_next_head r) as F. unfold head in F. injection F as _ _ _ _ F.
    destruct (po_next r) as [x r']. cbn [snd] in *. specialize (IH r'). rewrite F in IH. destruct (calls k r') as [xs r'']. cbn [snd] in *. lia.
  Qed.
End Keywords.

Lemma msgs_in full ls : 1 <= msgs full ls -> exists i n p t s, nth i ls None = Some (ILine (PMessage n p t s)) /\ N.to_nat n <= full /\ i < length ls.
Proof.
  induction ls as [|x ls IH]; [cbn; lia|]. rewrite msgs_cons. destruct (kw full x) eqn:K.
  - intros _. destruct x as [[[|n k c|n p t s|n p s]|e]|]; try discriminate. exists 0, n, p, t, s. split; [reflexivity|]. split; [apply Nat.leb_le, K|cbn; lia].
  - intros H. destruct (IH H) as (i & n & p & t & s & E & L & I). exists (S i), n, p, t, s. split; [exact E|]. split; [exact L|cbn; lia].
Qed.
Lemma nth_skipn {A} (d : A) i j : forall l, nth i (skipn j l) d = nth (j + i) l d.
Proof. induction j as [|j IH]; intros [|x l]; cbn; try reflexivity; [destruct i; reflexivity|apply IH]. Qed.
Lemma msgs_listing full pl tl : msgs full (listing pl tl) = length (filter (keyword_line full) pl).
Proof.
  unfold msgs, listing. induction pl as [|l pl IH]; cbn [map app filter kw]; [destruct tl; reflexivity|]. destruct (keyword_line full l); cbn [length]; rewrite IH; reflexivity.
Qed.
Section Run.
  Variables (evs : list rd_event) (bs : list byte) (ls : list str) (e : option ioerr) (pl : list po_line) (tl : option error).
  Hypothesis Fl : flowing evs bs.
  Hypothesis Fi : file evs ls e pl tl.
  Let evs1 := evs ++ [RdInterrupted].
  Let L := listing pl tl.
  Lemma run_polls k : nth k L None = poll k (li_new evs1).
  Proof.
    destruct Fi as (bs' & f & D & C & P). destruct (delivers_det _ _ _ (flowing_delivers _ _ Fl) _ _ D) as [<- <-].
    rewrite <- (responses_exact (li_new evs1) k), (responses_contents evs1 bs None ls e (delivers_interrupted _ _ _ D) C), (parsed_items _ _ _ _ _ P). reflexivity.
  Qed.
  Lemma run_unread l r : rsim (li_new evs1) L l r -> 1 <= msgs (full_lines bs) (rd_lines r) -> exists x, unread l = Some (x ++ [RdInterrupted]).
  Proof.
    intros R M. destruct (msgs_in _ _ M) as (i & n & p & t & s & E & Le & _). destruct (proj2 R) as (j & Es & At). rewrite Es, nth_skipn in E.
    assert (j + i < length pl) as Li.
    { unfold L, listing in E. destruct (Nat.lt_ge_cases (j + i) (length pl)) as [H|H]; [exact H|exfalso]. rewrite app_nth2 in E by (rewrite map_length; exact H). rewrite map_length in E.
      destruct tl as [x|]; cbn in E; destruct (j + i - length pl) as [|[|q]]; discriminate. }
    assert (exists q, pk_iter (lr_lines l) = after q (li_new evs1) /\ q <= S (j + i)) as (q & Eq & Lq).
    { unfold at_line in At. destruct (pk_peeked _) as [x|]; [exists (S j)|exists j]; (split; [apply At|lia]). }
    assert (li_n (after (S (j + i)) (li_new evs1)) = n + 1)%N as En.
    { rewrite after_S. pose proof (run_polls (j + i)) as Q. rewrite poll_after, E in Q. destruct (li_next (after (j + i) (li_new evs1))) as [y it'] eqn:X. cbn [fst snd] in *. subst y. apply li_next_line in X. exact X. }
    assert (li_n (after q (li_new evs1)) <= n + 1)%N as Lqn.
    { rewrite <- En. replace (S (j + i)) with (q + (S (j + i) - q)) by lia. generalize (S (j + i) - q). intros d.
      assert (forall q it, after (q + d) it = after d (after q it)) as A by (clear; intros q; induction q as [|q IH]; intros it; cbn [Nat.add after]; [reflexivity|apply IH]).
      rewrite A. apply after_mono. }
    unfold unread. rewrite Eq.
    destruct (after_ahead [RdInterrupted] q (li_new evs1) (Source [] evs1) (full_lines bs)) as (s' & k' & Es' & x & b' & Ex & _).
    - reflexivity.
    - exists evs, bs. cbn [s_events s_buf app]. auto.
    - intros k Lk. rewrite <- run_polls. unfold L, listing. rewrite app_nth1 by (rewrite map_length; lia). destruct (nth_error pl k) as [y|] eqn:Y; [|apply nth_error_None in Y; lia].
      exists y. apply nth_error_nth. exact (map_nth_error (fun l => Some (ILine l)) k pl Y).
    - cbn [li_new li_n]. lia.
    - exists x. rewrite Es'. cbn [option_map]. rewrite Ex. reflexivity.
  Qed.
  Lemma run_live l r : rsim (li_new evs1) L l r -> 1 <= msgs (full_lines bs) (rd_lines r) -> live [RdInterrupted] (lr_lines l).
  Proof.
    intros R M. destruct (run_unread l r R M) as (x & U). unfold live, live_it. unfold unread in U. destruct (li_inner _) as [s|]; [|discriminate]. injection U as U. unfold live_src. rewrite U, app_length. lia.
  Qed.
End Run.
Lemma lz_read_line_forms l : lr_plural_forms (snd (lz_read_line l)) = lr_plural_forms l.
Proof. unfold lz_read_line. repeat match goal with |- context [match ?x with _ => _ end] => destruct x end; reflexivity. Qed.
Lemma lz_next_unit_forms first l : lr_plural_forms (snd (lz_next_unit first l)) = lr_plural_forms l.
Proof.
  unfold lz_next_unit. assert (lr_plural_forms (snd (lz_read_unit first l)) = lr_plural_forms l) as H.
  { unfold lz_read_unit. repeat match goal with |- context [match lz_read_line ?x with _ => _ end] => pose proof (lz_read_line_forms x); destruct (lz_read_line x) | |- context [match ?x with _ => _ end] => destruct x end; cbn [snd] in *; assumption || reflexivity. }
  destruct (lz_read_unit first l) as [[[u|]|e|] l1]; exact H.
Qed.
Lemma parse_ok lib pf evs : lz_parse lib pf evs <> Panic.
Proof. pose proof (parse_agree lib pf evs) as A. intros E. rewrite E in A. inversion A as [| |E1 E2]. apply (reader_new_no_panic lib pf (responses (li_new evs))). symmetry. first [exact E1|exact E2]. Qed.
Lemma reader_new_takes full lib pf ls r : reader_new lib pf ls = Ok r -> msgs full ls <= msgs full (rd_lines r) + room None + room (rd_plural_forms r).
Proof.
  unfold reader_new. set (r0 := Reader _ _ _ _ _ _ _). pose proof (next_unit_takes full true r0) as T. change (rd_lines r0) with ls in T. change (rd_plural_forms r0) with (@None plural_forms) in T.
  destruct (next_unit true r0) as [[[[u|e]|]|] r1]; cbn [snd] in T; try discriminate; [|intros [= <-]; cbn [with_next_unit rd_lines rd_plural_forms]; lia].
  cbv zeta. destruct (msg_is_empty _); [|intros [= <-]; cbn [with_next_unit rd_lines rd_plural_forms]; lia].
  set (r2 := with_next_unit r1 _). assert (rd_lines (snd (parse_po_header lib pf r2)) = rd_lines r1) as EL.
  { unfold parse_po_header. cbn [r2 with_next_unit rd_next_unit]. cbv zeta. destruct (sm_get _ _) as [d|]; [|reflexivity]. destruct (is_empty d); [reflexivity|]. destruct (plural_forms_parse pf d); reflexivity. }
  destruct (parse_po_header lib pf r2) as [[z|e|] r3]; cbn [snd] in EL; try discriminate.
  pose proof (next_unit_takes full false r3) as T3. pose proof (next_unit_eq false r3) as Q. destruct (next_unit false r3) as [[nu|] r4]; try discriminate. cbn [snd] in T3. injection Q as _ Q.
  intros [= <-]. cbn [with_next_unit rd_lines rd_plural_forms]. assert (rd_plural_forms r4 = rd_plural_forms r3) as -> by (rewrite Q; reflexivity). rewrite EL in T3. lia.
Qed.
Section Settled.
  Variables (lib : lang_lib) (pf : platform) (evs : list rd_event) (bs : list byte) (ls : list str) (e : option ioerr) (pl : list po_line) (tl : option error).
  Hypothesis Fl : flowing evs bs.
  Hypothesis Fi : file evs ls e pl tl.
  Hypothesis En : room None < length (filter (keyword_line (full_lines bs)) pl).
  Lemma settled : (exists err, forall rest, lz_parse lib pf (evs ++ rest) = Err err) \/ (exists f, forall rest, exists rd, lz_parse lib pf (evs ++ rest) = Ok rd /\ lr_plural_forms rd = f).
  Proof.
    set (start := fun ev => LReader (Peekable None (li_new ev)) None [] [] [] (lang_invariant lib) None).
    set (l0 := start (evs ++ [RdInterrupted])). set (r0 := Reader (listing pl tl) None [] [] [] (lang_invariant lib) None).
    assert (rsim (li_new (evs ++ [RdInterrupted])) (listing pl tl) l0 r0) as R0.
    { split; [reflexivity|]. exists 0. split; [reflexivity|]. unfold at_line. reflexivity. }
    pose proof (run_polls _ _ _ _ _ _ Fl Fi) as HL.
    destruct (next_unit_agree _ _ HL true l0 r0 R0) as [E1 R1].
    assert (live [RdInterrupted] (lr_lines (snd (lz_next_unit true l0)))) as Lv.
    { apply (run_live _ _ _ _ _ _ Fl Fi _ _ R1). pose proof (next_unit_takes (full_lines bs) true r0) as T. change (rd_lines r0) with (listing pl tl) in T. rewrite msgs_listing in T. change (rd_plural_forms r0) with (@None plural_forms) in T. lia. }
    assert (forall rest, fst (lz_next_unit true (start (evs ++ rest))) = fst (lz_next_unit true l0) /\ rrel [RdInterrupted] rest (snd (lz_next_unit true l0)) (snd (lz_next_unit true (start (evs ++ rest))))) as K.
    { intros rest. assert ([RdInterrupted] <> []) as Hne by discriminate. apply (next_unit_follows [RdInterrupted] rest Hne true l0 Lv). split; [|reflexivity]. split; [reflexivity|]. do 2 eexists. split; [reflexivity|]. split; [reflexivity|]. split; [reflexivity|]. exists [], evs. split; reflexivity. }
    pose proof (lz_next_unit_forms true l0) as F1. change (lr_plural_forms l0) with (@None plural_forms) in F1.
    destruct (lz_next_unit true l0) as [o l1]. cbn [fst snd] in *.
    assert (o <> Crash) as NC by (rewrite E1; apply next_unit_no_panic). destruct o as [nu|]; [|congruence]. clear NC.
    assert (forall rest, exists m1, lz_next_unit true (start (evs ++ rest)) = (Val nu, m1) /\ rrel [RdInterrupted] rest l1 m1) as K'.
    { intros rest. destruct (K rest) as [A B]. destruct (lz_next_unit true _) as [o m1]. cbn [fst snd] in *. subst o. eauto. }
    clear K. destruct nu as [[u|err]|].
    - destruct (msg_is_empty (u_message u)) eqn:Hd.
      + assert ([RdInterrupted] <> []) as Hne by discriminate. pose proof (fun rest => header_follows [RdInterrupted] rest lib pf (lr_with_next_unit l1 (Some (UOk u)))) as HF.
        assert (lr_lines (snd (lz_parse_po_header lib pf (lr_with_next_unit l1 (Some (UOk u))))) = lr_lines l1) as EL.
        { unfold lz_parse_po_header. cbn [lr_with_next_unit lr_next_unit]. cbv zeta. destruct (sm_get _ _) as [d|]; [|reflexivity].
          destruct (is_empty d); [reflexivity|]. destruct (plural_forms_parse pf d); reflexivity. }
        rewrite EL in HF. destruct (lz_parse_po_header lib pf (lr_with_next_unit l1 (Some (UOk u)))) as [o l3]. cbn [fst snd] in *.
        assert (forall rest, exists m1 m3, lz_next_unit true (start (evs ++ rest)) = (Val (Some (UOk u)), m1) /\ lz_parse_po_header lib pf (lr_with_next_unit m1 (Some (UOk u))) = (o, m3) /\ rrel [RdInterrupted] rest l3 m3) as K.
        { intros rest. destruct (K' rest) as (m1 & A & R). destruct (HF rest Lv) as [_ H]. destruct (H _ (rrel_next_unit _ _ _ _ _ R)) as [B C].
          destruct (lz_parse_po_header lib pf (lr_with_next_unit m1 _)) as [o' m3] eqn:Q. cbn [fst snd] in *. subst o'. exists m1, m3. auto. }
        destruct o as [z|err|].
        * right. exists (lr_plural_forms l3). intros rest. destruct (K rest) as (m1 & m3 & A & B & C). pose proof (parse_ok lib pf (evs ++ rest)) as NP.
          unfold lz_parse in *. fold (start (evs ++ rest)) in *. rewrite A in *. cbv zeta in *. rewrite Hd, B in *.
          pose proof (lz_next_unit_forms false m3) as F3. destruct (lz_next_unit false m3) as [[nu|] m4]; [|congruence]. cbn [snd] in F3. eexists. split; [reflexivity|].
          cbn [lr_with_next_unit lr_plural_forms]. rewrite F3. exact (rrel_forms _ _ _ _ C).
        * left. exists err. intros rest. destruct (K rest) as (m1 & m3 & A & B & C). unfold lz_parse. fold (start (evs ++ rest)). rewrite A. cbv zeta. rewrite Hd, B. reflexivity.
        * exfalso. destruct (K []) as (m1 & m3 & A & B & C). apply (parse_ok lib pf (evs ++ [])). unfold lz_parse. fold (start (evs ++ [])). rewrite A. cbv zeta. rewrite Hd, B. reflexivity.
      + right. exists None. intros rest. destruct (K' rest) as (m1 & A & R). unfold lz_parse. fold (start (evs ++ rest)). rewrite A. cbv zeta. rewrite Hd. eexists. split; [reflexivity|].
        cbn [lr_with_next_unit lr_plural_forms]. rewrite (rrel_forms _ _ _ _ R). exact F1.
    - left. exists err. intros rest. destruct (K' rest) as (m1 & A & R). unfold lz_parse. fold (start (evs ++ rest)). rewrite A. reflexivity.
    - right. exists None. intros rest. destruct (K' rest) as (m1 & A & R). unfold lz_parse. fold (start (evs ++ rest)). rewrite A. cbv zeta. eexists. split; [reflexivity|].
      cbn [lr_with_next_unit lr_plural_forms]. rewrite (rrel_forms _ _ _ _ R). exact F1.
  Qed.
End Settled.

Theorem progress lib pf src : keeps_coming src -> (exists e, refused lib pf src e) \/ (forall k, exists xs, obtained lib pf src k xs).
Proof.
  intros KC. destruct (KC (S (room None))) as (ma & bsa & lsa & ea & pla & tla & _ & Fla & Fia & Ca).
  destruct (settled lib pf _ _ _ _ _ _ Fla Fia Ca) as [(err & H)|(f & H)]; [left; exists err, ma; exact H|right]. intros k.
  destruct (KC (ma + (1 + room None + room f + k * room f))) as (m & bs & ls & e & pl & tl & Lm & Fl & Fi & C).
  pose proof (run_polls _ _ _ _ _ _ Fl Fi) as HL. set (evs1 := first_reads src m ++ [RdInterrupted]) in *.
  pose proof (parse_agree_on lib pf evs1 (listing pl tl) HL) as A.
  assert (exists t, first_reads src m = first_reads src ma ++ t) as (t & Et).
  { destruct (first_reads_app src ma (m - ma)) as (t & Et). replace (ma + (m - ma)) with m in Et by lia. eauto. }
  destruct (H (t ++ [RdInterrupted])) as (l & El & Ff). rewrite app_assoc, <- Et in El. fold evs1 in El. rewrite El in A.
  inversion A as [l' r R E1 E2| |]. subst l'. symmetry in E2. clear A.
  pose proof (reader_new_takes (full_lines bs) _ _ _ _ E2) as T. rewrite msgs_listing in T. pose proof (calls_takes (full_lines bs) k r) as T2.
  assert (rd_plural_forms r = f) as Fr by (rewrite (proj1 R); exact Ff). rewrite Fr in *.
  destruct (calls_agree _ _ HL k l r R) as [Ec R2].
  destruct (run_unread _ _ _ _ _ _ Fl Fi _ _ R2) as (x & U); [lia|].
  exists (fst (lz_calls k l)), m. intros rest. assert (x ++ [RdInterrupted] <> []) as NE by (destruct x; discriminate).
  destruct (future lib pf evs1 l k _ El U NE) as (used & Eu & Fu). unfold evs1 in Eu. rewrite app_assoc in Eu. apply app_inj_tail in Eu as [Eu _].
  destruct (Fu (x ++ rest)) as (m' & Em & Ec' & Um). exists m', x. rewrite Eu, <- app_assoc. auto.
Qed.

(** * Comments only *)
Lemma delivers_fail evs bs : flowing evs bs -> delivers (evs ++ [RdError 1%N]) bs (Some 1%N).
Proof. induction 1; cbn [app]; [apply dl_fail|apply dl_interrupted; assumption|apply dl_data; assumption]. Qed.
Lemma contents_fail bs ls : contents bs None ls None -> exists j, contents bs (Some 1%N) (firstn j ls) (Some (IoRead 1%N)).
Proof.
  intros C. remember (@None N) as f eqn:Ef. remember (@None ioerr) as e eqn:Ee. revert Ef Ee. induction C as [|s N1 O S|l N1 N2|l c N1|s t bs f ls e O S E C IH|l bs f N1 N2]; intros Ef Ee; try discriminate.
  - exists 0. apply ct_fail. intros [].
  - exists 0. apply ct_fail. apply in_lf_utf8, O.
  - destruct (IH Ef Ee) as (j & K). exists (Datatypes.S j). cbn [firstn]. apply ct_line; assumption.
Qed.
Lemma parsed_fail n ls pl err : parsed n ls None pl None -> forall j, exists i q, parsed n (firstn j ls) (Some err) (firstn i pl) (Some (EIo q err)).
Proof.
  intros P. remember (@None ioerr) as e eqn:Ee. remember (@None error) as tl eqn:Et. revert Ee Et. induction P as [n|n e|n s ls e O B|n s ls e pl tl O L P IH|n s l ls e pl tl O L NB P IH]; intros Ee Et [|j]; try discriminate.
  1-3,5: exists 0, n; apply ps_fail.
  - destruct (IH Ee Et j) as (i & q & K). exists i, q. cbn [firstn]. apply ps_blank; assumption.
  - destruct (IH Ee Et j) as (i & q & K). exists (S i), q. cbn [firstn]. apply ps_line; assumption.
Qed.
Definition is_comment (l : po_line) : Prop := exists n k s, l = PComment n k s.
Lemma comments_end pl tl : Forall is_comment pl -> forall u, exists u', parse_comments u (listing pl tl) = parse_comments u' (ending tl).
Proof.
  induction 1 as [|l pl (n & k & s & ->) F IH]; intros u; [exists u; reflexivity|]. rewrite listing_cons. cbn [parse_comments]. apply IH.
Qed.
Lemma comments_ok lib pf pl : Forall is_comment pl -> exists r, reader_new lib pf (listing pl None) = Ok r.
Proof.
  intros F. unfold reader_new. rewrite next_unit_eq. cbn [rd_lines rd_plural_forms]. unfold runit. destruct (comments_end pl None F unit_default) as (u & ->). cbn. eauto.
Qed.
Lemma comments_err lib pf pl e : Forall is_comment pl -> reader_new lib pf (listing pl (Some e)) = Err e.
Proof.
  intros F. unfold reader_new. rewrite next_unit_eq. cbn [rd_lines rd_plural_forms]. unfold runit. destruct (comments_end pl (Some e) F unit_default) as (u & ->). reflexivity.
Qed.
Lemma file_polls evs ls e pl tl : file evs ls e pl tl -> forall k, nth k (listing pl tl) None = poll k (li_new evs).
Proof. intros (bs & f & D & C & P) k. rewrite <- (responses_exact (li_new evs) k), (responses_contents evs bs f ls e D C), (parsed_items _ _ _ _ _ P). reflexivity. Qed.
Theorem waits lib pf src : only_comments src -> (forall e, ~ refused lib pf src e) /\ (forall k xs, ~ obtained lib pf src k xs).
Proof.
  intros H. split.
  - intros e (m & R). destruct (H m) as (bs & ls & pl & Fl & Fi & F). specialize (R []). rewrite app_nil_r in R.
    pose proof (parse_agree_on lib pf _ _ (file_polls _ _ _ _ _ Fi)) as A. rewrite R in A. destruct (comments_ok lib pf pl F) as (r & E). rewrite E in A. inversion A.
  - intros k xs (m & O). destruct (H m) as (bs & ls & pl & Fl & (bs' & f & D & C & P) & F). destruct (delivers_det _ _ _ (flowing_delivers _ _ Fl) _ _ D) as [<- <-].
    destruct (contents_fail _ _ C) as (j & C'). destruct (parsed_fail _ _ _ (IoRead 1%N) P j) as (i & q & P').
    assert (file (first_reads src m ++ [RdError 1%N]) (firstn j ls) (Some (IoRead 1%N)) (firstn i pl) (Some (EIo q (IoRead 1%N)))) as Fi.
    { exists bs, (Some 1%N). split; [apply delivers_fail, Fl|auto]. }
    destruct (O [RdError 1%N]) as (rd & x & E & _). pose proof (parse_agree_on lib pf _ _ (file_polls _ _ _ _ _ Fi)) as A. rewrite E in A.
    rewrite comments_err in A by (apply Forall_forall; intros l I; apply (proj1 (Forall_forall _ _) F); rewrite <- (firstn_skipn i pl); apply in_or_app; left; exact I). inversion A.
Qed.
