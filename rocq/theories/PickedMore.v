(** Selections of the entries of a file whose first entry has no msgid. *)
From Coq Require Import String Arith NArith ZArith Bool List Lia.
From Verif Require Import ModelBase ModelUtf8 ModelLine ModelFormula ModelData ModelSource ModelReader
  SpecLine SpecFormula SpecSource SpecReader SpecBlock SpecHeader SpecFile SpecWhole SpecPicked BaseFacts LineFacts LineThms StreamThms SourceFacts
  BlockFacts CommentFacts UnitFacts BlocksFacts FirstFacts FileFacts BlockThms EntryThms WriterFacts IndepFacts ExtractedFacts WholeFacts FileIntro FlagFacts PickedFacts.
Import ListNotations.
Local Open Scope N_scope.

(** Like [texts_read], and each block is what its text is read as. *)
Lemma texts_read_at forms blks us : Forall2 (entry_text forms) blks us -> plain (concat blks) -> forall n,
  exists bls, rd n (concat blks) (concat bls) /\ Forall2 (unit_entry forms) bls us /\ Forall2 (fun t b => exists m, parsed m t None b None) blks bls.
Proof.
  induction 1 as [|blk u blks us (b & R & U) H IH]; intros P n.
  - exists []. split; [constructor|]. split; constructor.
  - cbn [concat] in *. apply plain_app in P as [P1 P2]. destruct (parsed_anywhere blk P1 1 b R n) as (b' & R' & A).
    destruct (IH P2 (n + N.of_nat (length blk))) as (bls & R2 & F & G). exists (b' :: bls). split; [apply rd_app; assumption|].
    split; constructor; [eapply unit_entry_alike; eassumption|exact F|exists n; exact R'|exact G].
Qed.
Lemma headless_ends_app h b r : b <> [] -> headless_ends h b None -> headless_ends h (b ++ r) None.
Proof. destruct b as [|l b]; [contradiction|]. intros _ H. exact H. Qed.
Theorem idless_separable lib pf evs ls e pl tl c : file evs ls e pl tl -> read_catalogue lib pf evs = Ok c -> idless_start pl tl ->
  exists h u hls blks rest, ls = hls ++ concat blks ++ rest /\ parsed 1 hls None h None /\ headless None h u /\ Forall2 (entry_text None) blks (units (c_items c))
  /\ (~ Forall comment_line h -> (forall blk m b, In blk blks -> parsed m blk None b None -> headless_ends h b None) -> separable lib pf c hls blks).
Proof.
  intros Fi R (h & r & u & -> & Hl & He). pose proof Fi as (bs & f & D & C & P). pose proof (parsed_written _ _ _ _ _ P) as W. apply Forall_app in W as [_ W].
  destruct (blocks_total None r tl W) as (us & o & B).
  destruct (read_header lib pf evs ls e _ tl h u [] r None us o Fi eq_refl (fe_headless _ _ _ _ Hl He) (headless_header _ _ _ Hl) (hf_absent pf [] eq_refl) B) as (c0 & R0 & Hs & Ei).
  rewrite R in R0. injection R0 as <-. pose proof (contents_one_line _ _ _ _ C) as Pl.
  destruct (blocks_cut _ _ _ _ _ B) as (bls & rest & -> & Fb). destruct (parsed_split _ _ _ _ _ P _ _ eq_refl) as (hls & l2 & -> & Ph & P2).
  destruct (lines_cut _ _ _ _ _ _ P2) as (blks & rl & -> & Fl). apply plain_app in Pl as [Ph' Pb]. apply plain_app in Pb as [Pb _].
  pose proof (entry_texts None _ _ _ Pb Fl Fb) as T. exists h, u, hls, blks, rl. split; [reflexivity|]. split; [exact Ph|]. split; [exact Hl|].
  unfold separable. rewrite Ei, units_of. split; [exact T|]. intros NC S. split; [exact (texts_length _ _ _ T)|].
  intros sel vs evs' bs' K C' D'. pose proof (picked_texts _ _ _ _ _ T K) as Ts. pose proof (contents_one_line _ _ _ _ C') as P'. apply plain_app in P' as [_ Ps].
  destruct (texts_read_at None sel vs Ts Ps (1 + N.of_nat (length hls))) as (bls' & R' & F' & G').
  assert (file evs' (hls ++ concat sel) None (h ++ concat bls') None) as Fi' by (exists bs', None; split; [exact D'|]; split; [exact C'|]; apply rd_app; assumption).
  assert (He' : headless_ends h (concat bls') None).
  { destruct G' as [|blk b sel bls' (m & Pm) G]; [split; [reflexivity|exact NC]|]. cbn [concat]. apply headless_ends_app.
    - inversion F' as [|? ? ? ? [En _] _]; subst. destruct (entry_starter _ _ _ En) as (l & x & -> & _). discriminate.
    - apply (S blk m b); [|exact Pm]. destruct K as (ks & K & _). inversion K as [|k ? ? ? Hk _]; subst. apply nth_error_In in Hk. exact Hk. }
  destruct (read_header lib pf evs' _ _ _ _ h u [] (concat bls') None vs None Fi' eq_refl (fe_headless _ _ _ _ Hl He') (headless_header _ _ _ Hl) (hf_absent pf [] eq_refl)) as (c' & Rc & Hs' & Ei').
  { apply blocks_entries. split; [apply entries_only, F'|reflexivity]. }
  exists c'. rewrite app_nil_r in Ei'. split; [exact Rc|]. split; [exact (header_heads _ _ _ _ _ Hs Hs')|exact Ei'].
Qed.

(** * Entries that begin with comments *)
Definition orderly (b : list po_line) : Prop := exists cs ks, b = cs ++ ks /\ Forall comment_line cs /\ Forall (fun l => ~ comment_line l) ks.
Lemma strings_orderly p a t : strings p a t -> Forall (fun l => ~ comment_line l) a.
Proof. induction 1; constructor; [intros []|assumption]. Qed.
Lemma field_orderly p kw a t : field p kw a t -> Forall (fun l => ~ comment_line l) a.
Proof. intros [n s ls x S]. constructor; [intros []|eapply strings_orderly; eassumption]. Qed.
Lemma opt_orderly p kw a o : opt_field p kw a o -> Forall (fun l => ~ comment_line l) a.
Proof. intros [|ls s F]; [constructor|eapply field_orderly; eassumption]. Qed.
Lemma values_orderly p k i a vs : values p k i a vs -> Forall (fun l => ~ comment_line l) a.
Proof. induction 1 as [|i k' kw ls s ls' vs I K M F V IH]; [constructor|]. apply Forall_app. split; [eapply field_orderly; eassumption|exact IH]. Qed.
Lemma previous_orderly forms obs a m : previous forms obs a m -> Forall (fun l => ~ comment_line l) a.
Proof. intros [|l id F|a1 id b pl F1 F2]; [constructor|eapply field_orderly; eassumption|]. apply Forall_app. split; eapply field_orderly; eassumption. Qed.
Lemma body_orderly forms obs a m : body forms obs a m -> Forall (fun l => ~ comment_line l) a.
Proof.
  intros [l1 id l2 t F1 F2|l1 id l2 pl l3 vs F1 F2 V NE]; apply Forall_app; (split; [eapply field_orderly; eassumption|]); [eapply field_orderly; eassumption|].
  apply Forall_app. split; [eapply field_orderly; eassumption|eapply values_orderly; eassumption].
Qed.
Lemma comments_orderly cs F N L C : block_comments cs F N L C -> Forall comment_line cs.
Proof. induction 1; constructor; auto; exact Logic.I. Qed.
Lemma entry_orderly forms b u : entry forms b u -> orderly b.
Proof.
  intros [cs F N L C obs ks pc pm c m st B [l1 pc' l2 pm' l3 c' l4 m' K1 K2 K3 K4] St]. exists cs, (l1 ++ l2 ++ l3 ++ l4). split; [reflexivity|]. split; [eapply comments_orderly; eassumption|].
  rewrite !Forall_app. repeat split; eauto using opt_orderly, previous_orderly, body_orderly.
Qed.
Lemma headless_orderly forms b u : headless forms b u -> orderly b.
Proof.
  intros [cs F N L C obs l1 pc l2 pm l3 c l4 t st B K1 K2 K3 K4 St]. exists cs, (l1 ++ l2 ++ l3 ++ l4). split; [reflexivity|]. split; [eapply comments_orderly; eassumption|].
  rewrite !Forall_app. repeat split; eauto using opt_orderly, previous_orderly, field_orderly.
Qed.
Lemma awaited_orderly forms b w : awaited forms b w -> orderly b.
Proof.
  assert (O : forall obs p, opening forms obs p -> exists cs ks, p = cs ++ ks /\ Forall comment_line cs /\ Forall (fun l => ~ comment_line l) ks).
  { intros obs p [cs F N L C l1 pc l2 pm l3 c B K1 K2 K3]. exists cs, (l1 ++ l2 ++ l3). split; [reflexivity|]. split; [eapply comments_orderly; eassumption|].
    rewrite !Forall_app. repeat split; eauto using opt_orderly, previous_orderly, field_orderly. }
  intros [obs p H|obs p l id H Fl|obs p l id l' pl H F1 F2]; destruct (O _ _ H) as (cs & ks & -> & A & B).
  - exists cs, ks. repeat split; assumption.
  - exists cs, (ks ++ l). rewrite app_assoc. split; [reflexivity|]. split; [exact A|]. apply Forall_app. eauto using field_orderly.
  - exists cs, (ks ++ l ++ l'). rewrite !app_assoc. split; [reflexivity|]. split; [exact A|]. rewrite !Forall_app. repeat split; eauto using field_orderly.
Qed.
Lemma orderly_stops h l q : ~ Forall comment_line h -> comment_line l -> ~ orderly (h ++ l :: q).
Proof.
  intros NC Cl (cs & ks & E & A & B). apply app_eq_app in E as (x & [(-> & E)|(-> & E)]).
  - destruct x as [|y x]; [rewrite app_nil_r in NC; contradiction|]. assert (In l ks) as I by (rewrite E; right; apply in_app_iff; right; left; reflexivity).
    rewrite Forall_forall in B. exact (B _ I Cl).
  - apply NC. apply Forall_app in A as [A _]. exact A.
Qed.
Theorem comment_ends h l b : ~ Forall comment_line h -> comment_line l -> headless_ends h (l :: b) None.
Proof.
  intros NC Cl. split.
  - intros [(q & u & En)|(w & Aw)].
    + apply entry_orderly in En. rewrite <- app_assoc in En. exact (orderly_stops _ _ _ NC Cl En).
    + apply awaited_orderly in Aw. exact (orderly_stops _ _ _ NC Cl Aw).
  - intros u Hl. apply headless_orderly in Hl. exact (orderly_stops _ _ _ NC Cl Hl).
Qed.
