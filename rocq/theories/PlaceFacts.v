(** Every unit has its place in the file, and only one. *)
From Coq Require Import String Arith NArith ZArith Bool List Lia.
From Verif Require Import ModelBase ModelUtf8 ModelRegex ModelLine ModelFormula ModelData ModelSource ModelReader
  SpecLine SpecFormula SpecSource SpecReader SpecBlock SpecHeader SpecFile BaseFacts LineFacts LineThms DecFacts SourceFacts IterFacts ReaderFacts ReadsFacts CatalogueFacts LocalFacts StreamFacts
  BlockFacts CommentFacts UnitFacts SoundFacts BlocksFacts FirstFacts FileFacts MapFacts HeaderFacts BlockThms EntryThms.
Import ListNotations.
Local Open Scope N_scope.

(** * The end of an entry is determined by what follows *)
Lemma entry_cut forms b u r b' u' r' tl : Forall written (b ++ r) -> entry forms b u -> ends_at forms b r tl ->
  entry forms b' u' -> ends_at forms b' r' tl -> b ++ r = b' ++ r' -> b = b' /\ r = r' /\ u = u'.
Proof.
  intros W E Ea E' Ea' Q. pose proof W as W'. rewrite Q in W'. apply Forall_app in W as [_ W], W' as [_ W'].
  pose proof (runit_first_entry forms b u r tl E (ends_boundary _ _ _ _ W Ea)) as A.
  pose proof (runit_first_entry forms b' u' r' tl E' (ends_boundary _ _ _ _ W' Ea')) as B.
  rewrite Q, B in A. injection A as -> A. apply listing_inj in A as [-> _]. apply app_inv_tail in Q. auto.
Qed.
Lemma next_ends forms b u bls us b' u' r tl : entry forms b u -> Forall2 (unit_entry forms) bls us -> entry forms b' u' ->
  ends_at forms b (concat bls ++ b' ++ r) tl.
Proof.
  intros E F E'. destruct F as [|b1 v bls us [E1 _] F]; cbn [concat app].
  - destruct (entry_starter _ _ _ E') as (l & x & -> & S). cbn [app]. eapply starter_ends; eassumption.
  - destruct (entry_starter _ _ _ E1) as (l & x & -> & S). cbn [app]. eapply starter_ends; eassumption.
Qed.
Lemma places forms bls us : Forall2 (unit_entry forms) bls us -> forall bls' us' b u r b' u' r' tl, Forall2 (unit_entry forms) bls' us' -> length us = length us' ->
  Forall written (concat bls ++ b ++ r) ->
  unit_entry forms b u -> ends_at forms b r tl -> unit_entry forms b' u' -> ends_at forms b' r' tl ->
  concat bls ++ b ++ r = concat bls' ++ b' ++ r' -> bls = bls' /\ b = b' /\ r = r'.
Proof.
  induction 1 as [|b0 u0 bls us [E0 S0] F IH]; intros bls' us' b u r b' u' r' tl F' L W [E S] Ea [E' S'] Ea' Q.
  - destruct F'; [|discriminate]. cbn [concat app] in *. destruct (entry_cut _ _ _ _ _ _ _ _ W E Ea E' Ea' Q) as (-> & -> & _). auto.
  - destruct F' as [|b1 u1 bls' us' [E1 S1] F']; [discriminate|]. cbn [concat length] in *. rewrite <- app_assoc in W. rewrite <- (app_assoc b0), <- (app_assoc b1) in Q.
    destruct (entry_cut forms b0 u0 _ b1 u1 _ tl W E0 (next_ends _ _ _ _ _ _ _ _ _ E0 F E) E1 (next_ends _ _ _ _ _ _ _ _ _ E1 F' E') Q) as (-> & Q' & _).
    apply Forall_app in W as [_ W]. destruct (IH bls' us' b u r b' u' r' tl F' ltac:(lia) W (conj E S) Ea (conj E' S') Ea' Q') as (-> & -> & ->). auto.
Qed.
(** * The header *)
Lemma first_cut h r u h' r' u' tl : Forall written (h ++ r) -> first_entry h r tl u -> first_entry h' r' tl u' -> h ++ r = h' ++ r' ->
  h = h' /\ r = r' /\ u_message u = u_message u'.
Proof.
  intros W F F' Q. destruct (first_read h u r tl W F) as (v & A & _ & _ & M). rewrite Q in W.
  destruct (first_read h' u' r' tl W F') as (v' & A' & _ & _ & M'). rewrite Q, A' in A. injection A as -> A. apply listing_inj in A as [-> _].
  apply app_inv_tail in Q. repeat split; congruence.
Qed.
Lemma forms_unique pf ps f f' : header_forms_of pf ps f -> header_forms_of pf ps f' -> (forall u, header u ps -> f = f').
Proof.
  intros A B u H. apply header_intro in H as [_ HP]. apply (header_forms_iff pf u ps) in A, B; try assumption. congruence.
Qed.
Lemma header_unique u u' ps ps' : header u ps -> header u' ps' -> u_message u = u_message u' -> ps = ps'.
Proof. intros (t & E & H) (t' & E' & H') M. rewrite E, E' in M. injection M as ->. exact (header_pairs_det _ _ _ H H'). Qed.
Lemma first_not_unit h u r b v r' tl : Forall written (h ++ r) -> first_entry h r tl u -> ~ has_source u -> unit_entry None b v -> ends_at None b r' tl -> h ++ r <> b ++ r'.
Proof.
  intros W F S [E S'] Ea Q. destruct (first_read h u r tl W F) as (w & A & _ & _ & M). rewrite Q in W. apply Forall_app in W as [_ W].
  rewrite Q, (runit_first_entry None b v r' tl E (ends_boundary _ _ _ _ W Ea)) in A. injection A as -> _. apply S. intros t X. apply (S' t). congruence.
Qed.
Lemma first_unit_ends forms bls us b u r tl : Forall2 (unit_entry forms) bls us -> unit_entry forms b u -> ends_at forms b r tl ->
  exists b1 u1 r1, concat bls ++ b ++ r = b1 ++ r1 /\ unit_entry forms b1 u1 /\ ends_at forms b1 r1 tl.
Proof.
  intros [|b1 u1 bls1 us1 U1 F] U Ea; cbn [concat app]; [exists b, u, r; auto|]. exists b1, u1, (concat bls1 ++ b ++ r). rewrite <- app_assoc. split; [reflexivity|].
  split; [exact U1|]. eapply next_ends; [apply U1|exact F|apply U].
Qed.
(** * The place of a unit *)
Theorem place_unique lib pf pl tl c k forms b u forms' b' u' : Forall written pl -> unit_at lib pf pl tl c k forms b u -> unit_at lib pf pl tl c k forms' b' u' ->
  forms = forms' /\ b = b' /\ u = u' .
Proof.
  intros W [h bls r us items E P F L Ei U Ea] [h' bls' r' us' items' E' P' F' L' Ei' U' Ea'].
  assert (u = u') as <-.
  { assert (forall us0 (x : unit_) i, length us0 = k -> nth_error (map UOk us0 ++ UOk x :: i) k = Some (UOk x)) as N.
    { intros us0 x i L0. rewrite nth_error_app2 by (rewrite map_length; lia). rewrite map_length, L0, Nat.sub_diag. reflexivity. }
    pose proof (N us u items L) as A. pose proof (N us' u' items' L') as B. rewrite <- Ei in A. rewrite <- Ei' in B. rewrite A in B. injection B as ->. reflexivity. }
  assert (h = h' /\ forms = forms') as [<- <-].
  { remember (concat bls ++ b ++ r) as x eqn:Ex. remember (concat bls' ++ b' ++ r') as x' eqn:Ex'.
    destruct P as [x tl c N|h x tl v ps forms c Fe H HF _].
    - destruct P' as [x' tl c _|h' x' tl v ps forms' c Fe H _ _]; [auto|]. exfalso. subst x. destruct (first_unit_ends _ _ _ _ _ _ _ F U Ea) as (b1 & u1 & r1 & Q & U1 & E1).
      rewrite E' in W. apply header_intro in H as [S _]. apply (first_not_unit h' v x' b1 u1 r1 tl W Fe S U1 E1). cbn [app] in E. congruence.
    - destruct P' as [x' tl c _|h' x' tl v' ps' forms' c Fe' H' HF' _].
      + exfalso. subst x'. destruct (first_unit_ends _ _ _ _ _ _ _ F' U' Ea') as (b1 & u1 & r1 & Q & U1 & E1).
        rewrite E in W. apply header_intro in H as [S _]. apply (first_not_unit h v x b1 u1 r1 tl W Fe S U1 E1). cbn [app] in E'. congruence.
      + rewrite E in W, E'. destruct (first_cut _ _ _ _ _ _ _ W Fe Fe' E') as (-> & _ & M). split; [reflexivity|].
        rewrite (header_unique _ _ _ _ H H' M) in *. exact (forms_unique _ _ _ _ HF HF' v' H'). }
  split; [reflexivity|]. split; [|reflexivity]. rewrite E in E', W. apply app_inv_head in E'. apply Forall_app in W as [_ W].
  destruct (places forms bls us F bls' us' b u r b' u r' tl F' ltac:(congruence) W U Ea U' Ea' E') as (_ & -> & _). reflexivity.
Qed.
Theorem file_places lib pf evs ls e pl tl c k forms b u forms' b' u' : file evs ls e pl tl -> unit_at lib pf pl tl c k forms b u -> unit_at lib pf pl tl c k forms' b' u' ->
  forms = forms' /\ b = b' /\ u = u'.
Proof. intros (bs & f & D & C & P). exact (place_unique lib pf pl tl c k forms b u forms' b' u' (parsed_written _ _ _ _ _ P)). Qed.
