(** Comment lines of an entry. *)
From Coq Require Import String Arith NArith ZArith Bool List Lia.
From Verif Require Import ModelBase ModelUtf8 ModelLine ModelFormula ModelData ModelSource ModelReader
  SpecLine SpecSource SpecReader SpecBlock BaseFacts LineFacts ReaderFacts ReadsFacts BlockFacts.
Import ListNotations.
Local Open Scope N_scope.

(** * Flags *)
Lemma trims_to_iff p f : trims_to p f <-> f = trim p.
Proof.
  split.
  - intros (w & w' & -> & B & B' & F & L). symmetry. apply trim_unique.
    + apply blanks_forallb, B.
    + apply blanks_forallb, B'.
    + split; [apply not_white_first_iff, F|apply not_white_last_iff, L].
  - intros ->. destruct (trim_decomp p) as (w & w' & E & B & B' & F & L). exists w, w'.
    repeat split; [exact E|apply blanks_forallb, B|apply blanks_forallb, B'|apply not_white_first_iff, F|apply not_white_last_iff, L].
Qed.
Lemma no_sep_forallb c s : ~ In c s -> forallb (fun x => negb (N.eqb c x)) s = true.
Proof. intros H. apply forallb_forall. intros x I. destruct (N.eqb_spec c x) as [->|]; [contradiction|reflexivity]. Qed.
Lemma split_separated c ps : ps <> [] -> (forall p, In p ps -> ~ In c p) -> split_on (N.eqb c) (separated c ps) = ps.
Proof.
  induction ps as [|p ps IH]; intros N H; [contradiction|]. cbn [separated].
  destruct ps as [|q ps].
  - apply split_on_nosep, no_sep_forallb, H. left; reflexivity.
  - rewrite split_on_app_sep; [|apply no_sep_forallb, H; left; reflexivity|apply N.eqb_refl].
    f_equal. apply IH; [discriminate|]. intros x I; apply H; right; exact I.
Qed.
Lemma separated_split c s : separated c (split_on (N.eqb c) s) = s /\ forall p, In p (split_on (N.eqb c) s) -> ~ In c p.
Proof.
  induction s as [|x s [E H]]; cbn [split_on].
  - split; [reflexivity|]. intros p [<-|[]] [].
  - pose proof (split_on_nonempty (N.eqb c) s) as NE. destruct (N.eqb_spec c x) as [<-|D].
    + split.
      * cbn [separated]. destruct (split_on (N.eqb c) s) as [|h t]; [contradiction|]. rewrite E. reflexivity.
      * intros p [<-|I] J; [exact J|exact (H p I J)].
    + destruct (split_on (N.eqb c) s) as [|h t]; [contradiction|]. split.
      * cbn [separated] in *. destruct t; cbn [app]; rewrite E; reflexivity.
      * intros p [<-|I] J; [destruct J as [J|J]; [congruence|exact (H h (or_introl eq_refl) J)]|exact (H p (or_intror I) J)].
Qed.
Lemma flag_list_iff s fs : flag_list s fs <-> fs = map trim (split_on (N.eqb 44) s).
Proof.
  split.
  - intros (ps & NE & -> & H & T). rewrite split_separated by assumption. clear NE H.
    induction T as [|p f ps fs T T' IH]; [reflexivity|]. cbn [map]. rewrite <- IH. f_equal. apply trims_to_iff, T.
  - intros ->. exists (split_on (N.eqb 44) s). destruct (separated_split 44 s) as [E H]. repeat split; [apply split_on_nonempty|symmetry; exact E|exact H|].
    clear; induction (split_on (N.eqb 44) s); cbn [map]; constructor; [apply trims_to_iff; reflexivity|assumption].
Qed.

(** * Locations *)
Notation nonempty_pieces s := (filter (fun x => negb (is_empty x)) (split_on is_ws s)).
Lemma pieces_blank w r : blanks w -> nonempty_pieces (w ++ r) = nonempty_pieces r.
Proof.
  induction w as [|c w IH]; intros B; [reflexivity|]. cbn [app].
  rewrite split_on_cons_sep by (apply is_ws_white, B; left; reflexivity). cbn [filter is_empty negb].
  apply IH. intros x I; apply B; right; exact I.
Qed.
Lemma pieces_word x r : x <> [] -> (forall c, In c x -> ~ white c) -> (forall c r', r = c :: r' -> white c) ->
  nonempty_pieces (x ++ r) = x :: nonempty_pieces r.
Proof.
  intros NE X R.
  assert (forallb (fun c => negb (is_ws c)) x = true) as K.
  { apply forallb_forall. intros c I. apply negb_true_iff, is_ws_not_white, X, I. }
  destruct r as [|c r].
  - rewrite app_nil_r, split_on_nosep by exact K. cbn [filter split_on]. destruct x; [contradiction|reflexivity].
  - assert (is_ws c = true) as W by (apply is_ws_white; eapply R; reflexivity).
    rewrite split_on_app_sep by assumption. rewrite split_on_cons_sep by exact W. cbn [filter]. destruct x; [contradiction|reflexivity].
Qed.
Lemma words_iff s ws : words s ws <-> ws = nonempty_pieces s.
Proof.
  split.
  - induction 1 as [w B|w x r ws B NE X R H IH].
    + pose proof (pieces_blank w [] B) as E. rewrite app_nil_r in E. rewrite E. reflexivity.
    + rewrite pieces_blank, pieces_word by assumption. rewrite IH. reflexivity.
  - intros ->. remember (length s) as k eqn:E. revert s E. induction k as [k IH] using lt_wf_ind. intros s ->.
    destruct (trim_start_decomp s) as (w & E & Hw & N). set (x := trim_start s) in *. clearbody x. subst s. apply blanks_forallb in Hw.
    rewrite pieces_blank by exact Hw. destruct x as [|c x].
    + rewrite app_nil_r. apply wd_end, Hw.
    + assert (exists y r, c :: x = y ++ r /\ y <> [] /\ (forall d, In d y -> ~ white d) /\ (forall d r', r = d :: r' -> white d)) as (y & r & E & NE & Y & R).
      { clear IH. cbn in N. apply is_ws_not_white in N. clear Hw. revert c N. induction x as [|d x IH]; intros c N.
        - exists [c], []. repeat split; [discriminate|intros d [<-|[]]; exact N|discriminate].
        - destruct (is_ws d) eqn:W.
          + exists [c], (d :: x). repeat split; [discriminate|intros e [<-|[]]; exact N|]. intros e r' [= <- _]. apply is_ws_white, W.
          + apply is_ws_not_white in W. destruct (IH d W) as (y & r & E & NE & Y & R). exists (c :: y), r. rewrite E. repeat split; [discriminate| |exact R].
            intros e [<-|I]; [exact N|exact (Y e I)]. }
      rewrite E. rewrite pieces_word by assumption. apply wd_word; try assumption.
      apply (IH (length r)); [|reflexivity]. rewrite app_length, E, app_length. destruct y; [contradiction|cbn; lia].
Qed.

(** * All comment lines *)
Definition is_comment (l : po_line) : Prop := exists n k s, l = PComment n k s.
Definition apply_line (u : unit_) (l : po_line) : unit_ := match l with PComment _ k s => apply_comment u k s | _ => u end.
Lemma block_comments_comment cs F N L C : block_comments cs F N L C -> Forall is_comment cs.
Proof. induction 1; constructor; try assumption; unfold is_comment; eauto. Qed.
Lemma block_comments_total cs : Forall is_comment cs -> exists F N L C, block_comments cs F N L C.
Proof.
  induction 1 as [|l cs (n & k & s & ->) H (F & N & L & C & IH)].
  - do 4 eexists; constructor.
  - assert (k = 44 \/ k = 58 \/ k = 46 \/ k = 32 \/ ~ In k [44; 58; 46; 32]) as [->|[->|[->|[->|K]]]].
    { destruct (in_dec N.eq_dec k [44; 58; 46; 32]) as [I|I]; [|auto 10]. cbn in I. intuition. }
    + do 4 eexists. apply bc_flags; [apply flag_list_iff; reflexivity|exact IH].
    + do 4 eexists. apply bc_locations; [apply words_iff; reflexivity|exact IH].
    + do 4 eexists. apply bc_developer, IH.
    + do 4 eexists. apply bc_translator, IH.
    + do 4 eexists. apply bc_other; [exact K|exact IH].
Qed.
Definition add_all (F : list str) (s : sset) : sset := fold_left (fun a x => ss_insert x a) F s.
Lemma ss_mem_iff x s : ss_mem x s = true <-> In x s.
Proof.
  unfold ss_mem. rewrite existsb_exists. split; [intros (y & I & E); apply str_eqb_eq in E; subst; exact I|].
  intros I. exists x. split; [exact I|]. apply str_eqb_eq. reflexivity.
Qed.
Lemma filter_filter {A} (f g : A -> bool) l : filter f (filter g l) = filter (fun x => g x && f x) l.
Proof. induction l as [|x l IH]; cbn; [reflexivity|]. destruct (g x); cbn; [destruct (f x); cbn; rewrite IH; reflexivity|exact IH]. Qed.
Lemma add_all_distinct F : forall s, add_all F s = s ++ filter (fun y => negb (ss_mem y s)) (distinct F).
Proof.
  induction F as [|x F IH]; intros s; cbn [add_all fold_left distinct].
  - cbn. rewrite app_nil_r. reflexivity.
  - change (fold_left (fun a x => ss_insert x a) F (ss_insert x s)) with (add_all F (ss_insert x s)). rewrite IH.
    unfold ss_insert. cbn [filter]. destruct (ss_mem x s) eqn:M; cbn [negb].
    + rewrite filter_filter. f_equal. apply filter_ext. intros y. destruct (str_eqb_spec x y) as [<-|D]; cbn [negb andb]; [rewrite M; reflexivity|reflexivity].
    + rewrite filter_filter, <- app_assoc. cbn [app]. do 2 f_equal. apply filter_ext. intros y.
      unfold ss_mem. rewrite existsb_app. cbn [existsb]. rewrite orb_false_r, negb_orb.
      assert (str_eqb y x = str_eqb x y) as ->; [|apply andb_comm].
      destruct (str_eqb_spec y x), (str_eqb_spec x y); congruence.
Qed.
Lemma add_all_nil F : add_all F [] = distinct F.
Proof. rewrite add_all_distinct. cbn [app]. rewrite <- (filter_ext (fun _ => true)) by reflexivity. induction (distinct F) as [|x l IH]; cbn; [reflexivity|f_equal; exact IH]. Qed.
Definition fuzzyb (F : list str) : bool := existsb (str_eqb (lit "fuzzy")) F.
Lemma fuzzyb_iff F : fuzzyb F = true <-> In (lit "fuzzy") F.
Proof. exact (ss_mem_iff (lit "fuzzy") F). Qed.
Definition with_comments (u : unit_) (F : list str) (N : list note) (L : list str) (C : list comment) : unit_ :=
  Unit (u_context u) (u_message u) (u_prev_context u) (u_prev_message u) (add_all F (u_flags u)) (u_notes u ++ N)
       (u_locations u ++ L) (u_comments u ++ C) (if fuzzyb F then StNeedsWork else u_state u) (u_obsolete u).
Lemma add_flags_fold F : forall u, fold_left add_flag F u = with_comments u F [] [] [].
Proof.
  induction F as [|f F IH]; intros u; cbn [fold_left].
  - destruct u; unfold with_comments; cbn. rewrite !app_nil_r. reflexivity.
  - rewrite IH. unfold with_comments, add_flag. cbn [u_context u_message u_prev_context u_prev_message u_flags u_notes u_locations u_comments u_state u_obsolete]. f_equal.
    destruct (fuzzyb F) eqn:Z; unfold fuzzyb in *; cbn [existsb]; rewrite Z; [rewrite orb_true_r; reflexivity|rewrite orb_false_r].
    destruct (str_eqb_spec f (lit "fuzzy")) as [->|D]; [reflexivity|].
    destruct (str_eqb_spec (lit "fuzzy") f); [congruence|reflexivity].
Qed.
Lemma with_comments_twice u F N L C F' N' L' C' :
  with_comments (with_comments u F N L C) F' N' L' C' = with_comments u (F ++ F') (N ++ N') (L ++ L') (C ++ C').
Proof.
  unfold with_comments; cbn. rewrite !app_assoc. f_equal.
  - unfold add_all. rewrite fold_left_app. reflexivity.
  - unfold fuzzyb. rewrite existsb_app. destruct (existsb _ F'), (existsb _ F); reflexivity.
Qed.
Lemma apply_lines cs F N L C : block_comments cs F N L C -> forall u, fold_left apply_line cs u = with_comments u F N L C.
Proof.
  induction 1 as [|n s fs ls F N L C H B IH|n s ws ls F N L C H B IH|n s ls F N L C B IH|n s ls F N L C B IH|n k s ls F N L C H B IH];
    intros u; cbn [fold_left apply_line].
  - destruct u; unfold with_comments; cbn. rewrite !app_nil_r. reflexivity.
  - rewrite IH. unfold apply_comment. cbn [N.eqb Pos.eqb]. apply flag_list_iff in H as <-.
    rewrite add_flags_fold, with_comments_twice. reflexivity.
  - rewrite IH. unfold apply_comment. cbn [N.eqb Pos.eqb]. apply words_iff in H as <-.
    change (add_locations u ws) with (Unit (u_context u) (u_message u) (u_prev_context u) (u_prev_message u) (u_flags u) (u_notes u) (u_locations u ++ ws) (u_comments u) (u_state u) (u_obsolete u)).
    unfold with_comments; cbn. rewrite <- app_assoc. reflexivity.
  - rewrite IH. unfold apply_comment. cbn [N.eqb Pos.eqb]. unfold with_comments, add_note; cbn. rewrite <- app_assoc. reflexivity.
  - rewrite IH. unfold apply_comment. cbn [N.eqb Pos.eqb]. unfold with_comments, add_note; cbn. rewrite <- app_assoc. reflexivity.
  - rewrite IH. unfold apply_comment.
    destruct (N.eqb_spec k 44) as [->|]; [exfalso; apply H; cbn; auto|].
    destruct (N.eqb_spec k 58) as [->|]; [exfalso; apply H; cbn; auto|].
    destruct (N.eqb_spec k 46) as [->|]; [exfalso; apply H; cbn; auto|].
    destruct (N.eqb_spec k 32) as [->|]; [exfalso; apply H; cbn; auto|].
    unfold with_comments, add_comment; cbn. rewrite <- app_assoc. reflexivity.
Qed.
(** Comments, then something else. *)
Definition no_comment_first (r : list po_line) : Prop := forall l r', r = l :: r' -> ~ is_comment l.
Lemma comments_split pl : exists cs r, pl = cs ++ r /\ Forall is_comment cs /\ no_comment_first r.
Proof.
  induction pl as [|l pl (cs & r & -> & F & N)].
  - exists [], []. repeat split; [constructor|discriminate].
  - destruct l as [|n k s|n p t s|n p s].
    2: { exists (PComment n k s :: cs), r. repeat split; [constructor; [unfold is_comment; eauto|exact F]|exact N]. }
    all: eexists [], _; repeat split; [constructor|intros l r' [= <- _] (? & ? & ? & ?); discriminate].
Qed.
Lemma parse_comments_listing cs : Forall is_comment cs -> forall u r tl, no_comment_first r ->
  parse_comments u (listing (cs ++ r) tl) =
  match r, tl with
  | [], Some e => (Err e, [])
  | _, _ => (Ok (fold_left apply_line cs u), listing r tl)
  end.
Proof.
  induction 1 as [|l cs (n & k & s & ->) H IH]; intros u r tl NC.
  - cbn [app fold_left]. destruct r as [|l r].
    + destruct tl; reflexivity.
    + rewrite listing_cons. cbn [parse_comments]. destruct l; try reflexivity.
      exfalso. eapply NC; [reflexivity|]. unfold is_comment; eauto.
  - cbn [app]. rewrite listing_cons. cbn [parse_comments]. rewrite IH by exact NC. reflexivity.
Qed.
Lemma comments_unit cs F N L C : block_comments cs F N L C ->
  fold_left apply_line cs unit_default =
  Unit None message_default None message_default (distinct F) N L C (if fuzzyb F then StNeedsWork else StEmpty) false.
Proof. intros B. rewrite (apply_lines _ _ _ _ _ B). unfold with_comments. cbn. rewrite add_all_nil. reflexivity. Qed.
