(** Lemmas about the string functions of ModelBase.v. *)
From Coq Require Import String Arith NArith ZArith Bool List Lia.
From Coq Require Import ZifyBool ZifyNat ZifyN.
From Verif Require Import ModelBase.
Import ListNotations.

Lemma str_eqb_spec a b : reflect (a = b) (str_eqb a b).
Proof.
  revert b; induction a as [|x a IH]; intros [|y b]; cbn [str_eqb]; try (constructor; congruence).
  destruct (N.eqb_spec x y) as [->|Hn]; cbn [andb].
  - destruct (IH b) as [->|Hn]; constructor; congruence.
  - constructor; congruence.
Qed.
Lemma str_eqb_eq a b : str_eqb a b = true <-> a = b.
Proof. destruct (str_eqb_spec a b); split; congruence. Qed.
Lemma str_eqb_neq a b : str_eqb a b = false <-> a <> b.
Proof. destruct (str_eqb_spec a b); split; congruence. Qed.
Lemma str_eqb_refl a : str_eqb a a = true.
Proof. apply str_eqb_eq; reflexivity. Qed.
Lemma str_eqb_sym a b : str_eqb a b = str_eqb b a.
Proof. destruct (str_eqb_spec a b), (str_eqb_spec b a); congruence. Qed.

Lemma is_empty_nil {A} (l : list A) : is_empty l = true <-> l = [].
Proof. destruct l; cbn; split; congruence. Qed.

(** ** Maps and sets *)
Lemma sm_get_insert {V} k k' (v : V) m :
  sm_get k (sm_insert k' v m) = if str_eqb k k' then Some v else sm_get k m.
Proof.
  induction m as [|[k1 v1] m IH]; cbn [sm_insert sm_get].
  - reflexivity.
  - destruct (str_eqb_spec k' k1) as [->|Hn]; cbn [sm_get].
    + destruct (str_eqb k k1); reflexivity.
    + rewrite IH. destruct (str_eqb_spec k k1) as [->|]; [|reflexivity].
      destruct (str_eqb_spec k1 k'); congruence.
Qed.

Lemma ss_mem_In x s : ss_mem x s = true <-> In x s.
Proof.
  unfold ss_mem; rewrite existsb_exists; split.
  - intros (y & Hy & E). apply str_eqb_eq in E. subst; exact Hy.
  - intros H; exists x; split; [exact H|apply str_eqb_refl].
Qed.
Lemma ss_insert_In x y s : In x (ss_insert y s) <-> x = y \/ In x s.
Proof.
  unfold ss_insert. destruct (ss_mem y s) eqn:E.
  - apply ss_mem_In in E. intuition congruence.
  - rewrite in_app_iff; cbn. intuition congruence.
Qed.
Lemma ss_insert_NoDup y s : NoDup s -> NoDup (ss_insert y s).
Proof.
  unfold ss_insert. destruct (ss_mem y s) eqn:E; intros H; [exact H|].
  assert (~ In y s) by (rewrite <- ss_mem_In; congruence).
  clear E. induction s as [|a s IH]; cbn [app].
  - repeat constructor; intros [].
  - inversion H as [|? ? Ha Hs]; subst. constructor.
    + rewrite in_app_iff; cbn. intros [|[<-|[]]]; [contradiction|]. apply H0; left; reflexivity.
    + apply IH; [exact Hs|]. intros Hy; apply H0; right; exact Hy.
Qed.

(** ** All-p prefixes *)
Lemma forallb_app_true {A} (p : A -> bool) a b :
  forallb p (a ++ b) = true <-> forallb p a = true /\ forallb p b = true.
Proof. rewrite forallb_app, andb_true_iff; reflexivity. Qed.

(** A maximal run of [p] followed by something that does not start with [p] is unique. *)
Definition no_start (p : char -> bool) (s : str) : Prop :=
  match s with [] => True | c :: _ => p c = false end.
Lemma run_unique (p : char -> bool) a a' b b' :
  forallb p a = true -> forallb p a' = true -> no_start p b -> no_start p b' ->
  a ++ b = a' ++ b' -> a = a' /\ b = b'.
Proof.
  revert a'; induction a as [|x a IH]; intros [|y a']; cbn [app forallb].
  - intros; split; [reflexivity|assumption].
  - intros _ H Hb _ ->. cbn in Hb. rewrite Hb in H. discriminate.
  - intros H _ _ Hb <-. cbn in Hb. rewrite Hb in H. discriminate.
  - rewrite !andb_true_iff. intros [_ H1] [_ H2] Hb Hb' [= -> E].
    destruct (IH a' H1 H2 Hb Hb' E) as [-> ->]. split; reflexivity.
Qed.

(** ** Trimming *)
Lemma trim_start_decomp s :
  exists w, s = w ++ trim_start s /\ forallb is_ws w = true /\ no_start is_ws (trim_start s).
Proof.
  induction s as [|c s (w & E & Hw & Hn)]; cbn [trim_start].
  - exists []; repeat split.
  - destruct (is_ws c) eqn:Hc.
    + exists (c :: w). cbn [app forallb]. rewrite Hc, Hw, <- E. repeat split; assumption.
    + exists []; repeat split; assumption.
Qed.
Lemma trim_start_ws w s : forallb is_ws w = true -> trim_start (w ++ s) = trim_start s.
Proof.
  induction w as [|c w IH]; cbn [forallb app trim_start]; [reflexivity|].
  rewrite andb_true_iff. intros [-> H]; exact (IH H).
Qed.
Lemma trim_start_id s : no_start is_ws s -> trim_start s = s.
Proof. destruct s as [|c s]; cbn; [reflexivity|intros ->; reflexivity]. Qed.

Definition no_end (p : char -> bool) (s : str) : Prop := no_start p (rev s).

Lemma forallb_rev {A} (p : A -> bool) l : forallb p (rev l) = forallb p l.
Proof.
  induction l as [|x l IH]; cbn [rev forallb]; [reflexivity|].
  rewrite forallb_app, IH; cbn. rewrite andb_true_r; apply andb_comm.
Qed.
Lemma trim_end_decomp s :
  exists w, s = trim_end s ++ w /\ forallb is_ws w = true /\ no_end is_ws (trim_end s).
Proof.
  destruct (trim_start_decomp (rev s)) as (w & E & Hw & Hn). exists (rev w). unfold trim_end.
  repeat split.
  - rewrite <- rev_app_distr, <- E, rev_involutive; reflexivity.
  - rewrite forallb_rev; exact Hw.
  - unfold no_end; rewrite rev_involutive; exact Hn.
Qed.
Lemma trim_end_ws s w : forallb is_ws w = true -> trim_end (s ++ w) = trim_end s.
Proof.
  intros H; unfold trim_end. rewrite rev_app_distr, trim_start_ws; [reflexivity|].
  rewrite forallb_rev; exact H.
Qed.
Lemma trim_end_id s : no_end is_ws s -> trim_end s = s.
Proof. intros H; unfold trim_end. rewrite (trim_start_id _ H); apply rev_involutive. Qed.

Lemma no_end_app (p : char -> bool) a b : b <> [] -> no_end p (a ++ b) <-> no_end p b.
Proof.
  intros Hb; unfold no_end; rewrite rev_app_distr.
  destruct (rev b) as [|x r] eqn:E.
  - apply (f_equal (@rev _)) in E; rewrite rev_involutive in E; contradiction.
  - cbn. reflexivity.
Qed.

Lemma no_start_trim_end s : no_start is_ws s -> no_start is_ws (trim_end s).
Proof.
  intros H. destruct (trim_end_decomp s) as (w & E & _ & _).
  destruct (trim_end s) as [|c r]; cbn; [exact I|]. rewrite E in H; exact H.
Qed.

(** The text between the outer white space. *)
Definition trimmed (s : str) : Prop := no_start is_ws s /\ no_end is_ws s.

Lemma trim_decomp s :
  exists w1 w2, s = w1 ++ trim s ++ w2 /\ forallb is_ws w1 = true /\ forallb is_ws w2 = true
                /\ trimmed (trim s).
Proof.
  destruct (trim_start_decomp s) as (w1 & E1 & H1 & N1).
  destruct (trim_end_decomp (trim_start s)) as (w2 & E2 & H2 & N2).
  exists w1, w2. unfold trim. rewrite <- E2. repeat split; try assumption.
  apply no_start_trim_end; exact N1.
Qed.
Lemma trim_all_ws w : forallb is_ws w = true -> trim w = [].
Proof.
  intros H. unfold trim. rewrite <- (app_nil_r w), trim_start_ws by exact H. reflexivity.
Qed.
Lemma trim_unique w1 m w2 :
  forallb is_ws w1 = true -> forallb is_ws w2 = true -> trimmed m -> trim (w1 ++ m ++ w2) = m.
Proof.
  intros H1 H2 [Ns Ne]. unfold trim. rewrite trim_start_ws by exact H1.
  destruct m as [|c m].
  - cbn [app]. rewrite <- (app_nil_r w2), trim_start_ws by exact H2. reflexivity.
  - rewrite trim_start_id by exact Ns. rewrite trim_end_ws by exact H2.
    apply trim_end_id; exact Ne.
Qed.
Lemma trim_id m : trimmed m -> trim m = m.
Proof.
  intros H. pose proof (trim_unique [] m [] eq_refl eq_refl H) as E.
  rewrite app_nil_r in E; exact E.
Qed.

(** ** Splitting *)
Lemma split_on_nonempty p s : split_on p s <> [].
Proof.
  destruct s as [|c s]; cbn [split_on]; [discriminate|].
  destruct (p c); [discriminate|]. destruct (split_on p s); discriminate.
Qed.

(** [split_on] is the unique way to cut at every separator. *)
Lemma split_on_cons_sep p c s : p c = true -> split_on p (c :: s) = [] :: split_on p s.
Proof. intros H; cbn [split_on]; rewrite H; reflexivity. Qed.
Lemma split_on_app_sep p a c s :
  forallb (fun x => negb (p x)) a = true -> p c = true ->
  split_on p (a ++ c :: s) = a :: split_on p s.
Proof.
  intros Ha Hc; induction a as [|x a IH]; cbn [app].
  - apply split_on_cons_sep; exact Hc.
  - cbn [forallb] in Ha. apply andb_true_iff in Ha as [Hx Ha].
    cbn [split_on]. rewrite (IH Ha). destruct (p x); [discriminate|reflexivity].
Qed.
Lemma split_on_nosep p a :
  forallb (fun x => negb (p x)) a = true -> split_on p a = [a].
Proof.
  induction a as [|x a IH]; cbn [forallb split_on]; [reflexivity|].
  intros Ha; apply andb_true_iff in Ha as [Hx Ha]. rewrite (IH Ha).
  destruct (p x); [discriminate|reflexivity].
Qed.

(** ** find_char *)
Lemma find_char_some c s a b :
  find_char c s = Some (a, b) <-> s = a ++ c :: b /\ ~ In c a.
Proof.
  revert a b; induction s as [|x s IH]; intros a b; cbn [find_char].
  - split; [discriminate|]. intros [E _]. destruct a; discriminate.
  - destruct (N.eqb_spec x c) as [->|Hn].
    + split.
      * intros [= <- <-]; split; [reflexivity|intros []].
      * intros [E Hin]. destruct a as [|y a]; cbn [app] in E.
        -- injection E as ->; reflexivity.
        -- injection E as -> ->. exfalso; apply Hin; left; reflexivity.
    + destruct (find_char c s) as [[a' b']|] eqn:F.
      * split.
        -- intros [= <- <-]. destruct (IH a' b') as [IH1 _]. destruct (IH1 eq_refl) as [-> Hin].
           split; [reflexivity|]. intros [->|H]; [congruence|contradiction].
        -- intros [E Hin]. destruct a as [|y a]; cbn [app] in E; injection E as -> E.
           ++ congruence.
           ++ destruct (IH a b) as [_ IH2]. assert (Some (a', b') = Some (a, b)) as [= -> ->].
              { apply IH2; split; [exact E|]. intros H; apply Hin; right; exact H. }
              reflexivity.
      * split; [discriminate|]. intros [E Hin]. destruct a as [|y a]; cbn [app] in E; injection E as -> E.
        -- congruence.
        -- destruct (IH a b) as [_ IH2].
           assert (None = Some (a, b)) as [=].
           { apply IH2; split; [exact E|]. intros H; apply Hin; right; exact H. }
Qed.
Lemma find_char_none c s : find_char c s = None <-> ~ In c s.
Proof.
  destruct (find_char c s) as [[a b]|] eqn:F.
  - apply find_char_some in F as [-> _]. split; [discriminate|].
    intros H; exfalso; apply H; rewrite in_app_iff; right; left; reflexivity.
  - split; [|reflexivity]. intros _ H. apply in_split in H as (l1 & l2 & E).
    revert F; subst s. induction l1 as [|x l1 IH]; cbn [app find_char].
    + rewrite N.eqb_refl; discriminate.
    + destruct (x =? c)%N; [discriminate|].
      destruct (find_char c (l1 ++ c :: l2)) as [[? ?]|]; [discriminate|]. exact IH.
Qed.

(** ** Decimal rendering *)
Lemma uint_str_inj a b : uint_str a = uint_str b -> a = b.
Proof.
  revert b; induction a as [|a IH|a IH|a IH|a IH|a IH|a IH|a IH|a IH|a IH|a IH]; intros [|b|b|b|b|b|b|b|b|b|b];
    cbn [uint_str]; intros E; try discriminate E; try reflexivity;
    injection E as E; f_equal; apply IH; exact E.
Qed.
Lemma dec_str_inj a b : dec_str a = dec_str b -> a = b.
Proof.
  intros H; apply uint_str_inj in H. apply (f_equal N.of_uint) in H.
  rewrite !DecimalN.Unsigned.of_to in H; exact H.
Qed.
