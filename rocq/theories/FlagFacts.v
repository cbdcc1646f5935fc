(** Flags and locations compared with GNU gettext. *)
From Coq Require Import String Arith NArith ZArith Bool List Lia.
From Verif Require Import ModelBase ModelUtf8 ModelLine ModelFormula ModelData ModelSource ModelReader
  SpecLine SpecFormula SpecSource SpecReader SpecBlock SpecHeader SpecFile SpecFlags BaseFacts LineFacts CommentFacts BlockFacts SoundFacts BlocksFacts FileFacts BlockThms EntryThms HeaderThms FileIntro BlockWitness.
Import ListNotations.
Local Open Scope N_scope.

(** * Tokens *)
Definition ends_with (P : char -> Prop) (p : str) : Prop := forall p' c, p = p' ++ [c] -> P c.
Definition begins_with (P : char -> Prop) (q : str) : Prop := forall c q', q = c :: q' -> P c.
Definition token (sep : char -> Prop) (s f : str) : Prop :=
  exists p q, s = p ++ f ++ q /\ f <> [] /\ (forall c, In c f -> ~ sep c) /\ ends_with sep p /\ begins_with sep q.
Lemma ends_all (P : char -> Prop) p : (forall c, In c p -> P c) -> ends_with P p.
Proof. intros H p' c ->. apply H, in_app_iff. right. left. reflexivity. Qed.
Lemma begins_all (P : char -> Prop) p : (forall c, In c p -> P c) -> begins_with P p.
Proof. intros H c q ->. apply H. left. reflexivity. Qed.
Lemma ends_app (P : char -> Prop) p q : ends_with P p -> ends_with P q -> ends_with P (p ++ q).
Proof.
  intros Hp Hq r c E. destruct q as [|x q] using rev_ind; [rewrite app_nil_r in E; exact (Hp r c E)|]. rewrite app_assoc in E. apply app_inj_tail in E as [_ <-]. exact (Hq q x eq_refl).
Qed.
Lemma begins_app (P : char -> Prop) p q : begins_with P p -> begins_with P q -> begins_with P (p ++ q).
Proof. intros Hp Hq c r E. destruct p as [|x p]; [exact (Hq c r E)|]. injection E as <- _. exact (Hp x p eq_refl). Qed.

Lemma tokens_exist (sep : char -> Prop) (dec : forall c, {sep c} + {~ sep c}) s : exists ws, tokens sep s ws.
Proof.
  induction s as [|c s (ws & IH)]; [exists []; constructor; intros c []|]. destruct (dec c) as [C|C].
  - exists ws. inversion IH as [w W E|w x r ws' W N X R T E]; subst.
    + constructor. intros d [<-|I]; auto.
    + apply (tk_word sep (c :: w)); auto. intros d [<-|I]; auto.
  - inversion IH as [w W E|w x r ws' W N X R T E]; subst.
    + exists [[c]]. apply (tk_word sep [] [c] s); [intros d []|discriminate|intros d [<-|[]]; exact C|intros d r ->; apply W; left; reflexivity|constructor; exact W].
    + destruct w as [|d w].
      * exists ((c :: x) :: ws'). apply (tk_word sep [] (c :: x) r); [intros d []|discriminate|intros d [<-|I]; auto|exact R|exact T].
      * exists ([c] :: x :: ws'). apply (tk_word sep [] [c] (d :: w ++ x ++ r)); [intros e []|discriminate|intros e [<-|[]]; exact C|intros e q [= <- _]; apply W; left; reflexivity|].
        apply (tk_word sep (d :: w) x r ws'); assumption.
Qed.
Lemma tokens_in (sep : char -> Prop) s ws f : tokens sep s ws -> (In f ws <-> token sep s f).
Proof.
  intros T. split.
  - induction T as [w W|w x r ws W N X R T IH]; intros I; [contradiction|]. destruct I as [<-|I].
    + exists w, r. split; [reflexivity|]. split; [exact N|]. split; [exact X|]. split; [exact (ends_all sep w W)|exact R].
    + destruct (IH I) as (p & q & -> & Nf & Xf & Ep & Bq). exists (w ++ x ++ p), q. split; [rewrite <- !app_assoc; reflexivity|]. split; [exact Nf|]. split; [exact Xf|]. split; [|exact Bq].
      intros p' c E. destruct p as [|y p] using rev_ind.
      * exfalso. destruct f as [|d f]; [contradiction|]. exact (Xf d (or_introl eq_refl) (R d (f ++ q) eq_refl)).
      * clear IHp. rewrite !app_assoc in E. apply app_inj_tail in E as [_ <-]. exact (Ep p y eq_refl).
  - induction T as [w W|w x r ws W N X R T IH]; intros (p & q & E & Nf & Xf & Ep & Bq).
    + exfalso. destruct f as [|d f]; [contradiction|]. apply (Xf d (or_introl eq_refl)). apply W. rewrite E. apply in_app_iff. right. left. reflexivity.
    + apply app_eq_app in E as (l & [(-> & E)|(-> & E)]).
      * (* w = p ++ l *) destruct l as [|c l].
        -- rewrite app_nil_r in *. cbn [app] in E. left. symmetry in E. apply app_eq_app in E as (m & [(-> & E)|(-> & E)]).
           ++ destruct m as [|c m]; [apply app_nil_r|]. exfalso. apply (X c); [apply in_app_iff; right; left; reflexivity|]. exact (Bq c (m ++ r) E).
           ++ destruct m as [|c m]; [symmetry; apply app_nil_r|]. exfalso. apply (Xf c); [apply in_app_iff; right; left; reflexivity|]. exact (R c (m ++ q) E).
        -- exfalso. destruct f as [|d f]; [contradiction|]. injection E as -> _. apply (Xf c (or_introl eq_refl)). apply W, in_app_iff. right. left. reflexivity.
      * (* p = w ++ l *) destruct l as [|c l] using rev_ind.
        -- cbn [app] in E. left. apply app_eq_app in E as (m & [(-> & E)|(-> & E)]).
           ++ destruct m as [|c m]; [apply app_nil_r|]. exfalso. apply (X c); [apply in_app_iff; right; left; reflexivity|]. exact (Bq c (m ++ r) E).
           ++ destruct m as [|c m]; [symmetry; apply app_nil_r|]. exfalso. apply (Xf c); [apply in_app_iff; right; left; reflexivity|]. exact (R c (m ++ q) E).
        -- clear IHl. assert (C : sep c) by (apply (Ep (w ++ l)); apply app_assoc).
           apply app_eq_app in E as (m & [(E1 & E)|(E1 & E)]).
           ++ exfalso. apply (X c); [|exact C]. rewrite E1. rewrite !in_app_iff. cbn. auto.
           ++ right. apply IH. exists m, q. split; [exact E|]. split; [exact Nf|]. split; [exact Xf|]. split; [|exact Bq].
              intros m' d ->. apply (Ep (w ++ x ++ m')). rewrite E1. rewrite <- !app_assoc. reflexivity.
Qed.

(** * Comma-separated pieces *)
Lemma separated_piece ps t : In t ps -> exists p q, separated 44 ps = p ++ t ++ q /\ ends_with (eq 44) p /\ begins_with (eq 44) q.
Proof.
  induction ps as [|a ps IH]; intros I; [contradiction|]. destruct I as [->|I].
  - destruct ps as [|b ps]; [exists [], []; cbn; rewrite app_nil_r; repeat split; try discriminate; intros p' c E; destruct p'; discriminate|].
    exists [], (44 :: separated 44 (b :: ps)). split; [reflexivity|]. split; [intros p' c E; destruct p'; discriminate|]. intros c q' [= <- _]. reflexivity.
  - destruct (IH I) as (p & q & E & Ep & Bq). destruct ps as [|b ps]; [contradiction|]. exists (a ++ 44 :: p), q.
    split; [change (separated 44 (a :: b :: ps)) with (a ++ 44 :: separated 44 (b :: ps)); rewrite E; rewrite <- !app_assoc; reflexivity|]. split; [|exact Bq].
    change (a ++ 44 :: p) with (a ++ [44] ++ p). intros p' c H. destruct p as [|y p] using rev_ind.
    + rewrite app_nil_r in H. apply app_inj_tail in H as [_ <-]. reflexivity.
    + clear IHp. rewrite !app_assoc in H. apply app_inj_tail in H as [_ <-]. exact (Ep p y eq_refl).
Qed.
Lemma piece_around ps : (forall p, In p ps -> ~ In 44 p) -> forall p f q, separated 44 ps = p ++ f ++ q -> f <> [] -> ~ In 44 f ->
  exists t w w', In t ps /\ t = w ++ f ++ w' /\ (exists p0, p = p0 ++ w) /\ (exists q0, q = w' ++ q0).
Proof.
  induction ps as [|a ps IH]; intros No p f q E Nf Cf; [destruct p, f; try discriminate; contradiction|].
  destruct ps as [|b ps].
  - cbn in E. exists a, p, q. split; [left; reflexivity|]. split; [exact E|]. split; [exists []; reflexivity|exists []; symmetry; apply app_nil_r].
  - change (separated 44 (a :: b :: ps)) with (a ++ 44 :: separated 44 (b :: ps)) in E. apply app_eq_app in E as (l & [(-> & E)|(-> & E)]).
    + (* a = p ++ l *) symmetry in E. change (l ++ 44 :: separated 44 (b :: ps)) with (l ++ [44] ++ separated 44 (b :: ps)) in E. apply app_eq_app in E as (m & [(-> & E)|(-> & E)]).
      * exists (p ++ f ++ m), p, m. split; [left; reflexivity|]. split; [reflexivity|]. split; [exists []; reflexivity|]. exists ([44] ++ separated 44 (b :: ps)). exact E.
      * destruct m as [|c m].
        -- rewrite app_nil_r in *. exists (p ++ l), p, []. split; [left; reflexivity|]. split; [rewrite app_nil_r; reflexivity|]. split; [exists []; reflexivity|]. exists q. reflexivity.
        -- exfalso. injection E as <- _. apply Cf, in_app_iff. right. left. reflexivity.
    + (* p = a ++ l *) destruct l as [|c l].
      * exfalso. destruct f as [|d f]; [contradiction|]. injection E as <- _. apply Cf. left. reflexivity.
      * injection E as <- E. destruct (IH (fun x I => No x (or_intror I)) l f q E Nf Cf) as (t & w & w' & I & Et & (p0 & ->) & Q). exists t, w, w'. split; [right; exact I|]. split; [exact Et|]. split; [|exact Q].
        exists (a ++ 44 :: p0). rewrite <- app_assoc. reflexivity.
Qed.

(** A word with white space around it is the word. *)
Lemma word_trimmed w f w' g : f <> [] -> (forall c, In c f -> ~ white c) -> ends_with white w -> begins_with white w' ->
  trims_to (w ++ f ++ w') g -> (forall c, In c g -> ~ white c) -> g = f.
Proof.
  intros Nf Xf Ew Bw (x & y & E & Bx & By & _ & _) Xg.
  assert (H : w = x /\ f ++ w' = g ++ y).
  { apply app_eq_app in E as (l & [(-> & E)|(-> & E)]).
    - destruct l as [|c l] using rev_ind; [rewrite app_nil_r; auto|]. clear IHl. assert (C : white c) by (apply (Ew (x ++ l)); rewrite <- app_assoc; reflexivity).
      apply app_eq_app in E as (m & [(-> & E)|(E1 & E)]).
      + exfalso. apply (Xg c); [|exact C]. rewrite !in_app_iff. cbn. auto.
      + exfalso. destruct f as [|d f]; [contradiction|]. apply (Xf d (or_introl eq_refl)). apply By. rewrite E. apply in_app_iff. right. left. reflexivity.
    - destruct l as [|c l]; [rewrite app_nil_r; auto|]. exfalso. destruct f as [|d f]; [contradiction|]. injection E as -> _. apply (Xf c (or_introl eq_refl)). apply Bx, in_app_iff. right. left. reflexivity. }
  destruct H as [_ H]. apply app_eq_app in H as (l & [(-> & H)|(-> & H)]).
  - destruct l as [|c l]; [symmetry; apply app_nil_r|]. exfalso. apply (Xf c); [apply in_app_iff; right; left; reflexivity|]. apply By. rewrite H. left. reflexivity.
  - destruct l as [|c l]; [apply app_nil_r|]. exfalso. apply (Xg c); [apply in_app_iff; right; left; reflexivity|]. exact (Bw c (l ++ y) H).
Qed.
Lemma c_white_white c : c_white c -> white c.
Proof. unfold c_white, white. cbn [In]. intros H. repeat (destruct H as [<-|H]; [vm_compute; tauto|]). contradiction. Qed.

(** One comment. *)
Lemma forall2_in {A B} (R : A -> B -> Prop) l l' b : Forall2 R l l' -> In b l' -> exists a, In a l /\ R a b.
Proof. induction 1 as [|x y l l' H F IH]; intros I; [contradiction|]. destruct I as [<-|I]; [exists x; split; [left; reflexivity|exact H]|]. destruct (IH I) as (a & J & R'). exists a. split; [right; exact J|exact R']. Qed.
Lemma forall2_in_l {A B} (R : A -> B -> Prop) l l' a : Forall2 R l l' -> In a l -> exists b, In b l' /\ R a b.
Proof. induction 1 as [|x y l l' H F IH]; intros I; [contradiction|]. destruct I as [<-|I]; [exists y; split; [left; reflexivity|exact H]|]. destruct (IH I) as (b & J & R'). exists b. split; [right; exact J|exact R']. Qed.
Lemma flag_token s fs f : flag_list s fs -> (forall c, In c s -> white c -> c_white c) -> In f fs -> f <> [] -> (forall c, In c f -> ~ white c) -> token flag_separator s f.
Proof.
  intros (ps & _ & -> & No & F) U I Nf Xf. destruct (forall2_in _ _ _ _ F I) as (t & It & w & w' & -> & Bw & Bw' & _). pose proof (No _ It) as Nt.
  destruct (separated_piece ps _ It) as (p & q & E & Ep & Bq). exists (p ++ w), (w' ++ q). split; [rewrite E, <- !app_assoc; reflexivity|]. split; [exact Nf|].
  assert (S : forall c, In c w \/ In c w' -> flag_separator c).
  { intros c J. left. apply U; [rewrite E, !in_app_iff; tauto|]. destruct J; [apply Bw|apply Bw']; assumption. }
  split; [intros c J [C| ->]; [exact (Xf c J (c_white_white c C))|apply Nt; rewrite !in_app_iff; auto]|].
  split.
  - apply ends_app; [|apply ends_all; auto]. intros p' c H. right. symmetry. exact (Ep p' c H).
  - apply begins_app; [apply begins_all; auto|]. intros c q' H. right. symmetry. exact (Bq c q' H).
Qed.
Lemma token_flag s fs f : flag_list s fs -> (forall c, In c s -> white c -> c_white c) -> (forall g c, In g fs -> In c g -> ~ white c) ->
  token flag_separator s f -> In f fs.
Proof.
  intros (ps & _ & -> & No & F) U X (p & q & E & Nf & Xf & Ep & Bq). assert (Cf : ~ In 44 f) by (intros J; apply (Xf 44 J); right; reflexivity).
  destruct (piece_around ps No p f q E Nf Cf) as (t & w & w' & It & -> & (p0 & ->) & q0 & ->). pose proof (No _ It) as Nt.
  destruct (forall2_in_l _ _ _ _ F It) as (g & Ig & T). assert (g = f); [|subst; exact Ig].
  assert (W : forall c, In c f -> ~ white c) by (intros c J C; apply (Xf c J); left; apply U; [rewrite E, !in_app_iff; auto|exact C]).
  apply (word_trimmed w f w' g Nf W); [| |exact T|intros c J; exact (X g c Ig J)].
  - intros w1 c ->. destruct (Ep (p0 ++ w1) c) as [C| ->]; [rewrite <- app_assoc; reflexivity|exact (c_white_white c C)|]. exfalso. apply Nt. rewrite !in_app_iff. cbn. auto.
  - intros c w1 ->. destruct (Bq c (w1 ++ q0) eq_refl) as [C| ->]; [exact (c_white_white c C)|]. exfalso. apply Nt. rewrite !in_app_iff. cbn. auto.
Qed.
Lemma separator_dec c : {flag_separator c} + {~ flag_separator c}.
Proof.
  destruct (in_dec N.eq_dec c [9; 10; 11; 12; 13; 32]) as [H|H]; [left; left; exact H|]. destruct (N.eq_dec c 44) as [->|N]; [left; right; reflexivity|]. right. intros [C| ->]; [exact (H C)|contradiction].
Qed.
(** All comments of an entry. *)
Lemma flags_of cs F N L C f : block_comments cs F N L C -> (In f F <-> exists n s fs, In (PComment n 44 s) cs /\ flag_list s fs /\ In f fs).
Proof.
  intros B. split.
  - induction B as [|n s fs ls F N L C H B IH|n s ws ls F N L C H B IH|n s ls F N L C B IH|n s ls F N L C B IH|n k s ls F N L C H B IH]; intros I; [contradiction| | | | |].
    1: apply in_app_iff in I as [I|I]; [exists n, s, fs; split; [left; reflexivity|auto]|].
    all: destruct (IH I) as (n' & s' & fs' & J & R); exists n', s', fs'; split; [right; exact J|exact R].
  - intros (n' & s' & fs' & I & H' & J). induction B as [|n s fs ls F N L C H B IH|n s ws ls F N L C H B IH|n s ls F N L C B IH|n s ls F N L C B IH|n k s ls F N L C H B IH]; [contradiction| | | | |]; destruct I as [E|I]; try discriminate; auto.
    + injection E as -> ->. apply in_app_iff. left. apply flag_list_iff in H. apply flag_list_iff in H'. subst. exact J.
    + apply in_app_iff. right. auto.
    + exfalso. injection E as _ -> _. apply H. left. reflexivity.
Qed.
Theorem flags_partial lib pf evs ls e pl tl c k u : file evs ls e pl tl -> read_catalogue lib pf evs = Ok c -> nth_error (c_items c) k = Some (UOk u) ->
  exists forms cs ks, unit_at lib pf pl tl c k forms (cs ++ ks) u /\ Forall comment_line cs /\ ~ Exists comment_line ks
    /\ (comments_white c_white 44 cs ->
        (u_state u = StNeedsWork -> gettext_flag cs (lit "fuzzy"))
        /\ ((forall f x, In f (u_flags u) -> In x f -> ~ white x) ->
            (u_state u = StNeedsWork <-> gettext_flag cs (lit "fuzzy")) /\ forall f, In f (u_flags u) /\ f <> [] <-> gettext_flag cs f)).
Proof.
  intros Fi R Nk. destruct (unit_comments lib pf evs ls e pl tl c k u Fi R Nk) as (forms & cs & ks & F & U & B & Ef & Id & Nd & Nks & Ks & Kw).
  exists forms, cs, ks. split; [exact U|]. split; [|split].
  - clear -B. induction B; constructor; try exact Logic.I; assumption.
  - intros Ex. apply Exists_exists in Ex as (l & I & Cl). specialize (Ks l I). destruct l; contradiction.
  - intros W. assert (St : u_state u = StNeedsWork <-> In (lit "fuzzy") (u_flags u)).
    { pose proof Fi as (bs & f & D & _ & _). apply (unit_state lib pf evs bs f c u D R). exact (nth_error_In _ _ Nk). }
    assert (A : forall f, In f (u_flags u) -> f <> [] -> (forall x, In x f -> ~ white x) -> gettext_flag cs f).
    { intros f I Nf X. apply Id in I. apply (flags_of cs F _ _ _ f B) in I as (n & s & fs & Is & Fl & If). destruct (tokens_exist flag_separator separator_dec s) as (ws & T). exists n, s, ws.
      split; [exact Is|]. split; [exact T|]. apply (tokens_in flag_separator s ws f T). apply (flag_token s fs f Fl); auto. intros x J Hx. exact (W n s x Is J Hx). }
    assert (Fz : forall x, In x (lit "fuzzy") -> ~ white x).
    { intros x I Hx. cbn in I. repeat (destruct I as [<-|I]; [vm_compute in Hx; intuition discriminate|]). contradiction. }
    split; [intros Hs; apply A; [apply St; exact Hs|discriminate|exact Fz]|]. intros X.
    assert (Z : forall f, In f (u_flags u) /\ f <> [] <-> gettext_flag cs f).
    { intros f. split; [intros [I Nf]; apply A; auto; intros x; exact (X f x I)|]. intros (n & s & ws & Is & T & Iw). pose proof (proj1 (tokens_in flag_separator s ws f T) Iw) as Tk.
      split; [|destruct Tk as (p & q & _ & Nf & _); exact Nf]. apply Id. apply (flags_of cs F _ _ _ f B). exists n, s, (map trim (split_on (N.eqb 44) s)).
      assert (Fl : flag_list s (map trim (split_on (N.eqb 44) s))) by (apply flag_list_iff; reflexivity). split; [exact Is|]. split; [exact Fl|].
      apply (token_flag s _ f Fl); [intros x J Hx; exact (W n s x Is J Hx)| |exact Tk]. intros g x Ig J. apply (X g x); [|exact J]. apply Id. apply (flags_of cs F _ _ _ g B). exists n, s, (map trim (split_on (N.eqb 44) s)). auto. }
    split; [|exact Z]. rewrite St. rewrite <- (Z (lit "fuzzy")). split; [intros H; split; [exact H|discriminate]|tauto].
Qed.

(** * Locations *)
Lemma blank_white c : blank c -> white c.
Proof. unfold blank, white. cbn [In]. intros H. repeat (destruct H as [<-|H]; [vm_compute; tauto|]). contradiction. Qed.
Lemma locations_words s xs : (forall c, In c s -> white c -> blank c) -> ~ In 8296 s -> (locations s xs <-> words s xs).
Proof.
  intros W No. split; intros H.
  - induction H as [w B|w x r xs B X R H IH]; [constructor; intros c I; apply blank_white, B, I|].
    assert (X' : x <> [] /\ forall c, In c x -> ~ white c).
    { inversion X as [y Ny Xy _ E|y z Hy Hz E]; subst.
      - split; [exact Ny|]. intros c I Hc. apply (Xy c I). apply W; [rewrite !in_app_iff; auto|exact Hc].
      - exfalso. apply No. rewrite !in_app_iff. cbn. auto. }
    apply wd_word; [intros c I; apply blank_white, B, I|apply X'|apply X'|intros c r' E; apply blank_white; exact (R c r' E)|]. apply IH.
    + intros c I. apply W. rewrite !in_app_iff. auto.
    + intros I. apply No. rewrite !in_app_iff. auto.
  - induction H as [w B|w x r xs B N X R H IH]; [constructor; intros c I; apply W; [exact I|apply B, I]|].
    apply ls_more; [intros c I; apply W; [rewrite in_app_iff; auto|apply B, I]| | |].
    + apply lc_plain; [exact N|intros c I Hc; apply (X c I), blank_white, Hc|]. intros x' ->. apply No. rewrite !in_app_iff. cbn. auto.
    + intros c r' ->. apply W; [rewrite !in_app_iff; cbn; auto|]. exact (R c r' eq_refl).
    + apply IH; [intros c I; apply W; rewrite !in_app_iff; auto|]. intros I. apply No. rewrite !in_app_iff. auto.
Qed.
Lemma locations_of cs F N L C : block_comments cs F N L C -> comments_white blank 58 cs -> (forall n s, In (PComment n 58 s) cs -> ~ In 8296 s) -> forall L', gettext_locations cs L' <-> L' = L.
Proof.
  intros B W No. induction B as [|n s fs ls F N L C H B IH|n s ws ls F N L C H B IH|n s ls F N L C B IH|n s ls F N L C B IH|n k s ls F N L C H B IH]; intros L'.
  - split; [intros G; inversion G; reflexivity|intros ->; constructor].
  - assert (IH' := IH (fun n s c I => W n s c (or_intror I)) (fun n s I => No n s (or_intror I))). split; [intros G; inversion G; subst; apply IH'; assumption|intros ->; apply gl_other; [discriminate|apply IH'; reflexivity]].
  - assert (IH' := IH (fun n s c I => W n s c (or_intror I)) (fun n s I => No n s (or_intror I))).
    pose proof (fun xs => locations_words s xs (fun c => W n s c (or_introl eq_refl)) (No n s (or_introl eq_refl))) as Lw.
    split.
    + intros G. inversion G as [|? ? ? xs L0 Lo Gl|? ? ? ? ? Nk]; subst; [|contradiction]. apply Lw in Lo. apply words_iff in Lo. apply words_iff in H. subst. f_equal. apply IH'. exact Gl.
    + intros ->. constructor; [apply Lw; exact H|apply IH'; reflexivity].
  - assert (IH' := IH (fun n s c I => W n s c (or_intror I)) (fun n s I => No n s (or_intror I))). split; [intros G; inversion G; subst; apply IH'; assumption|intros ->; apply gl_other; [discriminate|apply IH'; reflexivity]].
  - assert (IH' := IH (fun n s c I => W n s c (or_intror I)) (fun n s I => No n s (or_intror I))). split; [intros G; inversion G; subst; apply IH'; assumption|intros ->; apply gl_other; [discriminate|apply IH'; reflexivity]].
  - assert (IH' := IH (fun n s c I => W n s c (or_intror I)) (fun n s I => No n s (or_intror I))). split.
    + intros G. inversion G as [|? ? ? xs L0 Lo Gl|]; subst; [exfalso; apply H; right; left; reflexivity|]. apply IH'; assumption.
    + intros ->. apply gl_other; [intros ->; apply H; right; left; reflexivity|apply IH'; reflexivity].
Qed.
Theorem locations_partial lib pf evs ls e pl tl c k u : file evs ls e pl tl -> read_catalogue lib pf evs = Ok c -> nth_error (c_items c) k = Some (UOk u) ->
  exists forms cs ks, unit_at lib pf pl tl c k forms (cs ++ ks) u /\ Forall comment_line cs /\ ~ Exists comment_line ks
    /\ (comments_white blank 58 cs -> (forall n s, In (PComment n 58 s) cs -> ~ In 8296 s) -> forall L, gettext_locations cs L <-> L = u_locations u).
Proof.
  intros Fi R Nk. destruct (unit_comments lib pf evs ls e pl tl c k u Fi R Nk) as (forms & cs & ks & F & U & B & Ef & Id & Nd & Nks & Ks & Kw).
  exists forms, cs, ks. split; [exact U|]. split; [|split].
  - clear -B. induction B; constructor; try exact Logic.I; assumption.
  - intros Ex. apply Exists_exists in Ex as (l & I & Cl). specialize (Ks l I). destruct l; contradiction.
  - intros W No. exact (locations_of _ _ _ _ _ B W No).
Qed.

(** * Witnesses *)
Definition str_stream (ls : list str) : list rd_event := [RdData (utf8 (flat_map (fun s => s ++ [10]) ls))].
Theorem str_file ls pl tl : ls <> [] -> forallb line_okb ls = true -> parse_lines 1 ls = (pl, tl) -> file (str_stream ls) ls None pl tl.
Proof.
  intros NE H P. exists (utf8 (flat_map (fun s => s ++ [10]) ls)), None. rewrite forallb_forall in H. split; [|split].
  - unfold str_stream. rewrite <- (app_nil_r (utf8 _)) at 2. apply dl_data; [|constructor]. destruct ls as [|s ls]; [contradiction|]. cbn [flat_map]. rewrite <- app_assoc, !utf8_app.
    intros Q. apply app_eq_nil in Q as [_ Q]. discriminate.
  - clear P NE. induction ls as [|s ls IH]; [constructor|]. cbn [flat_map]. rewrite <- app_assoc, !utf8_app.
    destruct (line_okb_text _ (H s (or_introl eq_refl))) as (O & S & C). apply ct_line; [exact O|exact S|constructor; exact C|]. apply IH. intros x I. apply H. right; exact I.
  - assert (forall s, In s ls -> one_line s) as O by (intros s I; apply line_okb_text, H, I).
    pose proof (parse_lines_spec ls O 1) as X. rewrite P in X. exact X.
Qed.
Lemma token_listed s f : token flag_separator s f -> exists fs, tokens flag_separator s fs /\ In f fs.
Proof. intros T. destruct (tokens_exist flag_separator separator_dec s) as (ws & W). exists ws. split; [exact W|]. apply (tokens_in _ _ _ f W). exact T. Qed.
(** The entry [msgid a, msgstr b] with a comment before it. *)
Definition commented (k : char) (s : str) : list str := [35 :: k :: 32 :: s; lit "msgid ""a"""; lit "msgstr ""b"""].
Definition commented_lines (k : char) (s : str) : list po_line := [PComment 1 k s].
Definition rest_lines : list po_line := simple_block 2 3 (lit "a") (lit "b").
Definition letters (f : str) : Prop := forallb (fun c => (96 <? c) && (c <? 123)) f = true.
Lemma letters_plain f : letters f -> forall c, In c f -> ~ flag_separator c.
Proof.
  unfold letters. rewrite forallb_forall. intros H c I [C| ->]; specialize (H _ I); [|discriminate]. unfold c_white in C. cbn [In] in C. repeat (destruct C as [<-|C]; [discriminate|]). contradiction.
Qed.

(** Flags with a space between them. *)
Theorem space_refuted : exists ls cs ks u, file (str_stream ls) ls None (cs ++ ks) None /\ entry None (cs ++ ks) u /\ Forall comment_line cs
  /\ comments_white c_white 44 cs /\ gettext_flag cs (lit "fuzzy") /\ u_state u = StFinal
  /\ forall lib pf, exists c, read_catalogue lib pf (str_stream ls) = Ok c /\ c_items c = [UOk u].
Proof.
  exists (commented 44 (lit "fuzzy x")), (commented_lines 44 (lit "fuzzy x")), rest_lines.
  exists (Unit None (MSimple (lit "a") (Some (lit "b"))) None (MSimple [] None) [lit "fuzzy x"] [] [] [] StFinal false).
  split; [apply str_file; [discriminate|reflexivity|vm_compute; reflexivity]|]. split; [|split; [|split; [|split; [|split]]]].
  - apply (en_intro None [PComment 1 44 (lit "fuzzy x")] [lit "fuzzy x"] [] [] [] false rest_lines None (MSimple [] None) None (MSimple (lit "a") (Some (lit "b")))).
    + apply (bc_flags 1 (lit "fuzzy x") [lit "fuzzy x"] [] []); [apply flag_list_iff; vm_compute; reflexivity|constructor].
    + apply (kws_intro None false [] None [] (MSimple [] None) [] None); [apply of_none|apply pv_none|apply of_none|]. apply (bd_simple None false [_] (lit "a") [_] (lit "b")); apply own_line.
    + apply (so_final _ _ (lit "b")); [intros [E|[]]; discriminate|left; reflexivity|discriminate].
  - repeat constructor.
  - intros n s c [E|[]] I W. injection E as _ <-. cbn in I. unfold c_white. repeat (destruct I as [<-|I]; [try (exfalso; vm_compute in W; intuition discriminate); cbn; auto 10|]). contradiction.
  - destruct (token_listed (lit "fuzzy x") (lit "fuzzy")) as (fs & T & I); [|exists 1, (lit "fuzzy x"), fs; split; [left; reflexivity|auto]].
    exists [], (lit " x"). split; [reflexivity|]. split; [discriminate|]. split; [apply letters_plain; reflexivity|]. split; [intros p' c E; destruct p'; discriminate|]. intros c q [= <- _]. left. vm_compute. auto 10.
  - reflexivity.
  - intros lib pf. eexists. split; vm_compute; reflexivity.
Qed.
(** A no-break space after the flag: fuzzy here, not in gettext. *)
Theorem nbsp_refuted : exists ls cs ks u, file (str_stream ls) ls None (cs ++ ks) None /\ entry None (cs ++ ks) u /\ Forall comment_line cs
  /\ ~ gettext_flag cs (lit "fuzzy") /\ u_state u = StNeedsWork
  /\ forall lib pf, exists c, read_catalogue lib pf (str_stream ls) = Ok c /\ c_items c = [UOk u].
Proof.
  set (s := lit "fuzzy" ++ [160] ++ lit ", x").
  exists (commented 44 s), (commented_lines 44 s), rest_lines.
  exists (Unit None (MSimple (lit "a") (Some (lit "b"))) None (MSimple [] None) [lit "fuzzy"; lit "x"] [] [] [] StNeedsWork false).
  split; [apply str_file; [discriminate|reflexivity|vm_compute; reflexivity]|]. split; [|split; [|split; [|split]]].
  - apply (en_intro None [PComment 1 44 s] [lit "fuzzy"; lit "x"] [] [] [] false rest_lines None (MSimple [] None) None (MSimple (lit "a") (Some (lit "b")))).
    + apply (bc_flags 1 s [lit "fuzzy"; lit "x"] [] []); [apply flag_list_iff; vm_compute; reflexivity|constructor].
    + apply (kws_intro None false [] None [] (MSimple [] None) [] None); [apply of_none|apply pv_none|apply of_none|]. apply (bd_simple None false [_] (lit "a") [_] (lit "b")); apply own_line.
    + apply so_fuzzy. left. reflexivity.
  - repeat constructor.
  - intros (n & s' & fs & [E|[]] & T & I). injection E as _ <-.
    assert (X : tokens flag_separator s [lit "fuzzy" ++ [160]; lit "x"]).
    { apply (tk_word flag_separator [] (lit "fuzzy" ++ [160]) (lit ", x")); [intros c []|discriminate| |intros c r [= <- _]; right; reflexivity|].
      - intros c J. apply in_app_iff in J as [J|[<-|[]]]; [exact (letters_plain (lit "fuzzy") eq_refl c J)|]. intros [C|C]; [|discriminate]. vm_compute in C. intuition discriminate.
      - apply (tk_word flag_separator (lit ", ") (lit "x") [] []); [|discriminate|apply letters_plain; reflexivity|discriminate|constructor; intros c []].
        intros c J. cbn in J. destruct J as [<-|[<-|[]]]; [right; reflexivity|left; vm_compute; auto 10]. }
    apply (tokens_in _ _ _ _ T) in I. apply (tokens_in _ _ _ _ X) in I. destruct I as [E|[E|[]]]; discriminate.
  - reflexivity.
  - intros lib pf. eexists. split; vm_compute; reflexivity.
Qed.
(** A flag comment without flags. *)
Theorem empty_flag_refuted : exists ls cs ks u, file (str_stream ls) ls None (cs ++ ks) None /\ entry None (cs ++ ks) u /\ Forall comment_line cs
  /\ (forall f, ~ gettext_flag cs f) /\ u_flags u = [[]]
  /\ forall lib pf, exists c, read_catalogue lib pf (str_stream ls) = Ok c /\ c_items c = [UOk u].
Proof.
  exists (commented 44 []), (commented_lines 44 []), rest_lines.
  exists (Unit None (MSimple (lit "a") (Some (lit "b"))) None (MSimple [] None) [[]] [] [] [] StFinal false).
  split; [apply str_file; [discriminate|reflexivity|vm_compute; reflexivity]|]. split; [|split; [|split; [|split]]].
  - apply (en_intro None [PComment 1 44 []] [[]] [] [] [] false rest_lines None (MSimple [] None) None (MSimple (lit "a") (Some (lit "b")))).
    + apply (bc_flags 1 [] [[]] [] []); [apply flag_list_iff; vm_compute; reflexivity|constructor].
    + apply (kws_intro None false [] None [] (MSimple [] None) [] None); [apply of_none|apply pv_none|apply of_none|]. apply (bd_simple None false [_] (lit "a") [_] (lit "b")); apply own_line.
    + apply (so_final _ _ (lit "b")); [intros [E|[]]; discriminate|left; reflexivity|discriminate].
  - repeat constructor.
  - intros f (n & s' & fs & [E|[]] & T & I). injection E as _ <-. apply (tokens_in _ _ _ _ T) in I as (p & q & E & N & _). destruct p, f; try discriminate. contradiction.
  - reflexivity.
  - intros lib pf. eexists. split; vm_compute; reflexivity.
Qed.
(** A file name with a space. *)
Theorem isolated_refuted : exists ls cs ks u x, file (str_stream ls) ls None (cs ++ ks) None /\ entry None (cs ++ ks) u /\ Forall comment_line cs
  /\ comments_white blank 58 cs /\ gettext_locations cs [x] /\ length (u_locations u) = 2%nat /\ ~ In x (u_locations u)
  /\ forall lib pf, exists c, read_catalogue lib pf (str_stream ls) = Ok c /\ c_items c = [UOk u].
Proof.
  set (s := 8296 :: lit "a b" ++ 8297 :: lit ":1").
  exists (commented 58 s), (commented_lines 58 s), rest_lines.
  exists (Unit None (MSimple (lit "a") (Some (lit "b"))) None (MSimple [] None) [] [] [8296 :: lit "a"; lit "b" ++ 8297 :: lit ":1"] [] StFinal false), s.
  split; [apply str_file; [discriminate|reflexivity|vm_compute; reflexivity]|]. split; [|split; [|split; [|split; [|split; [|split]]]]].
  - apply (en_intro None [PComment 1 58 s] [] [] [8296 :: lit "a"; lit "b" ++ 8297 :: lit ":1"] [] false rest_lines None (MSimple [] None) None (MSimple (lit "a") (Some (lit "b")))).
    + apply (bc_locations 1 s [8296 :: lit "a"; lit "b" ++ 8297 :: lit ":1"] [] [] [] []); [apply words_iff; vm_compute; reflexivity|constructor].
    + apply (kws_intro None false [] None [] (MSimple [] None) [] None); [apply of_none|apply pv_none|apply of_none|]. apply (bd_simple None false [_] (lit "a") [_] (lit "b")); apply own_line.
    + apply (so_final _ _ (lit "b")); [intros []|left; reflexivity|discriminate].
  - repeat constructor.
  - intros n s' c [E|[]] I W. injection E as _ <-. cbn in I. repeat (destruct I as [<-|I]; [try (exfalso; vm_compute in W; intuition discriminate); vm_compute; auto 10|]). contradiction.
  - apply (gl_line 1 s [] [s] []); [|constructor]. rewrite <- (app_nil_r s) at 1. apply (ls_more [] s [] []); [intros c []| |discriminate|constructor; intros c []].
    apply lc_isolated; [intros I; cbn in I; intuition discriminate|]. intros c I B. cbn in I. repeat (destruct I as [<-|I]; [vm_compute in B; intuition discriminate|]). contradiction.
  - reflexivity.
  - intros [E|[E|[]]]; discriminate.
  - intros lib pf. eexists. split; vm_compute; reflexivity.
Qed.
