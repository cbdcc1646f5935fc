(** Exactly when flags and locations are those of GNU gettext. *)
From Coq Require Import String Arith NArith ZArith Bool List Lia.
From Verif Require Import ModelBase ModelUtf8 ModelLine ModelFormula ModelData ModelSource ModelReader
  SpecLine SpecFormula SpecSource SpecReader SpecBlock SpecHeader SpecFile SpecFlags BaseFacts LineFacts LineThms CommentFacts BlockFacts SoundFacts BlocksFacts FileFacts EntryThms FileIntro FlagFacts.
Import ListNotations.
Local Open Scope N_scope.

Lemma tokens_clean sep s ws : tokens sep s ws -> forall f x, In f ws -> In x f -> ~ sep x.
Proof. intros T. induction T as [|w x r ws W N X R T IH]; intros f y I J; [contradiction|]. destruct I as [<-|I]; [apply X, J|exact (IH f y I J)]. Qed.
Lemma split_on_incl p s : forall g x, In g (split_on p s) -> In x g -> In x s.
Proof.
  induction s as [|c s IH]; intros g x I J; [destruct I as [<-|[]]; contradiction|]. cbn in I. destruct (p c).
  - destruct I as [<-|I]; [contradiction|]. right. exact (IH g x I J).
  - destruct (split_on p s) as [|h t] eqn:E; [destruct I as [<-|[]]; destruct J as [<-|[]]; left; reflexivity|].
    destruct I as [<-|I]; [destruct J as [<-|J]; [left; reflexivity|right; exact (IH h x (or_introl eq_refl) J)]|right; exact (IH g x (or_intror I) J)].
Qed.
Lemma trim_incl g x : In x (trim g) -> In x g.
Proof. intros J. destruct (trim_decomp g) as (a & b & E & _). rewrite E. rewrite !in_app_iff. auto. Qed.
Lemma flag_white cs F N L C f x : block_comments cs F N L C -> In f F -> In x f -> white x -> exists n s, In (PComment n 44 s) cs /\ In x s.
Proof.
  intros B I J W. apply (flags_of cs F _ _ _ f B) in I as (n & s & fs & Is & Fl & If). exists n, s. split; [exact Is|].
  apply flag_list_iff in Fl. subst fs. apply in_map_iff in If as (g & <- & Ig). apply (split_on_incl (N.eqb 44) s g); [exact Ig|]. exact (trim_incl g x J).
Qed.
Theorem flags_exact lib pf evs ls e pl tl c k u : file evs ls e pl tl -> read_catalogue lib pf evs = Ok c -> nth_error (c_items c) k = Some (UOk u) ->
  exists forms cs ks, unit_at lib pf pl tl c k forms (cs ++ ks) u /\ Forall comment_line cs /\ ~ Exists comment_line ks
    /\ (comments_white c_white 44 cs ->
        ((forall f, In f (u_flags u) /\ f <> [] <-> gettext_flag cs f) <-> forall f x, In f (u_flags u) -> In x f -> ~ white x)).
Proof.
  intros Fi R Nk. destruct (unit_comments lib pf evs ls e pl tl c k u Fi R Nk) as (forms & cs & ks & F & U & B & Ef & Id & Nd & Nks & Ks & Kw).
  exists forms, cs, ks. split; [exact U|]. split; [clear -B; induction B; constructor; try exact Logic.I; assumption|].
  split; [intros Ex; apply Exists_exists in Ex as (l & I & Cl); specialize (Ks l I); destruct l; contradiction|].
  intros W. split.
  - intros H f x I J Hx. assert (Nf : f <> []) by (intros ->; contradiction). destruct (proj1 (H f) (conj I Nf)) as (n & s & ws & _ & T & If).
    apply (tokens_clean _ _ _ T f x If J). left. apply Id in I. destruct (flag_white cs F _ _ _ f x B I J Hx) as (n' & s' & Is & Js). exact (W n' s' x Is Js Hx).
  - intros H. (* as in flags_partial *)
    intros f. split.
    + intros (I & Nf). apply Id in I. pose proof I as I0. apply (flags_of cs F _ _ _ f B) in I as (n & s & fs & Is & Fl & If). destruct (tokens_exist flag_separator separator_dec s) as (ws & T). exists n, s, ws.
      split; [exact Is|]. split; [exact T|]. apply (tokens_in flag_separator s ws f T). apply (flag_token s fs f Fl); auto; [intros x J Hx; exact (W n s x Is J Hx)|]. intros x J. apply (H f x); [apply Id; exact I0|exact J].
    + intros (n & s & ws & Is & T & Iw). pose proof (proj1 (tokens_in flag_separator s ws f T) Iw) as Tk.
      split; [|destruct Tk as (p & q & _ & Nf & _); exact Nf]. apply Id. apply (flags_of cs F _ _ _ f B). exists n, s, (map trim (split_on (N.eqb 44) s)).
      assert (Fl : flag_list s (map trim (split_on (N.eqb 44) s))) by (apply flag_list_iff; reflexivity). split; [exact Is|]. split; [exact Fl|].
      apply (token_flag s _ f Fl); [intros x J Hx; exact (W n s x Is J Hx)| |exact Tk]. intros g x Ig J. apply (H g x); [|exact J]. apply Id. apply (flags_of cs F _ _ _ g B). exists n, s, (map trim (split_on (N.eqb 44) s)). auto.
Qed.

(** * Locations *)
Lemma locations_plain s xs : (forall c, In c s -> white c -> blank c) -> locations s xs -> (forall x c, In x xs -> In c x -> ~ blank c) -> words s xs.
Proof.
  intros W H. induction H as [w B|w x r xs B X R H IH]; intros P; [constructor; intros c I; apply blank_white, B, I|].
  apply wd_word; [intros c I; apply blank_white, B, I| | |intros c r' E; apply blank_white; exact (R c r' E)|].
  - inversion X; [assumption|discriminate].
  - intros c I Hc. apply (P x c (or_introl eq_refl) I). apply W; [rewrite !in_app_iff; auto|exact Hc].
  - apply IH; [intros c I; apply W; rewrite !in_app_iff; auto|]. intros y c I. apply P. right. exact I.
Qed.
Lemma words_clean s xs : words s xs -> forall x c, In x xs -> In c x -> ~ white c.
Proof. intros H. induction H as [|w x r xs B N X R H IH]; intros y c I J; [contradiction|]. destruct I as [<-|I]; [apply X, J|exact (IH y c I J)]. Qed.
Lemma locations_same cs F N L C : block_comments cs F N L C -> comments_white blank 58 cs -> forall L', gettext_locations cs L' ->
  (L' = L <-> forall x c, In x L' -> In c x -> ~ blank c).
Proof.
  intros B W L' G. split.
  - intros ->. clear W G. induction B as [|n s fs ls F N L C H B IH|n s ws ls F N L C H B IH|n s ls F N L C B IH|n s ls F N L C B IH|n k s ls F N L C H B IH]; intros x c I J; try exact (IH x c I J); [contradiction|].
    apply in_app_iff in I as [I|I]; [|exact (IH x c I J)]. intros Hc. exact (words_clean _ _ H x c I J (blank_white c Hc)).
  - revert L' G. induction B as [|n s fs ls F N L C H B IH|n s ws ls F N L C H B IH|n s ls F N L C B IH|n s ls F N L C B IH|n k s ls F N L C H B IH]; intros L' G P.
    all: try (assert (IH' := IH (fun n s c I => W n s c (or_intror I)))).
    + inversion G. reflexivity.
    + inversion G; subst. apply IH'; assumption.
    + inversion G as [|? ? ? xs L0 Lo Gl|? ? ? ? ? Nk]; subst; [|contradiction].
      assert (Ws : words s xs) by (apply locations_plain; [intros c; apply (W n s c (or_introl eq_refl))|exact Lo|intros x c I; apply P, in_app_iff; left; exact I]).
      apply words_iff in Ws. apply words_iff in H. subst. f_equal. apply IH'; [exact Gl|]. intros x c I. apply P, in_app_iff. right. exact I.
    + inversion G; subst. apply IH'; assumption.
    + inversion G; subst. apply IH'; assumption.
    + inversion G as [|? ? ? xs L0 Lo Gl|]; subst; [exfalso; apply H; right; left; reflexivity|]. apply IH'; assumption.
Qed.
Theorem locations_exact lib pf evs ls e pl tl c k u : file evs ls e pl tl -> read_catalogue lib pf evs = Ok c -> nth_error (c_items c) k = Some (UOk u) ->
  exists forms cs ks, unit_at lib pf pl tl c k forms (cs ++ ks) u /\ Forall comment_line cs /\ ~ Exists comment_line ks
    /\ (comments_white blank 58 cs -> forall L, gettext_locations cs L -> (L = u_locations u <-> forall x c, In x L -> In c x -> ~ blank c)).
Proof.
  intros Fi R Nk. destruct (unit_comments lib pf evs ls e pl tl c k u Fi R Nk) as (forms & cs & ks & F & U & B & Ef & Id & Nd & Nks & Ks & Kw).
  exists forms, cs, ks. split; [exact U|]. split; [|split].
  - clear -B. induction B; constructor; try exact Logic.I; assumption.
  - intros Ex. apply Exists_exists in Ex as (l & I & Cl). specialize (Ks l I). destruct l; contradiction.
  - intros W. exact (locations_same _ _ _ _ _ B W).
Qed.
