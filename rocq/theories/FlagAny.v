(** Flags, locations and notes compared with GNU gettext, for any stream. *)
From Coq Require Import String Arith NArith ZArith Bool List Lia.
From Verif Require Import ModelBase ModelUtf8 ModelLine ModelFormula ModelData ModelSource ModelReader
  SpecLine SpecFormula SpecSource SpecReader SpecBlock SpecHeader SpecFile SpecAny SpecFlags BaseFacts LineFacts LineThms CommentFacts BlockFacts SoundFacts BlocksFacts FileFacts
  EntryThms FileIntro FlagFacts FlagMore NoteFacts PieceFacts AnyFacts AnyParts.
Import ListNotations.
Local Open Scope N_scope.

Theorem flags_any lib pf evs bs fin rs c k u : pieces evs bs fin -> answers 1 bs fin rs -> read_catalogue lib pf evs = Ok c -> nth_error (c_items c) k = Some (UOk u) ->
  exists forms cs ks, stream_unit lib pf (kept rs) c k forms (cs ++ ks) u /\ Forall comment_line cs /\ ~ Exists comment_line ks
    /\ (comments_white c_white 44 cs ->
        (u_state u = StNeedsWork -> gettext_flag cs (lit "fuzzy"))
        /\ ((forall f x, In f (u_flags u) -> In x f -> ~ white x) ->
            (u_state u = StNeedsWork <-> gettext_flag cs (lit "fuzzy")) /\ forall f, In f (u_flags u) /\ f <> [] <-> gettext_flag cs f)).
Proof.
  intros Pi An R Nk. destruct (any_comments lib pf evs bs fin rs c k u Pi An R Nk) as (forms & cs & ks & F & U & B & Ef & Id & Nd & Nks & Ks & Kw).
  exists forms, cs, ks. split; [exact U|]. split; [|split].
  - clear -B. induction B; constructor; try exact Logic.I; assumption.
  - intros Ex. apply Exists_exists in Ex as (l & I & Cl). specialize (Ks l I). destruct l; contradiction.
  - intros W. assert (St : u_state u = StNeedsWork <-> In (lit "fuzzy") (u_flags u)).
    { apply (unit_state_any lib pf evs c u R). exact (nth_error_In _ _ Nk). }
    assert (A : forall f, In f (u_flags u) -> f <> [] -> (forall x, In x f -> ~ white x) -> gettext_flag cs f).
    { intros f I Nf X. apply Id in I. apply (flags_of cs F _ _ _ f B) in I as (n & s & fs & Is & Fl & If). destruct (tokens_exist flag_separator separator_dec s) as (ws & T). exists n, s, ws.
      split; [exact Is|]. split; [exact T|]. apply (tokens_in flag_separator s ws f T). apply (flag_token s fs f Fl); auto. intros x J Hx. exact (W n s x Is J Hx). }
    assert (Fz : forall x, In x (lit "fuzzy") -> ~ white x).
    { intros x I Hx. cbn in I. repeat (destruct I as [<-|I]; [vm_compute in Hx; intuition discriminate|]). contradiction. }
    split; [intros Hs; apply A; [apply St; exact Hs|discriminate|exact Fz]|]. intros X.
    assert (Z : forall f, In f (u_flags u) /\ f <> [] <-> gettext_flag cs f).
    { intros f. split; [intros [I Nf]; apply A; auto; intros x; exact (X f x I)|]. intros (n & s & ws & Is & T & Iw). pose proof (proj1 (tokens_in flag_separator s ws f T) Iw) as Tk.
      split; [|destruct Tk as (p & q & _ & Nf & _); exact Nf]. apply Id. apply (flags_of cs F _ _ _ f B). exists n, s, (map trim (split_on (N.eqb 44) s)).
      assert (Fl : flag_list s (map trim (split_on (N.eqb 44) s))) by (apply flag_list_iff; reflexivity). split; [exact Is|]. split; [exact Fl|].
      apply (token_flag s _ f Fl); [intros x J Hx; exact (W n s x Is J Hx)| |exact Tk]. intros g x Ig J. apply (X g x); [|exact J]. apply Id. apply (flags_of cs F _ _ _ g B). exists n, s, (map trim (split_on (N.eqb 44) s)). auto. }
    split; [|exact Z]. rewrite St. rewrite <- (Z (lit "fuzzy")). split; [intros H; split; [exact H|discriminate]|tauto].
Qed.
Theorem flags_exact_any lib pf evs bs fin rs c k u : pieces evs bs fin -> answers 1 bs fin rs -> read_catalogue lib pf evs = Ok c -> nth_error (c_items c) k = Some (UOk u) ->
  exists forms cs ks, stream_unit lib pf (kept rs) c k forms (cs ++ ks) u /\ Forall comment_line cs /\ ~ Exists comment_line ks
    /\ (comments_white c_white 44 cs ->
        ((forall f, In f (u_flags u) /\ f <> [] <-> gettext_flag cs f) <-> forall f x, In f (u_flags u) -> In x f -> ~ white x)).
Proof.
  intros Pi An R Nk. destruct (any_comments lib pf evs bs fin rs c k u Pi An R Nk) as (forms & cs & ks & F & U & B & Ef & Id & Nd & Nks & Ks & Kw).
  exists forms, cs, ks. split; [exact U|]. split; [clear -B; induction B; constructor; try exact Logic.I; assumption|].
  split; [intros Ex; apply Exists_exists in Ex as (l & I & Cl); specialize (Ks l I); destruct l; contradiction|].
  intros W. split.
  - intros H f x I J Hx. assert (Nf : f <> []) by (intros ->; contradiction). destruct (proj1 (H f) (conj I Nf)) as (n & s & ws & _ & T & If).
    apply (tokens_clean _ _ _ T f x If J). left. apply Id in I. destruct (flag_white cs F _ _ _ f x B I J Hx) as (n' & s' & Is & Js). exact (W n' s' x Is Js Hx).
  - intros H. (* as in flags_partial *)
    intros f. split.
    + intros (I & Nf). apply Id in I. pose proof I as I0. apply (flags_of cs F _ _ _ f B) in I as (n & s & fs & Is & Fl & If). destruct (tokens_exist flag_separator separator_dec s) as (ws & T). exists n, s, ws.
      split; [exact Is|]. split; [exact T|]. apply (tokens_in flag_separator s ws f T). apply (flag_token s fs f Fl); auto; [intros x J Hx; exact (W n s x Is J Hx)|]. intros x J. apply (H f x); [apply Id; exact I0|exact J].
    + intros (n & s & ws & Is & T & Iw). pose proof (proj1 (tokens_in flag_separator s ws f T) Iw) as Tk.
      split; [|destruct Tk as (p & q & _ & Nf & _); exact Nf]. apply Id. apply (flags_of cs F _ _ _ f B). exists n, s, (map trim (split_on (N.eqb 44) s)).
      assert (Fl : flag_list s (map trim (split_on (N.eqb 44) s))) by (apply flag_list_iff; reflexivity). split; [exact Is|]. split; [exact Fl|].
      apply (token_flag s _ f Fl); [intros x J Hx; exact (W n s x Is J Hx)| |exact Tk]. intros g x Ig J. apply (H g x); [|exact J]. apply Id. apply (flags_of cs F _ _ _ g B). exists n, s, (map trim (split_on (N.eqb 44) s)). auto.
Qed.
Theorem locations_any lib pf evs bs fin rs c k u : pieces evs bs fin -> answers 1 bs fin rs -> read_catalogue lib pf evs = Ok c -> nth_error (c_items c) k = Some (UOk u) ->
  exists forms cs ks, stream_unit lib pf (kept rs) c k forms (cs ++ ks) u /\ Forall comment_line cs /\ ~ Exists comment_line ks
    /\ (comments_white blank 58 cs -> (forall n s, In (PComment n 58 s) cs -> ~ In 8296 s) -> forall L, gettext_locations cs L <-> L = u_locations u).
Proof.
  intros Pi An R Nk. destruct (any_comments lib pf evs bs fin rs c k u Pi An R Nk) as (forms & cs & ks & F & U & B & Ef & Id & Nd & Nks & Ks & Kw).
  exists forms, cs, ks. split; [exact U|]. split; [|split].
  - clear -B. induction B; constructor; try exact Logic.I; assumption.
  - intros Ex. apply Exists_exists in Ex as (l & I & Cl). specialize (Ks l I). destruct l; contradiction.
  - intros W No. exact (locations_of _ _ _ _ _ B W No).
Qed.
Theorem locations_exact_any lib pf evs bs fin rs c k u : pieces evs bs fin -> answers 1 bs fin rs -> read_catalogue lib pf evs = Ok c -> nth_error (c_items c) k = Some (UOk u) ->
  exists forms cs ks, stream_unit lib pf (kept rs) c k forms (cs ++ ks) u /\ Forall comment_line cs /\ ~ Exists comment_line ks
    /\ (comments_white blank 58 cs -> forall L, gettext_locations cs L -> (L = u_locations u <-> forall x c, In x L -> In c x -> ~ blank c)).
Proof.
  intros Pi An R Nk. destruct (any_comments lib pf evs bs fin rs c k u Pi An R Nk) as (forms & cs & ks & F & U & B & Ef & Id & Nd & Nks & Ks & Kw).
  exists forms, cs, ks. split; [exact U|]. split; [|split].
  - clear -B. induction B; constructor; try exact Logic.I; assumption.
  - intros Ex. apply Exists_exists in Ex as (l & I & Cl). specialize (Ks l I). destruct l; contradiction.
  - intros W. exact (locations_same _ _ _ _ _ B W).
Qed.
Theorem notes_any lib pf evs bs fin rs c k u : pieces evs bs fin -> answers 1 bs fin rs -> read_catalogue lib pf evs = Ok c -> nth_error (c_items c) k = Some (UOk u) ->
  exists forms cs ks, stream_unit lib pf (kept rs) c k forms (cs ++ ks) u /\ Forall comment_line cs /\ ~ Exists comment_line ks /\ u_notes u = flat_map line_notes cs.
Proof.
  intros Pi An R Nk. destruct (any_comments lib pf evs bs fin rs c k u Pi An R Nk) as (forms & cs & ks & F & U & B & Ef & Id & Nd & Nks & Ks & Kw).
  exists forms, cs, ks. split; [exact U|]. split; [|split].
  - clear -B. induction B; constructor; try exact Logic.I; assumption.
  - intros Ex. apply Exists_exists in Ex as (l & I & Cl). specialize (Ks l I). destruct l; contradiction.
  - clear -B. remember (u_notes u) as N0. remember (u_locations u) as L0. remember (u_comments u) as C0. clear HeqN0 HeqL0 HeqC0. induction B; cbn [flat_map line_notes]; try reflexivity; try exact IHB; try (cbn; rewrite IHB; reflexivity).
    match goal with Nk : ~ In ?x _ |- _ => cbn [In] in Nk; destruct (N.eqb_spec x 46) as [E1|_]; [exfalso; apply Nk; auto|]; destruct (N.eqb_spec x 32) as [E1|_]; [exfalso; apply Nk; auto|] end. exact IHB.
Qed.
