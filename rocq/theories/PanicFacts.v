(** When the evaluation of a formula panics; equality of formulas. *)
From Coq Require Import Arith NArith ZArith Bool List Lia.
From Verif Require Import ModelBase ModelLine ModelFormula ModelData SpecFormula FormulaFacts FormulaThms EvalFacts.
Import ListNotations.
Local Open Scope Z_scope.

Section Panic.
  Variable n : Z.
  Hypothesis Hn : in64 n.
  Lemma runs_unique e v v' : literals_ok e -> runs n e v -> runs n e v' -> v = v'.
  Proof. intros L A B. apply execute_runs in A, B; auto. congruence. Qed.
  Definition fine (e : node) : Prop := exists v, execute true e n = Some v /\ runs n e v /\ ~ negates_min n e.
  Definition stuck (e : node) : Prop := execute true e n = None /\ negates_min n e.
  Ltac same H H' := pose proof (runs_unique _ _ _ ltac:(eassumption) H H'); subst.
  Lemma run_of e v : literals_ok e -> execute true e n = Some v -> runs n e v.
  Proof. intros L E. apply execute_runs; auto. apply execute_checks, E. Qed.
  Theorem panics e : literals_ok e -> fine e \/ stuck e.
  Proof.
    unfold fine, stuck. induction e as [|w|op x IH|op x IHx y IHy|x IHx y IHy z IHz]; intros L; pose proof L as L0; cbn [literals_ok] in L.
    - left. exists n. split; [reflexivity|]. split; [constructor|]. intros K; inversion K.
    - left. exists w. split; [reflexivity|]. split; [constructor|]. intros K; inversion K.
    - destruct (IH L) as [(v & E & R & NM)|(E & NM)].
      + destruct (execute true (NUn op x) n) as [r|] eqn:Er.
        * left. exists r. split; [reflexivity|]. split; [apply run_of; assumption|]. intros K. inversion K as [x' Rm|op' x' K'| | | | | ]; subst; [|contradiction].
          pose proof (runs_unique _ _ _ L R Rm) as ->. cbn [execute] in Er. rewrite E in Er. cbn in Er. discriminate Er.
        * right. split; [reflexivity|]. cbn [execute] in Er. rewrite E in Er. destruct op; [|discriminate Er]. cbn [andb] in Er.
          destruct (Z.eqb_spec v i64_min_z) as [->|]; [|discriminate Er]. apply nm_here. exact R.
      + right. split; [cbn [execute]; rewrite E; reflexivity|]. apply nm_un, NM.
    - destruct L as [Lx Ly]. destruct (IHx Lx) as [(v & E & R & NM)|(E & NM)]; [|right; split; [cbn [execute]; rewrite E; reflexivity|apply nm_left, NM]].
      destruct (IHy Ly) as [(v' & E' & R' & NM')|(E' & NM')].
      + left. assert (exists r, execute true (NBin op x y) n = Some r) as (r & Er).
        { cbn [execute]. rewrite E, E'. destruct op; eauto; destruct (negb (v =? 0)); eauto. }
        exists r. split; [exact Er|]. split; [apply run_of; assumption|]. intros K; inversion K; subst; contradiction.
      + destruct (execute true (NBin op x y) n) as [r|] eqn:Er.
        * left. exists r. split; [reflexivity|]. split; [apply run_of; assumption|]. intros K; inversion K as [| |? ? ? K'|? ? ? l Rl Re K'| | |]; subst; [contradiction|].
          pose proof (runs_unique _ _ _ Lx R Rl) as <-. cbn [execute] in Er. rewrite E, E' in Er.
          destruct op; cbn [reached] in Re; try discriminate Er.
          -- destruct (Z.eqb_spec v 0); [contradiction|discriminate Er].
          -- destruct (Z.eqb_spec v 0); [discriminate Er|contradiction].
        * right. split; [reflexivity|]. apply (nm_right _ _ _ _ v); [exact R| |exact NM']. cbn [execute] in Er. rewrite E, E' in Er.
          destruct op; cbn [reached]; try exact I; destruct (Z.eqb_spec v 0); cbn [negb] in Er; try assumption; discriminate Er.
    - destruct L as (Lx & Ly & Lz). destruct (IHx Lx) as [(v & E & R & NM)|(E & NM)]; [|right; split; [cbn [execute]; rewrite E; reflexivity|apply nm_test, NM]].
      destruct (Z.eqb_spec v 0) as [->|V].
      + destruct (IHz Lz) as [(w & E' & R' & NM')|(E' & NM')].
        * left. exists w. split; [cbn [execute]; rewrite E; exact E'|]. split; [apply r_else; assumption|].
          intros K; inversion K as [| | | |? ? ? K'|? ? ? c Rc NZ K'|? ? ? Rc K']; subst; try contradiction.
          apply NZ. exact (runs_unique _ _ _ Lx Rc R).
        * right. split; [cbn [execute]; rewrite E; exact E'|]. apply nm_else; assumption.
      + destruct (IHy Ly) as [(w & E' & R' & NM')|(E' & NM')].
        * left. exists w. split; [cbn [execute]; rewrite E; destruct (Z.eqb_spec v 0); [contradiction|exact E']|]. split; [eapply r_then; eassumption|].
          intros K; inversion K as [| | | |? ? ? K'|? ? ? c Rc NZ K'|? ? ? Rc K']; subst; try contradiction.
          apply V. exact (runs_unique _ _ _ Lx R Rc).
        * right. split; [cbn [execute]; rewrite E; destruct (Z.eqb_spec v 0); [contradiction|exact E']|]. eapply nm_then; eassumption.
  Qed.
End Panic.
Theorem execute_panics_iff e n : in64 n -> literals_ok e -> (execute true e n = None <-> negates_min n e).
Proof.
  intros Hn L. destruct (panics n Hn e L) as [(v & E & _ & NM)|(E & NM)]; split; try tauto. congruence.
Qed.
Theorem get_value_panics_iff pf f count w : literals_ok (pf_formula f) -> congruent w (Z.of_N count) ->
  (forms_get_value pf f count = None <-> overflow_checks pf = true /\ negates_min w (pf_formula f)).
Proof.
  intros L C. pose proof C as [Hw _]. apply congruent_wrap in C as ->. unfold forms_get_value, formula_execute.
  destruct (overflow_checks pf).
  - rewrite <- (execute_panics_iff _ _ Hw L). destruct (execute true (pf_formula f) (wrap64 (Z.of_N count))) as [v|].
    + split; [|intros [_ H]; discriminate H]. destruct (v <? 0); [discriminate|]. destruct (_ <? _)%N; discriminate.
    + tauto.
  - destruct (execute_total (pf_formula f) _ Hw L) as (v & -> & _). split; [|intros [H _]; discriminate H].
    destruct (v <? 0); [discriminate|]. destruct (_ <? _)%N; discriminate.
Qed.

(** * Equality *)
Theorem node_eqb_iff a b : node_eqb a b = true <-> a = b.
Proof.
  revert b. induction a as [|v|op x IH|op x IHx y IHy|x IHx y IHy z IHz]; intros [|v'|op' x'|op' x' y'|x' y' z']; cbn [node_eqb]; try (split; congruence).
  - rewrite Z.eqb_eq. split; congruence.
  - rewrite andb_true_iff, IH. destruct op, op'; cbn; split; try (intros [? ?]; congruence); intros E; try discriminate E; injection E as E1; subst; auto.
  - rewrite !andb_true_iff, IHx, IHy. destruct op, op'; cbn; split; try (intros [[? ?] ?]; congruence); intros E; try discriminate E; injection E as E1 E2; subst; auto.
  - rewrite !andb_true_iff, IHx, IHy, IHz. split; [intros [[? ?] ?]; congruence|intros E; injection E; auto].
Qed.
