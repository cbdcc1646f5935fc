(** C120 with the texts of errors about formulas. *)
From Coq Require Import String Arith NArith ZArith Bool List Lia.
From Verif Require Import ModelBase ModelLine ModelFormula ModelData ModelUtf8 ModelSource ModelReader ModelParser ModelReport
  SpecLine SpecSource SpecReader SpecBlock SpecHeader SpecFault SpecWriter SpecParser SpecBadEnds SpecBadTexts BaseFacts LineFacts MapFacts FileIntro ParserThms ReportFacts ReportThms BadTextFacts.
Import ListNotations.
Local Open Scope N_scope.

(** C120: with the texts of errors about formulas, reading ends with possible errors only, ... *)
Theorem C120_texts_only : forall early expected lib pf evs x, cautious early -> ends_with_error (report_catalogue early expected lib pf evs) x -> text_error expected pf x.
Proof. intros early expected lib pf evs x Ca. exact (text_possible early expected Ca lib pf evs x). Qed.
Print Assumptions C120_texts_only.
(** ... with each that is not about a formula, ... *)
Theorem C120_texts_others : forall early expected lib pf x, cautious early -> possible_error pf x -> x <> EPluralForms formula_error_text ->
  exists evs bs f, delivers evs bs f /\ ends_with_error (report_catalogue early expected lib pf evs) x.
Proof. intros early expected lib pf x Ca. exact (other_comes_out early expected Ca lib pf x). Qed.
Print Assumptions C120_texts_others.
(** ... and with each about a formula, if there is but one error in this formula. *)
Theorem C120_texts_formulas : forall early expected lib pf def s ft, cautious early -> formula_fault def s ft -> (forall ft', formula_fault def s ft' -> ft' = ft) ->
  exists evs bs f, delivers evs bs f /\ ends_with_error (report_catalogue early expected lib pf evs) (EPluralForms (fault_text (expected s ft) ft)).
Proof. intros early expected lib pf def s ft Ca. exact (formula_comes_out early expected Ca lib pf def s ft). Qed.
Print Assumptions C120_texts_formulas.
(** A formula with one error. *)
Example C120_texts_example : forall ft, formula_fault (lit "nplurals=2; plural=n n;") (lit "n n") ft <-> ft = FToken 2 (lit "n") 3.
Proof.
  intros ft. split.
  - intros (vs & w1 & m & w2 & _ & _ & _ & _ & _ & E & B1 & B2 & _ & _ & _ & F). destruct (n_n_middle _ _ _ E B1 B2) as (_ & -> & _). exact (n_n_fault _ F).
  - intros ->. set (def := lit "nplurals=2; plural=n n;").
    assert (forall c, In c def -> c < 128) as As by (intros c I; cbn in I; lia).
    assert (one_line def) as O by (intros I; cbn in I; intuition discriminate).
    assert (not_white_first def) as Wf by (intros c r E W; injection E as <- _; apply is_ws_white in W; discriminate W).
    assert (not_white_last def) as Wl.
    { intros c r E W. change def with (lit "nplurals=2; plural=n n" ++ [59]) in E. apply app_inj_tail in E as [_ <-]. apply is_ws_white in W. discriminate W. }
    destruct (result_fault (fun _ _ => false) (lit "n n") (FToken 2 (lit "n") 3) never_cautious) as (w1 & m & w2 & E & B1 & B2 & N & W1 & W2 & FO); [vm_compute; reflexivity|].
    pose proof (parse_map_spec def O) as PS. assert (exists values, parse_map def = Some values /\ sm_get (lit "plural") values = Some (lit "n n")) as (values & Pm & Fs) by (eexists; split; vm_compute; reflexivity).
    rewrite Pm in PS. destruct PS as [DL (vs & Bi & Gv)]. exists vs, w1, m, w2.
    split; [|split; [intros c I; left; specialize (As c I); lia|split; [exact DL|split; [exact Bi|split; [rewrite <- Gv; exact Fs|do 6 (split; [assumption|]); assumption]]]]].
    split; [split|split; [split; [intros I; cbn in I; intuition discriminate|intros I; cbn in I; intuition discriminate]|]].
    + intros c r Ec W. injection Ec as <- _. apply is_ws_white in W. discriminate W.
    + intros c r Ec W. change (lit "Plural-Forms") with (lit "Plural-Form" ++ [115]) in Ec. apply app_inj_tail in Ec as [_ <-]. apply is_ws_white in W. discriminate W.
    + exists [def]. split; [discriminate|]. split; [reflexivity|]. constructor; [|constructor]. split; [split; assumption|assumption].
Qed.
Example C120_texts_read : report_catalogue (fun _ _ => false) (fun _ _ => []) demo_lib demo_pf (lf_stream ["msgid """""; "msgstr ""Plural-Forms: nplurals=2; plural=n n;"""]%string)
  = Err (EPluralForms (lit "Unrecognized token `n` found at 2:3")).
Proof. vm_compute. reflexivity. Qed.
