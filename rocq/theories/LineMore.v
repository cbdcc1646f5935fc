(** Comments that are taken for strings. *)
From Coq Require Import String Arith NArith Bool List Lia.
From Verif Require Import ModelBase ModelRegex ModelLine SpecLine BaseFacts LineFacts LineThms.
Import ListNotations.
Local Open Scope N_scope.

Lemma quoted_comment text flags kw body : quoted_line (lit "# " ++ text) flags kw body -> string_text text.
Proof.
  intros (mark & w1 & w2 & w3 & w4 & E & Hm & Hk & H1 & H2 & H3 & H4 & Hb).
      assert (w1 = []) as ->.
    { destruct w1 as [|x w1]; [reflexivity|]. exfalso. cbn in E. injection E as <- _.
      assert (white 35) as W by (apply H1; left; reflexivity). apply is_ws_white in W. discriminate W. }
    cbn [app] in E.
    inversion Hm; subst; cbn [lit list_ascii_of_string map app] in E.
    + exfalso. destruct w2 as [|x w2]; cbn [app] in E.
      * destruct kw as [k|]; cbn [opt_str app] in E.
        -- destruct (keyword_head k (Hk k eq_refl)) as (k' & ->). discriminate E.
        -- destruct w3 as [|x w3]; cbn [app] in E; [discriminate E|]. injection E as <- _.
           assert (white 35) as W by (apply H3; left; reflexivity). apply is_ws_white in W. discriminate W.
      * injection E as <- _.
        assert (white 35) as W by (apply H2; left; reflexivity). apply is_ws_white in W. discriminate W.
    + injection E as E. destruct w2 as [|x w2]; cbn [app] in E.
      * destruct kw as [k|]; cbn [opt_str app] in E.
        -- destruct (keyword_head k (Hk k eq_refl)) as (k' & ->). discriminate E.
        -- destruct w3 as [|x w3]; cbn [app] in E; [discriminate E|]. injection E as _ E.
           exists None, body, [], w3, w4. cbn [opt_str app]. split; [exact E|].
           split; [intros ? [=]|]. split; [intros ? []|]. split; [|exact H4].
           intros y Hy; apply H3; right; exact Hy.
      * injection E as _ E. exists kw, body, w2, w3, w4. split; [exact E|].
        split; [exact Hk|]. split; [intros y Hy; apply H2; right; exact Hy|]. auto.
    + discriminate E.
    + discriminate E.
    + discriminate E.
Qed.

Theorem string_text_affected text n : one_line text ->
  (string_text text <-> exists t, parse_line (lit "# " ++ text) n = Some (PCont n [] t) \/ exists k, keyword k /\ parse_line (lit "# " ++ text) n = Some (PMessage n [] k t)).
Proof.
  intros O. split.
  - intros (kw & body & w & w' & w'' & E & K & B & B' & B'').
    assert (quoted_line (lit "# " ++ text) [] kw body) as Q.
    { exists (lit "#"), [], (32 :: w), w', w''. split; [rewrite E; reflexivity|]. split; [constructor|]. split; [exact K|]. split; [intros c []|].
      split; [intros c [<-|I]; [vm_compute; tauto|exact (B c I)]|]. split; [exact B'|]. split; [exact B''|].
      intros I. apply O. rewrite E. rewrite !in_app_iff. tauto. }
    rewrite (parse_line_quoted _ n _ _ _ Q). destruct kw as [k|]; eexists; [right; exists k; split; [apply K; reflexivity|]|left]; reflexivity.
  - intros (t & H). 
    assert (one_line (lit "# " ++ text)) as O' by (intros I; cbn in I; destruct I as [I|[I|I]]; [discriminate|discriminate|exact (O I)]).
    pose proof (parse_line_spec (lit "# " ++ text) n O') as L.
    destruct H as [H|(k & _ & H)]; rewrite H in L; inversion L as [| flags kw body Q| |]; exact (quoted_comment text flags kw body Q).
Qed.
